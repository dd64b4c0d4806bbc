(** Threads making whole calls on one vec: what the runs look like. *)
From Coq Require Import List NArith ZArith Bool Arith Lia.
From Verif Require Import Base BaseFacts LabelModel LabelSpec GroupProofs LawProofs ConcModel ConcSpec ConcProofs ConcTheorems ConcVecModel ConcVecSpec
  ConcVec ConcVecTheorems ConcLabelModel ConcLabelSpec ConcLabelProofs ConcLabelTheorems ConcCallModel ConcBoth ConcHandles
  ConcScript ConcCallSpec.
Import ListNotations.
Local Open Scope nat_scope.

(** ** Runs in general *)
Section Runs.
  Context {Sh Op Res Mic : Type}.
  Variable M : machine Sh Op Res Mic.
  Variable prog : program Op Res.
  Variable sh0 : Sh.
  Notation cfg s := (run M prog s (start_config sh0)).

  Lemma done_grows : forall s s' i, exists later, t_done (c_th (cfg (s ++ s')) i) = t_done (c_th (cfg s) i) ++ later.
  Proof.
    intros s s' i. induction s' as [|[j ch] s' (later & IH)] using rev_ind.
    - exists []. now rewrite !app_nil_r.
    - rewrite app_assoc, run_app. set (c := cfg (s ++ s')) in *. cbn [run]. unfold step.
      destruct (t_cur (c_th c j)) as [[op mic]|].
      + destruct (m_step M j ch mic (c_sh c)) as [[sh' [mic'|r]]|]; cbn [c_th]; [..|eauto];
          (destruct (Nat.eq_dec i j) as [->|NE]; [rewrite upd_same; cbn [t_done]|rewrite upd_other by exact NE; eauto]); [eauto|].
        exists (later ++ [(op, r)]). now rewrite IH, app_assoc.
      + destruct (prog j (t_done (c_th c j))); cbn [c_th]; [|eauto].
        destruct (Nat.eq_dec i j) as [->|NE]; [rewrite upd_same; cbn [t_done]|rewrite upd_other by exact NE]; eauto.
  Qed.

  (** The moment before a call began. *)
  Lemma idle_before : forall s i p, p < started (cfg s) i ->
    exists s1 s2, s = s1 ++ s2 /\ t_cur (c_th (cfg s1) i) = None /\ t_done (c_th (cfg s1) i) = firstn p (t_done (c_th (cfg s) i)) /\
      length (t_done (c_th (cfg s1) i)) = p.
  Proof.
    induction s as [|[j ch] s IH] using rev_ind; intros i p L.
    - cbn in L. lia.
    - destruct (Nat.lt_ge_cases p (started (cfg s) i)) as [LT|GE].
      + destruct (IH i p LT) as (s1 & s2 & -> & C & D & N). exists s1, (s2 ++ [(j, ch)]). rewrite app_assoc. split; [reflexivity|].
        split; [exact C|]. split; [|exact N].
        destruct (done_grows s1 s2 i) as (la & E1). destruct (done_grows (s1 ++ s2) [(j, ch)] i) as (lb & E2).
        rewrite E2, E1, <- app_assoc. rewrite <- N. now rewrite firstn_app, Nat.sub_diag, firstn_all, firstn_O, app_nil_r.
      + rewrite run_app in *. set (c := cfg s) in *. cbn [run] in *. unfold step in *.
        destruct (t_cur (c_th c j)) as [[op mic]|] eqn:CUR.
        * exfalso. destruct (m_step M j ch mic (c_sh c)) as [[sh' [mic'|r]]|]; cbn [c_th] in *; unfold started in *; cbn [c_th] in *; [..|lia];
            (destruct (Nat.eq_dec i j) as [->|NE]; [rewrite upd_same in L; cbn [t_done t_cur] in L; rewrite CUR in GE|rewrite upd_other in L by exact NE; lia]);
            try rewrite app_length in L; cbn in L; lia.
        * destruct (prog j (t_done (c_th c j))) as [op|]; unfold started in *; cbn [c_th] in *; [|lia].
          destruct (Nat.eq_dec i j) as [->|NE]; [rewrite upd_same in L; cbn [t_done t_cur] in L; rewrite CUR in GE|rewrite upd_other in L by exact NE; lia].
          assert (p = length (t_done (c_th c j))) as -> by lia. exists s, [(j, ch)]. split; [reflexivity|].
          split; [exact CUR|]. rewrite upd_same. cbn [t_done]. split; [now rewrite firstn_all|reflexivity].
  Qed.
End Runs.

(** ** Scripts: where an operation comes from *)
Section Issued.
  Context {Call St Op Res Sh Mic : Type}.
  Variable s_init : Call -> St.
  Variable s_next : St -> option Op.
  Variable s_adv : St -> Res -> St.
  Variable M : machine Sh Op Res Mic.
  Variable sh0 : Sh.
  Variable P : nat -> list (Call * trace Op Res) -> option Call.
  Notation prog := (follow s_init s_next s_adv P).
  Notation cfg s := (run M prog s (start_config sh0)).

  (** Some call of thread [i] does [op] after the last part of [a]. *)
  Definition issued (i : nat) (a : trace Op Res) (op : Op) : Prop :=
    exists call tr st, path s_next s_adv (s_init call) tr st /\ s_next st = Some op /\ (exists a', a = a' ++ tr) /\
      exists hd, P i hd = Some call.

  Lemma issued_now : forall s i op mic, t_cur (c_th (cfg s) i) = Some (op, mic) -> issued i (t_done (c_th (cfg s) i)) op.
  Proof.
    intros s i op mic CUR. pose proof (run_good s_init s_next s_adv M sh0 P s i) as [G N]. rewrite CUR in N.
    destruct (next_call s_init s_next s_adv _ _ _ _ G N) as (call & tr & st & H1 & H2 & H3 & H4).
    exists call, tr, st. split; [exact H1|]. split; [exact H2|]. split; [|exact H4].
    exists (flat_map snd (h_done (hist s_init s_next s_adv P (cfg s) i))). rewrite H3. apply (g_done _ _ _ _ _ _ G).
  Qed.

  Lemma issued_done : forall s i a op r b, t_done (c_th (cfg s) i) = a ++ (op, r) :: b -> issued i a op.
  Proof.
    induction s as [|[j ch] s IH] using rev_ind; intros i a op r b E.
    - cbn in E. now destruct a.
    - rewrite run_app in E. cbn [run] in E. unfold step in E.
      destruct (t_cur (c_th (cfg s) j)) as [[op' mic]|] eqn:CUR.
      + destruct (m_step M j ch mic (c_sh (cfg s))) as [[sh' [mic'|r']]|]; cbn [c_th] in E; [..|eauto];
          (destruct (Nat.eq_dec i j) as [->|NE]; [rewrite upd_same in E; cbn [t_done] in E|rewrite upd_other in E by exact NE; eauto]); [eauto|].
        destruct b as [|d b _] using rev_ind.
        * apply app_inj_tail in E as [<- E]. injection E as <- <-. now apply issued_now with mic.
        * rewrite app_comm_cons, app_assoc in E. apply app_inj_tail in E as [E _]. eauto.
      + destruct (prog j (t_done (c_th (cfg s) j))); cbn [c_th] in E; [|eauto].
        destruct (Nat.eq_dec i j) as [->|NE]; [rewrite upd_same in E; cbn [t_done] in E|rewrite upd_other in E by exact NE]; eauto.
  Qed.
End Issued.
Local Set Asymmetric Patterns.

(** ** Calls on a vec *)
Section Calls.
  Context {Sh Op Res Mic V St : Type}.
  Variable bd : build.
  Variable fields : group_set.
  Variable loc : bytes -> nat.
  Variable accepts : nat -> list bytes -> bytes -> bool.
  Variable shard_of : unique -> nat.
  Variable O : machine Sh Op Res Mic.
  Variable sh_new : Sh.
  Variable view : Sh -> V.
  Variable spec : nat -> Op -> St -> option (St * Res).
  Variable st_new : St.
  Variable aview : St -> V.
  Variable shards : nat.
  Variable read : Op.
  Notation lop := (label_op + vec_op unique Op)%type.
  Notation lres := (label_res + vec_res unique Res V)%type.
  Variable P : nat -> list (vec_call Op * trace lop lres) -> option (vec_call Op).
  Variable m0 : interners.
  Hypothesis sound : sound_set fields.
  Hypothesis ndup : forall l, NoDup (m0 l).
  Hypothesis shaped : calls_shaped fields P.
  Hypothesis good : good_metric O sh_new view spec st_new aview.

  Notation Ml := (label_machine bd fields loc accepts).
  Notation Mv := (sparse_machine unique_eqb shard_of O sh_new view).
  Notation next := (call_next shards read).
  Notation vspec := (vec_spec unique_eqb shard_of spec st_new aview).
  Notation prog := (calling (V := V) (Res := Res) shards read P).
  Notation cfg s := (at_time bd fields loc accepts shard_of O sh_new view shards read P m0 s).
  Notation lpath call tr st := (path next (call_adv (V := V)) (call_init call) tr st).
  Notation "'ev' o r" := ((inl o, inl r) : lop * lres) (at level 10, o at level 9, r at level 9).
  Notation "'vv' o r" := ((inr o, inr r) : lop * lres) (at level 10, o at level 9, r at level 9).

  (** *** What a state says of the operations so far *)
  Definition seen (k : unique) (tr : trace lop lres) : Prop :=
    exists x ks, In (vv (SOpen 0 x) (RKeys ks)) tr /\ In k ks.
  Definition asked_for (k : unique) (tr : trace lop lres) : Prop :=
    exists g, In (ev (LEncode g) (LId (Some k))) tr.
  Definition state_ok (call : vec_call Op) (tr : trace lop lres) (st : call_state Op) : Prop :=
    match st with
    | TLook g u => call = CUpdate g u
    | TFind g => call = CDelete g
    | TGet k _ | TUse k _ => asked_for k tr
    | TRemove k => exists g, call = CDelete g /\ In (ev (LEncode g) (LId (Some k))) tr
    | TKeys _ ks => forall k, In k ks -> seen k tr
    | TRead _ k ks => forall k', In k' (k :: ks) -> seen k' tr
    | _ => True
    end.

  Lemma asked_more : forall k tr d, asked_for k tr -> asked_for k (tr ++ [d]).
  Proof. intros k tr d (g & H). exists g. apply in_or_app. now left. Qed.
  Lemma seen_more : forall k tr d, seen k tr -> seen k (tr ++ [d]).
  Proof. intros k tr d (x & ks & H & I). exists x, ks. split; [apply in_or_app; now left|exact I]. Qed.

  Lemma path_state : forall call tr st, lpath call tr st -> state_ok call tr st.
  Proof.
    intros call tr st H. induction H as [|tr st op r H IH N].
    - destruct call; cbn; auto.
    - destruct st as [g u|k u|k u| |g|k|s|s ks|s k ks|s|s|]; cbn [call_next] in N; cbn [state_ok] in IH.
      + injection N as <-. destruct r as [[[k|]| | |]|[]]; cbn; auto. exists g. apply in_or_app. right. now left.
      + destruct r as [[]|[]]; cbn; auto. now apply asked_more.
      + destruct r as [[]|[]]; cbn; auto.
      + destruct r as [[]|[]]; cbn; auto.
      + injection N as <-. destruct r as [[[k|]| | |]|[]]; cbn; auto. exists g. split; [exact IH|]. apply in_or_app. right. now left.
      + destruct r as [[]|[]]; cbn; auto.
      + destruct (Nat.ltb s shards); [|discriminate]. injection N as <-. destruct r as [[]|[]]; cbn; auto.
        intros k Hk. exists s, ks. split; [apply in_or_app; right; now left|exact Hk].
      + destruct ks as [|k ks]; injection N as <-; destruct r as [[]|[]]; cbn; auto; intros k' Hk; apply seen_more; auto.
      + destruct r as [[]|[]]; cbn; auto; intros k' Hk; apply seen_more; apply IH; now right.
      + destruct (Nat.ltb s shards); [|discriminate]. injection N as <-. destruct r as [[]|[]]; cbn; auto.
      + destruct r as [[]|[]]; cbn; auto.
      + discriminate.
  Qed.

  (** *** The parts of a run *)
  Definition lefts (c : config (interners * svec unique Sh) lop lres (label_mic + vec_mic unique Op Res Mic V)) (i : nat) := left_thread (c_th c i).
  Definition rights (c : config (interners * svec unique Sh) lop lres (label_mic + vec_mic unique Op Res Mic V)) (i : nat) := right_thread (c_th c i).

  Lemma in_left : forall o r (l : trace lop lres), In (o, r) (sel_done left_of left_of l) <-> In (ev o r) l.
  Proof.
    intros o r l. unfold sel_done. rewrite in_flat_map. split.
    - intros ([[o'|o'] [r'|r']] & H & I); cbn in I; try contradiction. destruct I as [I|[]]. injection I as -> ->. exact H.
    - intros H. exists (ev o r). split; [exact H|now left].
  Qed.
  Lemma in_right : forall o r (l : trace lop lres), In (o, r) (sel_done right_of right_of l) <-> In (vv o r) l.
  Proof.
    intros o r l. unfold sel_done. rewrite in_flat_map. split.
    - intros ([[o'|o'] [r'|r']] & H & I); cbn in I; try contradiction. destruct I as [I|[]]. injection I as -> ->. exact H.
    - intros H. exists (vv o r). split; [exact H|now left].
  Qed.

  Lemma issued_shaped : forall i a g, issued call_init next (call_adv (V := V)) P i a (inl (LEncode g)) -> well_shaped fields g.
  Proof.
    intros i a g (call & tr & st & H & N & _ & hd & C). apply path_state in H.
    destruct st as [g' u|k u|k u| |g'|k|s|s ks|s k ks|s|s|]; cbn [call_next] in N; try discriminate; cbn [state_ok] in H.
    - injection N as ->. subst call. eapply shaped; eauto.
    - injection N as ->. subst call. eapply shaped; eauto.
    - destruct (Nat.ltb s shards); discriminate.
    - destruct ks; discriminate.
    - destruct (Nat.ltb s shards); discriminate.
  Qed.

  Lemma begun_shaped : forall s i g, In (LEncode g) (begun (lefts (cfg s) i)) -> well_shaped fields g.
  Proof.
    intros s i g H. unfold begun, lefts, left_thread, sel_thread in H. cbn [t_cur t_done] in H. apply in_app_or in H as [H|H].
    - apply in_map_iff in H as ([o r] & E & H). cbn in E. subst o. apply in_left in H.
      apply in_split in H as (a & b & H). unfold at_time in H. eapply issued_shaped, issued_done, H.
    - destruct (t_cur (c_th (cfg s) i)) as [[[o|o] [m|m]]|] eqn:CUR; cbn in H; try contradiction.
      destruct H as [->|[]]. eapply issued_shaped, issued_now, CUR.
  Qed.

  (** Every run is one of each part, and so are its beginnings. *)
  Definition shows {Sh' Op' Res' Mic'} (M : machine Sh' Op' Res' Mic') (l : nat -> list Op') (s : schedule) (sh0 sh : Sh')
    (th : nat -> thread Op' Res' Mic') : Prop :=
    c_sh (run M (calls l) s (start_config sh0)) = sh /\ forall i, c_th (run M (calls l) s (start_config sh0)) i = th i.

  Lemma projections : forall s, exists l1 l2 (f1 f2 : nat -> schedule),
    lookups_shaped fields (calls l1) /\
    (forall n, n <= length s -> let c := cfg (firstn n s) in
       shows Ml l1 (f1 n) m0 (fst (c_sh c)) (lefts c) /\ shows Mv l2 (f2 n) sv_new (snd (c_sh c)) (rights c)) /\
    (forall m n, m <= n -> n <= length s -> (exists t, f1 n = f1 m ++ t) /\ (exists t, f2 n = f2 m ++ t)) /\
    forall p q, f1 (length s) = p ++ q -> exists m, m <= length s /\ f1 m = p.
  Proof.
    intros s.
    assert (H : exists l1 l2 (f1 f2 : nat -> schedule),
      parts_at Ml Mv m0 sv_new prog s l1 (f1 (length s)) l2 (f2 (length s)) /\
      (forall n, n <= length s -> let c := cfg (firstn n s) in
         exists a b, extends a l1 /\ extends b l2 /\ exactly Ml m0 a (f1 n) (fst (c_sh c)) (lefts c) /\ exactly Mv sv_new b (f2 n) (snd (c_sh c)) (rights c)) /\
      (forall m n, m <= n -> n <= length s -> (exists t, f1 n = f1 m ++ t) /\ (exists t, f2 n = f2 m ++ t)) /\
      forall p q, f1 (length s) = p ++ q -> exists m, m <= length s /\ f1 m = p).
    { induction s as [|ic s (l1 & l2 & f1 & f2 & PA & PR & MO & CO)] using rev_ind.
      - exists (fun _ => []), (fun _ => []), (fun _ => []), (fun _ => []). split; [apply parts_start|]. split.
        + intros n L. cbn in L. assert (n = 0) as -> by lia. exists (fun _ => []), (fun _ => []).
          split; [apply extends_refl|]. split; [apply extends_refl|]. split; apply exactly_start.
        + split; [intros m n _ _; split; exists []; reflexivity|]. intros p q E. destruct p; [|discriminate]. exists 0. auto.
      - destruct (parts_step Ml Mv m0 sv_new prog s ic _ _ _ _ PA (sides Ml Mv m0 sv_new prog s)) as (_ & l1' & t1 & l2' & t2 & LT & _ & X1 & X2 & PA').
        set (N := S (length s)).
        exists l1', l2', (fun n => if Nat.eqb n N then f1 (length s) ++ t1 else f1 n), (fun n => if Nat.eqb n N then f2 (length s) ++ t2 else f2 n).
        assert (LN : length (s ++ [ic]) = N) by (rewrite app_length; cbn; unfold N; lia).
        rewrite LN, Nat.eqb_refl. split; [exact PA'|]. split.
        + intros n L. cbn zeta. destruct (Nat.eqb_spec n N) as [->|NE].
          * exists l1', l2'. split; [apply extends_refl|]. split; [apply extends_refl|].
            rewrite <- LN, firstn_all. exact PA'.
          * assert (L' : n <= length s) by (unfold N in *; lia). specialize (PR n L'). cbn zeta in PR.
            destruct PR as (a & b & XA & XB & E1 & E2). exists a, b. split; [eapply extends_trans; eauto|]. split; [eapply extends_trans; eauto|].
            assert (firstn n (s ++ [ic]) = firstn n s) as ->.
            { rewrite firstn_app. replace (n - length s) with 0 by lia. now rewrite firstn_O, app_nil_r. }
            split; assumption.
        + split.
          2:{ intros p q E. destruct t1 as [|x [|y t1]]; [| |cbn in LT; lia].
              - rewrite app_nil_r in E. destruct (CO p q E) as (m & ML & ME). exists m. split; [unfold N; lia|].
                destruct (Nat.eqb_spec m N) as [->|_]; [unfold N in ML; lia|exact ME].
              - destruct q as [|y q _] using rev_ind.
                + rewrite app_nil_r in E. exists N. split; [lia|]. now rewrite Nat.eqb_refl.
                + rewrite app_assoc in E. apply app_inj_tail in E as [E _]. destruct (CO p q E) as (m & ML & ME).
                  exists m. split; [unfold N; lia|]. destruct (Nat.eqb_spec m N) as [->|_]; [unfold N in ML; lia|exact ME]. }
          intros m n L1 L2. destruct (Nat.eqb_spec n N) as [->|NE], (Nat.eqb_spec m N) as [->|NE'].
          * split; exists []; now rewrite app_nil_r.
          * destruct (MO m (length s)) as [(a & Ea) (b & Eb)]; [unfold N in *; lia|lia|].
            split; [exists (a ++ t1)|exists (b ++ t2)]; rewrite ?Ea, ?Eb; now rewrite app_assoc.
          * unfold N in *; lia.
          * apply MO; unfold N in *; lia. }
    destruct H as (l1 & l2 & f1 & f2 & PA & PR & MO & CO). exists l1, l2, f1, f2. split; [|split; [|split; [exact MO|exact CO]]].
    - intros i done g E. unfold calls in E. apply nth_error_In in E. destruct PA as [[B _] _]. rewrite B in E.
      eapply begun_shaped, E.
    - intros n L. destruct (PR n L) as (a & b & XA & XB & [_ E1] & [_ E2]). split; [exact (E1 l1 XA)|exact (E2 l2 XB)].
  Qed.

  (** Only a beginning and the whole. *)
  Lemma project : forall s s', exists l1 s1 t1 l2 s2 t2,
    lookups_shaped fields (calls l1) /\
    shows Ml l1 s1 m0 (fst (c_sh (cfg s))) (lefts (cfg s)) /\
    shows Ml l1 (s1 ++ t1) m0 (fst (c_sh (cfg (s ++ s')))) (lefts (cfg (s ++ s'))) /\
    shows Mv l2 s2 sv_new (snd (c_sh (cfg s))) (rights (cfg s)) /\
    shows Mv l2 (s2 ++ t2) sv_new (snd (c_sh (cfg (s ++ s')))) (rights (cfg (s ++ s'))).
  Proof.
    intros s s'. destruct (projections (s ++ s')) as (l1 & l2 & f1 & f2 & LS & PR & MO & _).
    assert (L1 : length s <= length (s ++ s')) by (rewrite app_length; lia).
    pose proof (PR (length s) L1) as [A1 A2]. pose proof (PR _ (Nat.le_refl _)) as [B1 B2].
    rewrite firstn_all in B1, B2. rewrite firstn_app, Nat.sub_diag, firstn_all, firstn_O, app_nil_r in A1, A2.
    destruct (MO _ _ L1 (Nat.le_refl _)) as [(t1 & E1) (t2 & E2)]. rewrite E1 in B1. rewrite E2 in B2.
    exists l1, (f1 (length s)), t1, l2, (f2 (length s)), t2. split; [exact LS|]. split; [exact A1|]. split; [exact B1|]. split; assumption.
  Qed.

  (** *** Results of single operations *)
  Lemma vec_logs : forall p : program (vec_op unique Op) (vec_res unique Res V), exists L : schedule -> list entry,
    (forall s s', exists more, L (s ++ s') = L s ++ more) /\
    forall s, let c := run Mv p s (start_config sv_new) in
      explains (L s) c /\ exists a, legal vspec av_new (L s) a /\
        (quiescent c -> same_views unique_eqb shard_of view aview (c_sh c) a).
  Proof.
    destruct good as (lin & inv & rep & OK & RV). intros p.
    destruct (sparse_linearizable unique_eqb unique_eqb_spec shard_of O sh_new view spec st_new aview lin inv rep OK RV p)
      as (L & MO & H).
    exists L. split; [exact MO|]. intros s c. destruct (H s) as (E & a & LG & R). split; [exact E|]. exists a. split; [exact LG|].
    intros Q. eapply rep_views; [exact RV|]. exact (R Q).
  Qed.

  Lemma right_returns : forall s i, returns_all unique_eqb [] (t_done (rights (cfg s) i)).
  Proof.
    intros s i. destruct (project s []) as (l1 & s1 & t1 & l2 & s2 & t2 & _ & _ & _ & [_ R] & _).
    destruct (vec_logs (calls l2)) as (L & _ & H). destruct (H s2) as (E & a & LG & _).
    pose proof (legal_returns unique_eqb shard_of spec st_new aview i _ _ _ LG) as RA. change (mine i av_new) with (@nil (nat * list unique)) in RA.
    rewrite <- R. destruct (E i) as [E'|(op & mic & r & _ & E')]; rewrite E' in RA; [exact RA|].
    apply returns_all_app in RA. apply RA.
  Qed.

  Lemma side : forall s i o r, In (o, r) (t_done (c_th (cfg s) i)) ->
    match o, r with inl _, inl _ | inr _, inr _ => True | _, _ => False end.
  Proof.
    intros s i o r I. pose proof (sides Ml Mv m0 sv_new prog s i) as [_ S]. rewrite Forall_forall in S. specialize (S _ I).
    destruct o, r; exact S.
  Qed.

  Lemma encode_ok : forall s i g r, In (inl (LEncode g), r) (t_done (c_th (cfg s) i)) ->
    r = inl (LId None) \/ exists k, r = inl (LId (Some k)) /\
      let now := current fields loc accepts (fst (c_sh (cfg s))) in
      group_decode bd now k = Done g /\ group_encode bd now g = Done (now, Some k).
  Proof.
    intros s i g r I. pose proof (side s i _ _ I) as S. destruct r as [r|r]; [|contradiction]. clear S.
    destruct (project s []) as (l1 & s1 & t1 & l2 & s2 & t2 & LS & [A B] & _).
    apply in_left in I. change (In (LEncode g, r) (t_done (lefts (cfg s) i))) in I. rewrite <- B in I.
    destruct (label_lookups bd fields loc accepts m0 (calls l1) s1 i g r sound ndup LS I) as [->|(k & -> & D & E)]; [now left|].
    right. exists k. split; [reflexivity|]. cbn zeta. rewrite <- A. split; assumption.
  Qed.

  Lemma ids_unique : forall s i j g1 g2 u1 u2,
    In (ev (LEncode g1) (LId (Some u1))) (t_done (c_th (cfg s) i)) -> In (ev (LEncode g2) (LId (Some u2))) (t_done (c_th (cfg s) j)) ->
    (u1 = u2 <-> g1 = g2).
  Proof.
    intros s i j g1 g2 u1 u2 I J. destruct (project s []) as (l1 & s1 & t1 & l2 & s2 & t2 & LS & [A B] & _).
    apply in_left in I, J. change (In (LEncode g1, LId (Some u1)) (t_done (lefts (cfg s) i))) in I.
    change (In (LEncode g2, LId (Some u2)) (t_done (lefts (cfg s) j))) in J. rewrite <- B in I, J.
    exact (label_unique bd fields loc accepts m0 (calls l1) s1 sound ndup LS i j g1 g2 u1 u2 I J).
  Qed.

  Lemma in_of_thread : forall Op' Res' i o r (log : list (@entry Op' Res')), In (o, r) (of_thread i log) <-> In (i, o, r) log.
  Proof.
    intros Op' Res' i o r log. unfold of_thread. rewrite in_map_iff. split.
    - intros ([[j o'] r'] & E & I). cbn in E. injection E as -> ->. apply filter_In in I as [I T]. cbn in T. apply Nat.eqb_eq in T. now subst.
    - intros I. exists (i, o, r). split; [reflexivity|]. apply filter_In. split; [exact I|]. cbn. apply Nat.eqb_refl.
  Qed.

  Lemma present_got : forall k (log : list (@entry (vec_op unique Op) (vec_res unique Res V))), present unique_eqb k log = true ->
    exists j h, In (j, SGet h k, RUnit) log.
  Proof.
    intros k log. induction log as [|[[j o] r] log IH] using rev_ind; intros H; [discriminate|].
    pose proof (eq_trans (eq_sym (present_snoc unique_eqb k log j o r)) H) as H2. clear H. rename H2 into H.
    assert (T : present unique_eqb k log = true -> exists j0 h, In (j0, SGet h k, RUnit) (log ++ [(j, o, r)])).
    { intros H'. destruct (IH H') as (a & b & I). exists a, b. apply in_or_app. now left. }
    destruct o as [h k'|h k' u|h|k'|h x]; try (destruct r; exact (T H)).
    - destruct r; try exact (T H). destruct (unique_eqb k' k) eqn:E; [|exact (T H)]. apply unique_eqb_spec in E. subst k'.
      exists j, h. apply in_or_app. right. now left.
    - assert (H' : negb (unique_eqb k' k) && present unique_eqb k log = true) by (destruct r; exact H).
      apply andb_true_iff in H' as [_ H']. exact (T H').
  Qed.

  (** The calls of the vec that took effect, as operations of the threads. *)
  Lemma logged : forall s i (log : list (@entry (vec_op unique Op) (vec_res unique Res V))) o r,
    (forall i, of_thread i log = t_done (rights (cfg s) i) \/
       exists op mic r, t_cur (rights (cfg s) i) = Some (op, mic) /\ of_thread i log = t_done (rights (cfg s) i) ++ [(op, r)]) ->
    In (i, o, r) log -> exists a, issued call_init next (call_adv (V := V)) P i a (inr o) /\ exists b, t_done (c_th (cfg s) i) = a ++ b.
  Proof.
    intros s i log o r E I. apply in_of_thread in I.
    assert (D : In (o, r) (t_done (rights (cfg s) i)) -> exists a, issued call_init next (call_adv (V := V)) P i a (inr o) /\ exists b, t_done (c_th (cfg s) i) = a ++ b).
    { intros I'. apply in_right in I'. apply in_split in I' as (a & b & I'). exists a. split; [eapply issued_done, I'|eauto]. }
    destruct (E i) as [E'|(op & mic & r' & C & E')]; rewrite E' in I; [now apply D|].
    apply in_app_or in I as [I|[I|[]]]; [now apply D|]. injection I as -> ->.
    exists (t_done (c_th (cfg s) i)). split; [|exists []; now rewrite app_nil_r].
    unfold rights, right_thread, sel_thread in C. cbn [t_cur] in C.
    destruct (t_cur (c_th (cfg s) i)) as [[[o'|o'] [m|m]]|] eqn:CUR; cbn in C; try discriminate. injection C as -> ->.
    eapply issued_now, CUR.
  Qed.

  Lemma issued_get : forall i a h k, issued call_init next (call_adv (V := V)) P i a (inr (SGet h k)) -> asked_for k a.
  Proof.
    intros i a h k (call & tr & st & H & N & (a' & ->) & _). apply path_state in H.
    destruct st as [g' u|k' u|k' u| |g'|k'|s|s ks|s k' ks|s|s|]; cbn [call_next] in N; try discriminate; cbn [state_ok] in H.
    - injection N as <- ->. destruct H as (g & H). exists g. apply in_or_app. now right.
    - destruct (Nat.ltb s shards); discriminate.
    - destruct ks; discriminate.
    - destruct (Nat.ltb s shards); discriminate.
  Qed.

  Lemma seen_asked : forall s i k, seen k (t_done (c_th (cfg s) i)) -> exists j, asked_for k (t_done (c_th (cfg s) j)).
  Proof.
    intros s i k (x & ks & I & K). destruct (project s []) as (l1 & s1 & t1 & l2 & s2 & t2 & _ & _ & _ & [_ R] & _).
    destruct (vec_logs (calls l2)) as (L & _ & H). destruct (H s2) as (E & a & LG & _).
    unfold explains in E. assert (E' := fun j => E j). setoid_rewrite R in E'.
    assert (J : In (i, SOpen 0 x, RKeys ks) (L s2)).
    { apply in_of_thread. apply in_right in I. change (In (SOpen 0 x, RKeys ks) (t_done (rights (cfg s) i))) in I.
      destruct (E' i) as [->|(op & mic & r & _ & ->)]; [exact I|]. apply in_or_app. now left. }
    apply in_split in J as (pre & post & J). rewrite J in LG.
    destruct (legal_open unique_eqb unique_eqb_spec shard_of spec st_new aview pre i 0 x ks post a LG) as [_ OP].
    apply OP in K as [_ K]. apply present_got in K as (j & h & K).
    destruct (logged s j (L s2) (SGet h k) RUnit E') as (d & IS & b & DB).
    { rewrite J. apply in_or_app. now left. }
    apply issued_get in IS as (g & IS). exists j, g. rewrite DB. apply in_or_app. now left.
  Qed.

  Lemma issued_decode : forall i a k, issued call_init next (call_adv (V := V)) P i a (inl (LDecode k)) -> seen k a.
  Proof.
    intros i a k (call & tr & st & H & N & (a' & ->) & _). apply path_state in H.
    destruct st as [g' u|k' u|k' u| |g'|k'|s|s ks|s k' ks|s|s|]; cbn [call_next] in N; try discriminate; cbn [state_ok] in H.
    - destruct (Nat.ltb s shards); discriminate.
    - destruct ks as [|k' ks]; [discriminate|]. injection N as ->. destruct (H k (or_introl eq_refl)) as (x & l & I & K).
      exists x, l. split; [apply in_or_app; now right|exact K].
    - destruct (Nat.ltb s shards); discriminate.
  Qed.

  (** A collection decodes only ids that have a group. *)
  Lemma decode_ok : forall s i k r, In (inl (LDecode k), r) (t_done (c_th (cfg s) i)) ->
    exists g j, r = inl (LGroup g) /\ In (ev (LEncode g) (LId (Some k))) (t_done (c_th (cfg s) j)).
  Proof.
    intros s i k r I. pose proof (side s i _ _ I) as S. destruct r as [r|r]; [|contradiction]. clear S.
    apply in_split in I as (a & b & D).
    assert (ST : length a < started (cfg s) i).
    { unfold started. rewrite D, app_length. cbn. lia. }
    destruct (idle_before (both Ml Mv) prog (m0, sv_new) s i (length a) ST) as (s1 & s2 & -> & C1 & D1 & _).
    change (t_cur (c_th (cfg s1) i) = None) in C1.
    change (t_done (c_th (cfg s1) i) = firstn (length a) (t_done (c_th (cfg (s1 ++ s2)) i))) in D1.
    rewrite D, firstn_app, Nat.sub_diag, firstn_all, firstn_O, app_nil_r in D1.
    pose proof (issued_decode _ _ _ (issued_done _ _ _ _ _ _ _ _ _ _ _ _ D)) as SE. rewrite <- D1 in SE.
    destruct (seen_asked s1 i k SE) as (j & g & J).
    destruct (project s1 s2) as (l1 & p1 & q1 & l2 & p2 & q2 & LS & [_ A1] & [_ A2] & _).
    assert (J1 : In (LEncode g, LId (Some k)) (t_done (c_th (run Ml (calls l1) p1 (start_config m0)) j))).
    { rewrite A1. apply in_left. exact J. }
    destruct (label_decodes bd fields loc accepts m0 (calls l1) p1 q1 sound ndup LS j g k J1 i) as (later & LA & LB).
    { rewrite A1. unfold lefts, left_thread, sel_thread. cbn [t_cur]. now rewrite C1. }
    rewrite A1, A2 in LA. unfold lefts, left_thread, sel_thread in LA. cbn [t_done] in LA. rewrite D, D1, sel_done_app in LA.
    apply app_inv_head in LA. cbn in LA.
    exists g, j. split.
    - f_equal. apply LB. rewrite <- LA. now left.
    - destruct (done_grows (both Ml Mv) prog (m0, sv_new) s1 s2 j) as (more & E).
      change (t_done (c_th (cfg (s1 ++ s2)) j) = t_done (c_th (cfg s1) j) ++ more) in E. rewrite E. apply in_or_app. now left.
  Qed.

  (** *** Whole calls *)
  Definition rdone (tr : trace lop lres) := sel_done right_of right_of tr.
  Definition opened (tr : trace lop lres) : list (nat * list unique) :=
    flat_map (fun d => match d with (inr (SOpen _ x), inr (RKeys ks)) => [(x, ks)] | _ => [] end) tr.
  Definition decoded (tr : trace lop lres) : list (unique * group_val) :=
    flat_map (fun d => match d with (inl (LDecode k), inl (LGroup g)) => [(k, g)] | _ => [] end) tr.
  Definition reads (tr : trace lop lres) : list (unique * Res) :=
    flat_map (fun d => match d with (inr (SUse _ k _), inr (RVal r)) => [(k, r)] | _ => [] end) tr.
  Definition collect_op (d : lop * lres) : Prop :=
    match fst d with
    | inr (SOpen _ _) | inr (SDrop _) | inl (LDecode _) => True
    | inr (SUse _ _ u) => u = read
    | _ => False
    end.

  Definition shows_all (tr : trace lop lres) (s : nat) (ks : list unique) : Prop :=
    map fst (opened tr) = seq 0 s /\ concat (map snd (opened tr)) = map fst (decoded tr) ++ ks.

  Definition tame (call : vec_call Op) (st : call_state Op) (tr : trace lop lres) : Prop :=
    match st with
    | TLook g u => call = CUpdate g u /\ tr = []
    | TGet k u => exists g, call = CUpdate g u /\ tr = [ev (LEncode g) (LId (Some k))]
    | TUse k u => exists g, call = CUpdate g u /\ tr = [ev (LEncode g) (LId (Some k)); vv (SGet 0 k) RUnit]
    | TDrop => exists g u k r, call = CUpdate g u /\
        tr = [ev (LEncode g) (LId (Some k)); vv (SGet 0 k) RUnit; vv (SUse 0 k u) (RVal r)]
    | TFind g => call = CDelete g /\ tr = []
    | TRemove k => exists g, call = CDelete g /\ tr = [ev (LEncode g) (LId (Some k))]
    | TShard s => call = CCollect /\ s <= shards /\ Forall collect_op tr /\ shows_all tr s [] /\ map fst (reads tr) = map fst (decoded tr) /\
        (tr = [] \/ exists tr', tr = tr' ++ [vv (SDrop 0) RUnit])
    | TKeys s ks => call = CCollect /\ s < shards /\ Forall collect_op tr /\ shows_all tr (S s) ks /\ map fst (reads tr) = map fst (decoded tr)
    | TRead s k ks => call = CCollect /\ s < shards /\ Forall collect_op tr /\ shows_all tr (S s) ks /\ map fst (reads tr) ++ [k] = map fst (decoded tr)
    | TLen s => call = CCount /\ s <= shards /\ Forall collect_op tr /\ map fst (opened tr) = seq 0 s /\
        (tr = [] \/ exists tr', tr = tr' ++ [vv (SDrop 0) RUnit])
    | TClose s => call = CCount /\ s < shards /\ Forall collect_op tr /\ map fst (opened tr) = seq 0 (S s)
    | TEnd =>
      (exists g u, call = CUpdate g u /\
        (tr = [ev (LEncode g) (LId None)] \/
         exists k r, tr = [ev (LEncode g) (LId (Some k)); vv (SGet 0 k) RUnit; vv (SUse 0 k u) (RVal r); vv (SDrop 0) RUnit])) \/
      (exists g, call = CDelete g /\
        (tr = [ev (LEncode g) (LId None)] \/
         exists k v, tr = [ev (LEncode g) (LId (Some k)); vv (SRemove k) (RRemoved v)]))
    end.

  Definition fit (st : call_state Op) (gs : list (nat * list unique)) : Prop :=
    match st with
    | TUse k _ => gs = [(0, [k])]
    | TDrop | TClose _ => exists ks, gs = [(0, ks)]
    | TKeys _ ks => exists all, gs = [(0, all)] /\ incl ks all
    | TRead _ k ks => exists all, gs = [(0, all)] /\ incl (k :: ks) all
    | _ => gs = []
    end.

  Definition fine (tr : trace lop lres) : Prop := forall o r, In (o, r) tr ->
    match o, r with
    | inl (LEncode _), inl (LId _) | inl (LDecode _), inl (LGroup _) | inr _, inr _ => True
    | _, _ => False
    end.

  Lemma existsb_in : forall k ks, In k ks -> existsb (fun k' => unique_eqb k' k) ks = true.
  Proof. intros k ks H. apply existsb_exists. exists k. split; [exact H|]. now apply unique_eqb_spec. Qed.

  Lemma shows_snoc : forall (tr : trace lop lres) d,
    opened (tr ++ [d]) = opened tr ++ opened [d] /\ decoded (tr ++ [d]) = decoded tr ++ decoded [d] /\ reads (tr ++ [d]) = reads tr ++ reads [d].
  Proof. intros tr d. unfold opened, decoded, reads. now rewrite !flat_map_app. Qed.

  Lemma seq_snoc : forall n, seq 0 (S n) = seq 0 n ++ [n].
  Proof. intros n. rewrite seq_S. reflexivity. Qed.

  Lemma path_tame : forall call tr st, lpath call tr st -> fine tr -> returns_all unique_eqb [] (rdone tr) ->
    tame call st tr /\ fit st (fold_left guards_after (rdone tr) []).
  Proof.
    intros call tr st H. induction H as [|tr st op r H IH N]; intros F R.
    - destruct call; cbn; auto; repeat (split; auto); lia.
    - assert (F' : fine tr) by (intros o' r' I; apply F, in_or_app; now left).
      pose proof (F op r ltac:(apply in_or_app; right; now left)) as Fd. clear F.
      unfold rdone in *. rewrite sel_done_app in *. apply returns_all_app in R as [R Rd]. destruct (IH F' R) as [T G]. clear IH F' R H.
      rewrite fold_left_app. set (gs := fold_left guards_after (sel_done right_of right_of tr) []) in *.
      destruct (shows_snoc tr (op, r)) as (S1 & S2 & S3).
      destruct st as [g u|k u|k u| |g|k|s|s ks|s k ks|s|s|]; cbn [call_next] in N.
      + (* TLook *) injection N as <-. destruct T as [-> ->]. destruct r as [[[k|]| | |]|r]; try contradiction; cbn.
        * split; [eauto|exact G].
        * split; [left; eauto|exact G].
      + (* TGet *) injection N as <-. destruct T as (g & -> & ->). cbn [fit] in G. rewrite G in *. destruct r as [r|r]; [contradiction|].
        cbn in Rd. destruct Rd as [-> _]. cbn. eauto.
      + (* TUse *) injection N as <-. destruct T as (g & -> & ->). cbn [fit] in G. rewrite G in *. destruct r as [r|r]; [contradiction|].
        cbn [sel_done flat_map right_of fst snd app returns_all returns guard_keys find Nat.eqb] in Rd.
        rewrite existsb_in in Rd by now left. destruct Rd as [(x & ->) _]. cbn. split; [|eauto].
        exists g, u, k, x. split; reflexivity.
      + (* TDrop *) injection N as <-. destruct T as (g & u & k & x & -> & ->). destruct G as (ks & G). rewrite G in *. destruct r as [r|r]; [contradiction|].
        cbn in Rd. destruct Rd as [-> _]. cbn. split; [|reflexivity]. left. exists g, u. split; [reflexivity|]. right. eauto.
      + (* TFind *) injection N as <-. destruct T as [-> ->]. destruct r as [[[k|]| | |]|r]; try contradiction; cbn.
        * split; [eauto|exact G].
        * split; [right; eauto|exact G].
      + (* TRemove *) injection N as <-. destruct T as (g & -> & ->). cbn [fit] in G. rewrite G in *. destruct r as [r|r]; [contradiction|].
        cbn in Rd. destruct Rd as [(v & ->) _]. cbn. split; [|reflexivity]. right. exists g. split; [reflexivity|]. right. eauto.
      + (* TShard *) destruct (Nat.ltb_spec s shards) as [LT|]; [|discriminate]. injection N as <-. destruct T as (-> & L & FO & [SH1 SH2] & RE & _).
        cbn [fit] in G. rewrite G in *. destruct r as [r|r]; [contradiction|]. cbn in Rd. destruct Rd as [(ks & ->) _].
        cbn [call_adv tame]. unfold shows_all. rewrite S1, S2, S3. cbn [opened decoded reads flat_map app]. rewrite !app_nil_r, !map_app, concat_app.
        split; [|cbn; exists ks; split; [reflexivity|apply incl_refl]].
        split; [reflexivity|]. split; [exact LT|]. split; [apply Forall_app; split; [exact FO|now repeat constructor]|].
        split; [|exact RE]. split; [now rewrite seq_snoc, SH1|]. rewrite SH2. cbn. now rewrite !app_nil_r.
      + (* TKeys *) destruct T as (-> & L & FO & [SH1 SH2] & RE). destruct G as (all & G & IN). rewrite G in *. destruct ks as [|k ks]; injection N as <-.
        * destruct r as [r|r]; [contradiction|]. cbn in Rd. destruct Rd as [-> _]. cbn [call_adv tame]. unfold shows_all.
          rewrite S1, S2, S3. cbn [opened decoded reads flat_map app]. rewrite !app_nil_r. split; [|reflexivity].
          split; [reflexivity|]. split; [exact L|]. split; [apply Forall_app; split; [exact FO|now repeat constructor]|].
          rewrite app_nil_r in SH2. split; [split; assumption|]. split; [exact RE|]. right. eauto.
        * destruct r as [[ | | |]|r]; try contradiction. cbn [call_adv tame]. unfold shows_all.
          rewrite S1, S2, S3. cbn [opened decoded reads flat_map app]. rewrite !app_nil_r, !map_app, <- app_assoc. split; [|cbn; eauto].
          split; [reflexivity|]. split; [exact L|]. split; [apply Forall_app; split; [exact FO|now repeat constructor]|].
          split; [split; assumption|]. cbn. now rewrite RE.
      + (* TRead *) destruct T as (-> & L & FO & [SH1 SH2] & RE). destruct G as (all & G & IN). rewrite G in *. injection N as <-.
        destruct r as [r|r]; [contradiction|].
        cbn [sel_done flat_map right_of fst snd app returns_all returns guard_keys find Nat.eqb] in Rd.
        rewrite existsb_in in Rd by (apply IN; now left). destruct Rd as [(x & ->) _].
        cbn [call_adv tame]. unfold shows_all.
        rewrite S1, S2, S3. cbn [opened decoded reads flat_map app]. rewrite !app_nil_r, !map_app.
        split; [|cbn; exists all; split; [reflexivity|intros k' I; apply IN; now right]].
        split; [reflexivity|]. split; [exact L|]. split; [apply Forall_app; split; [exact FO|now repeat constructor]|].
        split; [split; assumption|]. exact RE.
      + (* TLen *) destruct (Nat.ltb_spec s shards) as [LT|]; [|discriminate]. injection N as <-. destruct T as (-> & L & FO & SH1 & _).
        cbn [fit] in G. rewrite G in *. destruct r as [r|r]; [contradiction|]. cbn in Rd. destruct Rd as [(ks & ->) _].
        cbn [call_adv tame]. rewrite S1. cbn [opened flat_map app]. rewrite map_app.
        split; [|cbn; exists ks; reflexivity]. split; [reflexivity|]. split; [exact LT|].
        split; [apply Forall_app; split; [exact FO|now repeat constructor]|]. now rewrite seq_snoc, SH1.
      + (* TClose *) destruct T as (-> & L & FO & SH1). destruct G as (ks & G). rewrite G in *. injection N as <-.
        destruct r as [r|r]; [contradiction|]. cbn in Rd. destruct Rd as [-> _]. cbn [call_adv tame].
        rewrite S1. cbn [opened flat_map app]. rewrite app_nil_r. split; [|reflexivity].
        split; [reflexivity|]. split; [exact L|]. split; [apply Forall_app; split; [exact FO|now repeat constructor]|].
        split; [exact SH1|]. right. eauto.
      + discriminate.
  Qed.

  Lemma run_fine : forall s i, fine (t_done (c_th (cfg s) i)).
  Proof.
    intros s i o r I. pose proof (side s i o r I) as S. destruct o as [[g|k|l v]|o], r as [r|r]; try contradiction; try exact Logic.I.
    - destruct (encode_ok s i g _ I) as [E|(k & E & _)]; injection E as ->; exact Logic.I.
    - destruct (decode_ok s i k _ I) as (g & j & E & _). injection E as ->. exact Logic.I.
    - apply in_split in I as (a & b & D). destruct (issued_done _ _ _ _ _ _ _ _ _ _ _ _ D) as (call & tr & st & H & N & _).
      destruct st as [g' u|k' u|k' u| |g'|k'|x|x ks|x k' ks|x|x|]; cbn [call_next] in N; try discriminate.
      + destruct (Nat.ltb x shards); discriminate.
      + destruct ks; discriminate.
      + destruct (Nat.ltb x shards); discriminate.
  Qed.

  Notation history c i := (history_of call_init next (call_adv (V := V)) (P i) (t_done (c_th c i))).
  Notation calls_of s i := (made bd fields loc accepts shard_of O sh_new view shards read P m0 s i).

  (** Finished calls, and the one the thread is in. *)
  Definition complete (call : vec_call Op) (tr : trace lop lres) : Prop :=
    exists st, tame call st tr /\ next st = None.

  Lemma tame_history : forall s i,
    (forall call tr, In (call, tr) (calls_of s i) -> complete call tr /\ exists hd, P i hd = Some call) /\
    t_done (c_th (cfg s) i) = flat_map snd (calls_of s i) ++ cur_trace (history (cfg s) i) /\
    match h_cur (history (cfg s) i) with
    | Some (call, st, tr) => tame call st tr /\ next st <> None /\ fit st (fold_left guards_after (rdone tr) []) /\ exists hd, P i hd = Some call
    | None => True
    end.
  Proof.
    intros s i. pose proof (run_good call_init next (call_adv (V := V)) (both Ml Mv) (m0, sv_new) P s i) as [G _].
    change (ConcScript.good call_init next call_adv (P i) (t_done (c_th (cfg s) i)) (history (cfg s) i)) in G.
    destruct G as [D PA C]. change (h_done (history (cfg s) i)) with (calls_of s i) in D, PA.
    pose proof (run_fine s i) as F. pose proof (right_returns s i) as R.
    unfold rights, right_thread, sel_thread in R. cbn [t_done] in R. rewrite D in F, R.
    assert (H : forall hd tl, (forall call tr, In (call, tr) hd -> exists st, lpath call tr st /\ next st = None) ->
      fine (flat_map snd hd ++ tl) -> returns_all unique_eqb [] (rdone (flat_map snd hd ++ tl)) ->
      (forall call tr, In (call, tr) hd -> complete call tr) /\ fine tl /\ returns_all unique_eqb [] (rdone tl)).
    { clear D PA C F R. induction hd as [|[call tr] hd IH]; intros tl HP HF HR; cbn [flat_map snd app] in *.
      - split; [now intros|]. split; assumption.
      - rewrite <- app_assoc in HF, HR. unfold rdone in *. rewrite sel_done_app in HR. apply returns_all_app in HR as [HR1 HR2].
        destruct (HP call tr (or_introl eq_refl)) as (st & HP1 & HP2).
        destruct (path_tame call tr st HP1) as [T G].
        { intros o r I. apply HF, in_or_app. now left. }
        { exact HR1. }
        assert (G0 : fold_left guards_after (rdone tr) [] = []).
        { unfold fit in G. unfold call_next in HP2. destruct st as [g u|k u|k u| |g|k|x|x ks|x k ks|x|x|]; try discriminate; auto.
          destruct ks; discriminate. }
        unfold rdone in G0. rewrite G0 in HR2.
        destruct (IH tl) as (A & B & E).
        { intros c' t' I. apply HP. now right. }
        { intros o r I. apply HF, in_or_app. now right. }
        { exact HR2. }
        split; [|split; assumption]. intros c' t' [I|I]; [injection I as <- <-; exists st; auto|auto]. }
    destruct (H (calls_of s i) (cur_trace (history (cfg s) i))) as (A & B & E).
    { intros call tr I. apply PA in I. apply I. }
    { exact F. }
    { exact R. }
    split; [|split; [exact D|]].
    - intros call tr I. split; [now apply A|]. apply PA in I. apply I.
    - unfold cur_trace in B, E. destruct (h_cur (history (cfg s) i)) as [[[call st] tr]|]; [|exact Logic.I].
      destruct C as (C1 & C2 & C3). destruct (path_tame call tr st C1 B E) as [T G]. auto.
  Qed.

  Notation running s i := (underway bd fields loc accepts shard_of O sh_new view shards read P m0 s i).
  Notation began s i call := (has_begun bd fields loc accepts shard_of O sh_new view shards read P m0 s i call).
  Notation now s := (labels_now bd fields loc accepts shard_of O sh_new view shards read P m0 s).

  Lemma idle_cur : forall s i, running s i = None -> t_cur (c_th (cfg s) i) = None /\ h_cur (history (cfg s) i) = None.
  Proof.
    intros s i U. unfold underway in U. pose proof (run_good call_init next (call_adv (V := V)) (both Ml Mv) (m0, sv_new) P s i) as [_ G].
    change (c_th (run (both Ml Mv) (follow call_init next call_adv P) s (start_config (m0, sv_new))) i) with (c_th (cfg s) i) in G.
    change (hist call_init next call_adv P (run (both Ml Mv) (follow call_init next call_adv P) s (start_config (m0, sv_new))) i)
      with (history (cfg s) i) in G.
    unfold next_op, made in *. destruct (h_cur (history (cfg s) i)) as [[[c st] tr]|]; [discriminate|]. split; [|reflexivity].
    destruct (t_cur (c_th (cfg s) i)) as [[op mic]|]; [|reflexivity]. rewrite U in G. discriminate.
  Qed.

  Lemma idle_done : forall s i, running s i = None -> t_done (c_th (cfg s) i) = flat_map snd (calls_of s i).
  Proof.
    intros s i U. destruct (idle_cur s i U) as [_ C]. destruct (tame_history s i) as (_ & D & _).
    unfold cur_trace in D. rewrite C, app_nil_r in D. exact D.
  Qed.

  (** What calls return. *)
  Lemma last_snoc : forall A (l : list A) x d, last (l ++ [x]) d = x.
  Proof. intros A l x d. induction l as [|y l IH]; [reflexivity|]. cbn. destruct l; [reflexivity|exact IH]. Qed.

  Lemma groups_decoded : forall tr, groups_of tr = map snd (decoded tr).
  Proof.
    intros tr. unfold groups_of, decoded. induction tr as [|[o r] tr IH]; [reflexivity|]. cbn [flat_map]. rewrite map_app, IH. f_equal.
    now destruct o as [[]|], r as [[]|].
  Qed.
  Lemma values_read : forall tr, values_of tr = map snd (reads tr).
  Proof.
    intros tr. unfold values_of, reads. induction tr as [|[o r] tr IH]; [reflexivity|]. cbn [flat_map]. rewrite map_app, IH. f_equal.
    now destruct o as [|[]], r as [|[]].
  Qed.

  (** The calls a thread has finished, one by one. *)
  Inductive outcome_is : vec_call Op -> trace lop lres -> Prop :=
  | O_refused_update : forall g u, outcome_is (CUpdate g u) [ev (LEncode g) (LId None)]
  | O_update : forall g u k r, outcome_is (CUpdate g u)
      [ev (LEncode g) (LId (Some k)); vv (SGet 0 k) RUnit; vv (SUse 0 k u) (RVal r); vv (SDrop 0) RUnit]
  | O_refused_delete : forall g, outcome_is (CDelete g) [ev (LEncode g) (LId None)]
  | O_delete : forall g k v, outcome_is (CDelete g) [ev (LEncode g) (LId (Some k)); vv (SRemove k) (RRemoved v)]
  | O_collect : forall tr, Forall collect_op tr -> shows_all tr shards [] -> map fst (reads tr) = map fst (decoded tr) ->
      (tr = [] \/ exists tr', tr = tr' ++ [vv (SDrop 0) RUnit]) -> outcome_is CCollect tr
  | O_count : forall tr, Forall collect_op tr -> map fst (opened tr) = seq 0 shards ->
      (tr = [] \/ exists tr', tr = tr' ++ [vv (SDrop 0) RUnit]) -> outcome_is CCount tr.

  Lemma complete_outcome : forall call tr, complete call tr -> outcome_is call tr.
  Proof.
    intros call tr (st & T & N). destruct st as [g u|k u|k u| |g|k|x|x ks|x k ks|x|x|]; cbn [call_next] in N; try discriminate.
    - destruct (Nat.ltb_spec x shards) as [|GE]; [discriminate|]. destruct T as (-> & L & A & B & C & D).
      assert (x = shards) as -> by lia. now constructor.
    - destruct ks; discriminate.
    - destruct (Nat.ltb_spec x shards) as [|GE]; [discriminate|]. destruct T as (-> & L & A & B & D).
      assert (x = shards) as -> by lia. now constructor.
    - destruct T as [(g & u & -> & [->|(k & r & ->)])|(g & -> & [->|(k & v & ->)])]; constructor.
  Qed.

  Lemma made_outcome : forall s i call tr, In (call, tr) (calls_of s i) ->
    outcome_is call tr /\ (exists hd, P i hd = Some call) /\ exists a b, t_done (c_th (cfg s) i) = a ++ tr ++ b.
  Proof.
    intros s i call tr I. destruct (tame_history s i) as (A & D & _). destruct (A call tr I) as [C H].
    split; [now apply complete_outcome|]. split; [exact H|]. apply in_split in I as (x & y & I). rewrite I in D.
    rewrite D, flat_map_app. cbn. exists (flat_map snd x), (flat_map snd y ++ cur_trace (history (cfg s) i)).
    now rewrite <- !app_assoc.
  Qed.

  Lemma refused_why : forall s i g, In (ev (LEncode g) (LId None)) (t_done (c_th (cfg s) i)) ->
    exists s1 s2 f v, s = s1 ++ s2 /\ In f (now s1) /\ field_value g (f_name f) v /\ refuses f v.
  Proof.
    intros s i g I. destruct (projections s) as (l1 & l2 & f1 & f2 & LS & PR & MO & CO).
    destruct (PR (length s) (Nat.le_refl _)) as [[_ B] _]. rewrite firstn_all in B.
    assert (J : In (LEncode g, LId None) (t_done (c_th (run Ml (calls l1) (f1 (length s)) (start_config m0)) i))).
    { rewrite B. now apply in_left. }
    destruct (label_rejection bd fields loc accepts m0 (calls l1) _ i g sound ndup LS J) as (p & q & f & v & E & F1 & F2 & F3).
    destruct (CO p q E) as (m & ML & ME). destruct (PR m ML) as [[A' _] _]. rewrite ME in A'.
    assert (F1' : In f (now (firstn m s))) by (unfold labels_now; rewrite <- A'; exact F1).
    exists (firstn m s), (skipn m s), f, v. split; [now rewrite firstn_skipn|]. split; [exact F1'|]. split; assumption.
  Qed.

  (** Ids and groups. *)
  Lemma now_ok : forall s, group_ok (now s).
  Proof.
    intros s. destruct (project s []) as (l1 & s1 & t1 & l2 & s2 & t2 & LS & [A _] & _). unfold labels_now. rewrite <- A.
    exact (current_group_ok bd fields loc accepts (sound_ok _ sound) m0 ndup (calls l1) LS s1).
  Qed.

  Lemma now_round_trip : forall s g k, well_shaped fields g -> group_encode bd (now s) g = Done (now s, Some k) ->
    group_decode bd (now s) k = Done g.
  Proof.
    intros s g k W E. pose proof (history_stable (derived_lawful bd) (now s) [(g, Some k)] (now s)) as HS.
    destruct HS as [HS _].
    - econstructor; [exact E|constructor].
    - apply now_ok.
    - constructor; [|constructor]. now apply current_shaped.
    - apply (HS g k). now left.
  Qed.

  Lemma same_id : forall s j g k g' k', well_shaped fields g -> group_encode bd (now s) g = Done (now s, Some k) ->
    In (ev (LEncode g') (LId (Some k'))) (t_done (c_th (cfg s) j)) -> (k' = k <-> g' = g).
  Proof.
    intros s j g k g' k' W E I. destruct (encode_ok s j g' _ I) as [X|(k2 & X & D2 & E2)]; [discriminate|]. injection X as <-.
    fold (now s) in D2, E2. pose proof (now_round_trip s g k W E) as D. split; intros ->; congruence.
  Qed.

  (** *** Results of whole calls *)
  Theorem call_results : forall s i call tr, In (call, tr) (calls_of s i) ->
    match result_of call tr with
    | Returned _ => exists g u, call = CUpdate g u
    | Removed _ => exists g, call = CDelete g
    | Collected _ => call = CCollect
    | Counted _ => call = CCount
    | Refused => exists g s1 s2 f v, call_group call = Some g /\ s = s1 ++ s2 /\ In f (now s1) /\ field_value g (f_name f) v /\ refuses f v
    | Failed => False
    end.
  Proof.
    intros s i call tr I. destruct (made_outcome s i call tr I) as (OC & _ & a & b & D).
    assert (RF : forall g, In (ev (LEncode g) (LId None)) tr -> exists s1 s2 f v, s = s1 ++ s2 /\ In f (now s1) /\ field_value g (f_name f) v /\ refuses f v).
    { intros g J. apply (refused_why s i). rewrite D. apply in_or_app. right. apply in_or_app. now left. }
    destruct OC as [g u|g u k r|g|g k v|tr F S R L|tr F S L]; cbn [result_of].
    - destruct (RF g (or_introl eq_refl)) as (s1 & s2 & f & v & H). exists g, s1, s2, f, v. split; [reflexivity|exact H].
    - eauto.
    - destruct (RF g (or_introl eq_refl)) as (s1 & s2 & f & v & H). exists g, s1, s2, f, v. split; [reflexivity|exact H].
    - eauto.
    - destruct L as [->|(tr' & ->)]; [reflexivity|]. now rewrite last_snoc.
    - destruct L as [->|(tr' & ->)]; [reflexivity|]. now rewrite last_snoc.
  Qed.

  (** *** Sums *)
  Section Flow.
    Variable add : Op -> Res -> Z.
    Variable amount : V -> Z.
    Hypothesis add_read : forall r, add read r = 0%Z.
    Variable g : group_val.
    Variable k : unique.
    Notation flow := (vec_flow unique_eqb add amount k).

    Definition matches (tr : trace lop lres) : Prop :=
      forall g' k', In (ev (LEncode g') (LId (Some k'))) tr -> (k' = k <-> g' = g).

    Lemma eq_cases : forall (g' : group_val) (k' : unique) (x y : Z), (k' = k <-> g' = g) ->
      (if unique_eqb k' k then x else y) = (if group_eq_dec g' g then x else y).
    Proof.
      intros g' k' x y H. destruct (group_eq_dec g' g) as [E|NE].
      - apply H in E. assert (unique_eqb k' k = true) as -> by now apply unique_eqb_spec. reflexivity.
      - destruct (unique_eqb k' k) eqn:Q; [|reflexivity]. apply unique_eqb_spec in Q. apply H in Q. contradiction.
    Qed.

    Lemma flow_reads : forall tr, Forall collect_op tr -> sum_over flow (rdone tr) = 0%Z.
    Proof.
      intros tr F. induction F as [|[o r] tr C F IH]; [reflexivity|]. unfold rdone in *. cbn [sel_done flat_map fst snd].
      change (flat_map _ tr) with (sel_done right_of right_of tr) in *.
      destruct o as [o|o]; [exact IH|]. destruct r as [r|r]; [exact IH|]. cbn [right_of app sum_over fold_right].
      fold (sum_over flow (sel_done right_of right_of tr)). rewrite IH. unfold collect_op in C. cbn [fst] in C.
      destruct o as [h q|h q u|h|q|h x]; try contradiction; try (destruct r; reflexivity).
      subst u. cbn. destruct r; try reflexivity. rewrite add_read. now destruct (unique_eqb q k).
    Qed.

    Lemma flow_call : forall call tr, outcome_is call tr -> matches tr ->
      sum_over flow (rdone tr) = call_adds add amount g (call, tr).
    Proof.
      intros call tr OC MA. destruct OC as [g' u|g' u k' r|g'|g' k' v|tr F S R L|tr F S L].
      - reflexivity.
      - unfold call_adds. cbn [fst snd result_of rdone sel_done flat_map right_of app sum_over fold_right vec_flow].
        rewrite (eq_cases g' k') by (apply MA; now left). destruct (group_eq_dec g' g); lia.
      - reflexivity.
      - unfold call_adds. cbn [fst snd result_of rdone sel_done flat_map right_of app sum_over fold_right vec_flow].
        destruct v as [v|]; [|reflexivity]. rewrite (eq_cases g' k') by (apply MA; now left). destruct (group_eq_dec g' g); lia.
      - rewrite (flow_reads tr F). unfold call_adds. cbn [fst snd]. now destruct (result_of CCollect tr).
      - rewrite (flow_reads tr F). unfold call_adds. cbn [fst snd]. now destruct (result_of CCount tr).
    Qed.

    Lemma flow_calls : forall hd, (forall call tr, In (call, tr) hd -> outcome_is call tr) -> matches (flat_map snd hd) ->
      sum_over flow (rdone (flat_map snd hd)) = sum_over (call_adds add amount g) hd.
    Proof.
      intros hd. induction hd as [|[call tr] hd IH]; intros OC MA; [reflexivity|].
      cbn [flat_map snd]. unfold rdone in *. rewrite sel_done_app, sum_over_app. cbn [sum_over fold_right].
      f_equal.
      - apply flow_call; [apply OC; now left|]. intros g' k' I. apply MA. cbn. apply in_or_app. now left.
      - apply IH; [intros c t I; apply OC; now right|]. intros g' k' I. apply MA. cbn. apply in_or_app. now right.
    Qed.
  End Flow.

  Lemma matches_now : forall s g k, well_shaped fields g -> group_encode bd (now s) g = Done (now s, Some k) ->
    forall j, matches g k (t_done (c_th (cfg s) j)).
  Proof. intros s g k W E j g' k' I. eapply same_id; eauto. Qed.

  Theorem calls_total : forall add amount s n g k, (forall r, add read r = 0%Z) -> (forall i, running s i = None) ->
    well_shaped fields g -> group_encode bd (now s) g = Done (now s, Some k) ->
    sum_over (fun i => sum_over (vec_flow unique_eqb add amount k) (t_done (rights (cfg s) i))) (seq 0 n) =
    all_adds bd fields loc accepts shard_of O sh_new view shards read P m0 add amount g n s.
  Proof.
    intros add amount s n g k AR ID W E. unfold all_adds. apply sum_over_ext. intros i _.
    unfold rights, right_thread, sel_thread. cbn [t_done]. rewrite (idle_done s i (ID i)).
    apply flow_calls; [exact AR| |].
    - intros call tr I. now apply (made_outcome s i).
    - rewrite <- (idle_done s i (ID i)). now apply matches_now.
  Qed.

  (** *** Which groups are there *)
  Lemma explained : forall s, exists l2 s2 (L : schedule -> list (@entry (vec_op unique Op) (vec_res unique Res V))) a,
    shows Mv l2 s2 sv_new (snd (c_sh (cfg s))) (rights (cfg s)) /\
    (forall i, of_thread i (L s2) = t_done (rights (cfg s) i) \/
       exists op mic r, t_cur (rights (cfg s) i) = Some (op, mic) /\ of_thread i (L s2) = t_done (rights (cfg s) i) ++ [(op, r)]) /\
    legal vspec av_new (L s2) a /\
    ((forall i, running s i = None) -> same_views unique_eqb shard_of view aview (snd (c_sh (cfg s))) a).
  Proof.
    intros s. destruct (project s []) as (l1 & s1 & t1 & l2 & s2 & t2 & _ & _ & _ & [A R] & _).
    destruct (vec_logs (calls l2)) as (L & _ & H). destruct (H s2) as (E & a & LG & SV).
    exists l2, s2, L, a. split; [split; assumption|]. split; [|split; [exact LG|]].
    - intros i. specialize (E i). rewrite R in E. exact E.
    - intros ID. rewrite <- A. apply SV. intros i. rewrite R. unfold rights, right_thread, sel_thread. cbn [t_cur].
      destruct (idle_cur s i (ID i)) as [-> _]. reflexivity.
  Qed.

  Lemma made_got : forall s j call tr h k, In (call, tr) (calls_of s j) -> In (vv (SGet h k) RUnit) tr ->
    exists g u, call = CUpdate g u /\ In (ev (LEncode g) (LId (Some k))) tr.
  Proof.
    intros s j call tr h k I G. destruct (made_outcome s j call tr I) as (OC & _). destruct OC as [g' u|g' u k' r|g'|g' k' v|tr F S R L|tr F S L].
    - destruct G as [G|[]]; discriminate.
    - destruct G as [G|[G|[G|[G|[]]]]]; try discriminate. injection G as -> ->. exists g', u. split; [reflexivity|now left].
    - destruct G as [G|[]]; discriminate.
    - destruct G as [G|[G|[]]]; discriminate.
    - rewrite Forall_forall in F. specialize (F _ G). contradiction.
    - rewrite Forall_forall in F. specialize (F _ G). contradiction.
  Qed.

  Lemma got_begun : forall s j (log : list (@entry (vec_op unique Op) (vec_res unique Res V))) h k,
    (forall i, of_thread i log = t_done (rights (cfg s) i) \/
       exists op mic r, t_cur (rights (cfg s) i) = Some (op, mic) /\ of_thread i log = t_done (rights (cfg s) i) ++ [(op, r)]) ->
    In (j, SGet h k, RUnit) log ->
    exists g u, began s j (CUpdate g u) /\ In (ev (LEncode g) (LId (Some k))) (t_done (c_th (cfg s) j)).
  Proof.
    intros s j log h k E I. apply in_of_thread in I. destruct (tame_history s j) as (_ & D & C).
    assert (X : In (SGet h k, RUnit) (t_done (rights (cfg s) j)) ->
      exists g u, began s j (CUpdate g u) /\ In (ev (LEncode g) (LId (Some k))) (t_done (c_th (cfg s) j))).
    { intros J. apply in_right in J. rewrite D in J. apply in_app_or in J as [J|J].
      - apply in_flat_map in J as ([call tr] & J1 & J2). cbn in J2. destruct (made_got s j call tr h k J1 J2) as (g & u & -> & G).
        exists g, u. split; [left; apply in_map_iff; now exists (CUpdate g u, tr)|].
        rewrite D. apply in_or_app. left. apply in_flat_map. now exists (CUpdate g u, tr).
      - unfold cur_trace in J, D. unfold has_begun, underway. destruct (h_cur (history (cfg s) j)) as [[[call st] tr]|] eqn:HC; [|contradiction].
        destruct C as (T & _). rewrite D.
        destruct st as [g u|q u|q u| |g|q|x|x ks|x q ks|x|x|]; cbn [tame] in T.
        + destruct T as [_ ->]. contradiction.
        + destruct T as (g & _ & ->). destruct J as [J|[]]; discriminate.
        + destruct T as (g & -> & ->). destruct J as [J|[J|[]]]; try discriminate. injection J as <- <-. exists g, u.
          split; [now right|]. apply in_or_app. right. now left.
        + destruct T as (g & u & q & r & -> & ->). destruct J as [J|[J|[J|[]]]]; try discriminate. injection J as <- <-. exists g, u.
          split; [now right|]. apply in_or_app. right. now left.
        + destruct T as [_ ->]. contradiction.
        + destruct T as (g & _ & ->). destruct J as [J|[]]; discriminate.
        + destruct T as (_ & _ & F & _). rewrite Forall_forall in F. specialize (F _ J). contradiction.
        + destruct T as (_ & _ & F & _). rewrite Forall_forall in F. specialize (F _ J). contradiction.
        + destruct T as (_ & _ & F & _). rewrite Forall_forall in F. specialize (F _ J). contradiction.
        + destruct T as (_ & _ & F & _). rewrite Forall_forall in F. specialize (F _ J). contradiction.
        + destruct T as (_ & _ & F & _). rewrite Forall_forall in F. specialize (F _ J). contradiction.
        + destruct T as [(g & u & -> & [->|(q & r & ->)])|(g & -> & [->|(q & v & ->)])].
          * destruct J as [J|[]]; discriminate.
          * destruct J as [J|[J|[J|[J|[]]]]]; try discriminate. injection J as <- <-. exists g, u. split; [now right|]. apply in_or_app. right. now left.
          * destruct J as [J|[]]; discriminate.
          * destruct J as [J|[J|[]]]; discriminate. }
    destruct (E j) as [E'|(op & mic & r' & CU & E')]; rewrite E' in I; [now apply X|].
    apply in_app_or in I as [I|[I|[]]]; [now apply X|]. injection I as -> ->.
    unfold rights, right_thread, sel_thread in CU. cbn [t_cur] in CU.
    destruct (t_cur (c_th (cfg s) j)) as [[[o'|o'] [m|m]]|] eqn:CUR; cbn in CU; try discriminate. injection CU as -> ->.
    pose proof (run_good call_init next (call_adv (V := V)) (both Ml Mv) (m0, sv_new) P s j) as [_ G].
    change (c_th (run (both Ml Mv) (follow call_init next call_adv P) s (start_config (m0, sv_new))) j) with (c_th (cfg s) j) in G.
    change (hist call_init next call_adv P (run (both Ml Mv) (follow call_init next call_adv P) s (start_config (m0, sv_new))) j)
      with (history (cfg s) j) in G.
    rewrite CUR in G. unfold next_op in G. unfold has_begun, underway. unfold cur_trace in D.
    destruct (h_cur (history (cfg s) j)) as [[[call st] tr]|] eqn:HC.
    - destruct C as (T & _). rewrite D. destruct st as [g u|q u|q u| |g|q|x|x ks|x q ks|x|x|]; cbn [call_next] in G; try discriminate.
      + injection G as <- ->. destruct T as (g & -> & ->). exists g, u. split; [now right|]. apply in_or_app. right. now left.
      + destruct (Nat.ltb x shards); discriminate.
      + destruct ks; discriminate.
      + destruct (Nat.ltb x shards); discriminate.
    - destruct (P j (h_done (history (cfg s) j))) as [call|]; [|discriminate].
      destruct call; cbn [call_init call_next] in G; try discriminate; destruct (Nat.ltb 0 shards); discriminate.
  Qed.

  Theorem row_groups : forall s, (forall i, running s i = None) -> forall k x,
    metric_now bd fields loc accepts shard_of O sh_new view shards read P m0 s k = Some x ->
    exists g u j tr, In (CUpdate g u, tr) (calls_of s j) /\
      group_decode bd (now s) k = Done g /\ group_encode bd (now s) g = Done (now s, Some k).
  Proof.
    intros s ID k x M. destruct (explained s) as (l2 & s2 & L & a & _ & E & LG & SV).
    specialize (SV ID k). unfold metric_now in M. rewrite M in SV. cbn in SV.
    pose proof (legal_life unique_eqb unique_eqb_spec shard_of spec st_new aview k _ _ LG) as LF.
    destruct (aget unique_eqb k (a_tab a (shard_of k))) as [y|]; [|discriminate]. destruct LF as [PR _].
    apply present_got in PR as (j & h & G). destruct (got_begun s j (L s2) h k E G) as (g & u & B & I).
    destruct B as [B|B]; [|rewrite (ID j) in B; discriminate]. apply in_map_iff in B as ([c tr] & B1 & B2). cbn in B1. subst c.
    exists g, u, j, tr. split; [exact B2|]. destruct (encode_ok s j g _ I) as [X|(k2 & X & D2 & E2)]; [discriminate|].
    injection X as <-. split; assumption.
  Qed.

  (** *** Collections *)
  Lemma in_opened : forall tr x ks, In (x, ks) (opened tr) -> exists h, In (vv (SOpen h x) (RKeys ks)) tr.
  Proof.
    intros tr x ks I. unfold opened in I. apply in_flat_map in I as ([o r] & I & J).
    destruct o as [o|[h q|h q u|h|q|h y]], r as [r|[]]; cbn in J; try contradiction. destruct J as [J|[]]. injection J as -> ->. eauto.
  Qed.
  Lemma in_decoded : forall tr k g, In (k, g) (decoded tr) <-> In (ev (LDecode k) (LGroup g)) tr.
  Proof.
    intros tr k g. unfold decoded. rewrite in_flat_map. split.
    - intros ([o r] & I & J). destruct o as [[]|o], r as [[]|r]; cbn in J; try contradiction. destruct J as [J|[]]. injection J as -> ->. exact I.
    - intros I. exists (ev (LDecode k) (LGroup g)). split; [exact I|now left].
  Qed.
  Lemma in_reads : forall tr k r, Forall collect_op tr -> In (k, r) (reads tr) -> exists h, In (vv (SUse h k read) (RVal r)) tr.
  Proof.
    intros tr k r F I. unfold reads in I. apply in_flat_map in I as ([o r'] & I & J).
    destruct o as [o|[h q|h q u|h|q|h y]], r' as [r'|[]]; cbn in J; try contradiction. destruct J as [J|[]]. injection J as -> ->.
    rewrite Forall_forall in F. pose proof (F _ I) as C. unfold collect_op in C. cbn in C. subst u. eauto.
  Qed.

  Lemma opened_keys : forall s i x ks h, In (vv (SOpen h x) (RKeys ks)) (t_done (c_th (cfg s) i)) ->
    NoDup ks /\ forall k, In k ks -> shard_of k = x /\
      exists j g u, began s j (CUpdate g u) /\ In (ev (LEncode g) (LId (Some k))) (t_done (c_th (cfg s) j)).
  Proof.
    intros s i x ks h I. destruct (explained s) as (l2 & s2 & L & a & _ & E & LG & _).
    assert (J : In (i, SOpen h x, RKeys ks) (L s2)).
    { apply in_of_thread. apply in_right in I. change (In (SOpen h x, RKeys ks) (t_done (rights (cfg s) i))) in I.
      destruct (E i) as [->|(op & mic & r & _ & ->)]; [exact I|]. apply in_or_app. now left. }
    apply in_split in J as (pre & post & J). rewrite J in LG.
    destruct (legal_open unique_eqb unique_eqb_spec shard_of spec st_new aview pre i h x ks post a LG) as [ND OP].
    split; [exact ND|]. intros k K. apply OP in K as [K1 K2]. split; [exact K1|]. apply present_got in K2 as (j & h' & K2).
    destruct (got_begun s j (L s2) h' k E) as (g & u & B). { rewrite J. apply in_or_app. now left. }
    exists j, g, u. exact B.
  Qed.

  Lemma NoDup_shards : forall l : list (nat * list unique), NoDup (map fst l) ->
    (forall x ks, In (x, ks) l -> NoDup ks /\ forall k, In k ks -> shard_of k = x) -> NoDup (concat (map snd l)).
  Proof.
    intros l. induction l as [|[x ks] l IH]; intros N H; [constructor|]. cbn in *. inversion N as [|? ? N1 N2]; subst.
    destruct (H x ks (or_introl eq_refl)) as [H1 H2]. apply NoDup_app_disjoint; [exact H1|apply IH; [exact N2|]|].
    - intros y l' I. apply H. now right.
    - intros k K1 K2. apply in_concat in K2 as (l' & I & K2). apply in_map_iff in I as ([y l''] & E & I). cbn in E. subst l''.
      destruct (H y l' (or_intror I)) as [_ H3]. specialize (H2 _ K1). specialize (H3 _ K2). subst x. apply N1.
      rewrite H3. now apply (in_map fst) in I.
  Qed.

  Lemma NoDup_other : forall (l : list (unique * group_val)), NoDup (map fst l) ->
    (forall a b, In a l -> In b l -> snd a = snd b -> fst a = fst b) -> NoDup (map snd l).
  Proof.
    intros l. induction l as [|a l IH]; intros N H; [constructor|]. cbn in *. inversion N as [|? ? N1 N2]; subst. constructor.
    - intros I. apply in_map_iff in I as (b & E & I). apply N1. rewrite <- (H b a); [now apply in_map|now right|now left|exact E].
    - apply IH; [exact N2|]. intros x y X Y. apply H; now right.
  Qed.

  Lemma collect_facts : forall s i tr, In (CCollect, tr) (calls_of s i) ->
    Forall collect_op tr /\ shows_all tr shards [] /\ map fst (reads tr) = map fst (decoded tr) /\
    result_of CCollect tr = Collected (combine (groups_of tr) (values_of tr)) /\ length (groups_of tr) = length (values_of tr) /\
    (forall k g, In (k, g) (decoded tr) -> exists j, In (ev (LEncode g) (LId (Some k))) (t_done (c_th (cfg s) j))) /\
    forall d, In d tr -> In d (t_done (c_th (cfg s) i)).
  Proof.
    intros s i tr I. destruct (made_outcome s i CCollect tr I) as (OC & _ & a & b & D). inversion OC as [| | | |? F S R L|]; subst.
    assert (SUB : forall d, In d tr -> In d (t_done (c_th (cfg s) i))).
    { intros d H. rewrite D. apply in_or_app. right. apply in_or_app. now left. }
    split; [exact F|]. split; [exact S|]. split; [exact R|]. split.
    { cbn [result_of]. destruct L as [->|(tr' & ->)]; [reflexivity|]. now rewrite last_snoc. }
    split.
    { rewrite groups_decoded, values_read, !map_length. rewrite <- (map_length fst (decoded tr)), <- R. now rewrite map_length. }
    split; [|exact SUB]. intros k g J. apply in_decoded in J. apply SUB in J. destruct (decode_ok s i k _ J) as (g' & j & E & H).
    injection E as <-. eauto.
  Qed.

  Lemma map_fst_combine : forall A B (a : list A) (b : list B), length a = length b -> map fst (combine a b) = a.
  Proof. intros A B a. induction a as [|x a IH]; intros [|y b] L; cbn in *; try discriminate; [reflexivity|]. f_equal. apply IH. lia. Qed.

  Lemma in_collected : forall (d : list (unique * group_val)) (v : list (unique * Res)) g r, map fst v = map fst d ->
    In (g, r) (combine (map snd d) (map snd v)) -> exists k, In (k, g) d /\ In (k, r) v.
  Proof.
    intros d. induction d as [|[k g0] d IH]; intros [|[k' r0] v] g r E I; cbn in *; try contradiction. injection E as -> E.
    destruct I as [I|I].
    - injection I as -> ->. exists k. auto.
    - destruct (IH v g r E I) as (q & A & B). exists q. auto.
  Qed.

  Theorem collections : forall s i tr, In (CCollect, tr) (calls_of s i) -> exists l, result_of CCollect tr = Collected l /\
    NoDup (map fst l) /\ forall g r, In (g, r) l -> exists j u, began s j (CUpdate g u).
  Proof.
    intros s i tr I. destruct (collect_facts s i tr I) as (F & [S1 S2] & R & RE & LE & EN & SUB).
    rewrite app_nil_r in S2. eexists. split; [exact RE|]. rewrite map_fst_combine by exact LE. split.
    - rewrite groups_decoded. apply NoDup_other.
      + rewrite <- S2. apply NoDup_shards; [rewrite S1; apply seq_NoDup|]. intros x ks J. apply in_opened in J as (h & J).
        apply SUB in J. destruct (opened_keys s i x ks h J) as [N K]. split; [exact N|]. intros k H. now apply K.
      + intros [k g] [k' g'] A B E. cbn in E. subst g'. cbn. destruct (EN k g A) as (j & X). destruct (EN k' g B) as (j' & Y).
        now apply (ids_unique s j j' g g k k' X Y).
    - intros g r J. rewrite groups_decoded, values_read in J. apply in_collected in J as (k & J1 & _); [|exact R].
      assert (K : In k (concat (map snd (opened tr)))) by (rewrite S2; now apply (in_map fst) in J1).
      apply in_concat in K as (ks & K1 & K2). apply in_map_iff in K1 as ([x ks'] & E & K1). cbn in E. subst ks'.
      apply in_opened in K1 as (h & K1). apply SUB in K1. destruct (opened_keys s i x ks h K1) as [_ K].
      destruct (K k K2) as (_ & j & g' & u & B & EN'). destruct (EN k g J1) as (j' & EN2).
      assert (g' = g) as -> by now apply (ids_unique s j j' g' g k k EN' EN2). eauto.
  Qed.

  (** *** Sums while calls are under way *)
  Definition explained_by (s : schedule) (log : list (@entry (vec_op unique Op) (vec_res unique Res V))) : Prop :=
    forall i, of_thread i log = t_done (rights (cfg s) i) \/
      exists op mic r, t_cur (rights (cfg s) i) = Some (op, mic) /\ of_thread i log = t_done (rights (cfg s) i) ++ [(op, r)].

  Section Bounds.
    Variable add : Op -> Res -> Z.
    Variable amount : V -> Z.
    Variable most : Op -> Z.
    Hypothesis add_read : forall r, add read r = 0%Z.
    Hypothesis add_most : forall u r, (0 <= add u r <= most u)%Z.
    Hypothesis most_pos : forall u, (0 <= most u)%Z.
    Variable g : group_val.
    Variable k : unique.
    Hypothesis kept : forall j hd, P j hd <> Some (CDelete g).
    Notation flow := (vec_flow unique_eqb add amount k).
    Notation nonneg := (Forall (fun d => 0 <= flow d)%Z).
    Definition might_add (call : vec_call Op) : Z :=
      match call with CUpdate g' u => if group_eq_dec g' g then most u else 0 | _ => 0 end%Z.

    Lemma nonneg_reads : forall tr, Forall collect_op tr -> nonneg (rdone tr).
    Proof.
      intros tr F. apply Forall_forall. intros [o r] I. apply in_right in I. rewrite Forall_forall in F. specialize (F _ I).
      unfold collect_op in F. cbn in F. destruct o as [h q|h q u|h|q|h x]; try contradiction; try (cbn; destruct r; lia).
      subst u. cbn. destruct r; try lia. rewrite add_read. destruct (unique_eqb q k); lia.
    Qed.

    Lemma use_bounds : forall g' h q u r, (q = k <-> g' = g) -> (0 <= flow (SUse h q u, r) <= might_add (CUpdate g' u))%Z.
    Proof.
      intros g' h q u r H. cbn [might_add]. rewrite <- (eq_cases g k g' q) by exact H. pose proof (most_pos u). cbn.
      destruct r as [| |x| | | |]; destruct (unique_eqb q k); try lia; apply add_most.
    Qed.

    Lemma remove_bounds : forall j hd g' q r, P j hd = Some (CDelete g') -> (q = k <-> g' = g) -> flow (SRemove q, r) = 0%Z.
    Proof.
      intros j hd g' q r C H. cbn. assert (NE : g' <> g) by (intros ->; exact (kept _ _ C)).
      assert (unique_eqb q k = false) as ->.
      { destruct (unique_eqb q k) eqn:E; [|reflexivity]. apply unique_eqb_spec in E. apply H in E. contradiction. }
      destruct r as [| | |[v|]| | |]; reflexivity.
    Qed.

    Lemma flow_other : forall h q r, flow (SGet h q, r) = 0%Z.
    Proof. intros h q r. now destruct r. Qed.
    Lemma flow_drop : forall h r, flow (SDrop h, r) = 0%Z.
    Proof. intros h r. now destruct r. Qed.
    Lemma flow_open : forall h x r, flow (SOpen h x, r) = 0%Z.
    Proof. intros h x r. now destruct r. Qed.

    Lemma nonneg_call : forall j call tr, outcome_is call tr -> (exists hd, P j hd = Some call) -> matches g k tr -> nonneg (rdone tr).
    Proof.
      intros j call tr OC (hd & C) MA. destruct OC as [g' u|g' u k' r|g'|g' k' v|tr F S R L|tr F S L].
      - constructor.
      - cbn [rdone sel_done flat_map right_of app fst snd]. constructor; [rewrite flow_other; lia|].
        constructor; [apply (use_bounds g'); apply MA; now left|]. constructor; [rewrite flow_drop; lia|constructor].
      - constructor.
      - cbn [rdone sel_done flat_map right_of app fst snd]. constructor; [|constructor].
        rewrite (remove_bounds j hd g') by (exact C || (apply MA; now left)). lia.
      - now apply nonneg_reads.
      - now apply nonneg_reads.
    Qed.

    (** The call a thread is in. *)
    Lemma under_way : forall j call st tr op, tame call st tr -> next st = Some op -> (exists hd, P j hd = Some call) -> matches g k tr ->
      forall pend, pend = [] \/ (exists o r, op = inr o /\ pend = [(o, r)]) ->
      nonneg (rdone tr ++ pend) /\ (0 <= sum_over flow (rdone tr ++ pend) <= might_add call)%Z.
    Proof.
      intros j call st tr op T N (hd & C) MA pend PE.
      assert (ZE : forall l, nonneg l -> (sum_over flow l <= might_add call)%Z -> nonneg l /\ (0 <= sum_over flow l <= might_add call)%Z).
      { intros l NN LE. split; [exact NN|]. split; [|exact LE]. clear -NN. induction NN as [|d l H NN IH]; [cbn; lia|].
        cbn [sum_over fold_right]. fold (sum_over flow l). lia. }
      assert (MP : (0 <= might_add call)%Z). { unfold might_add. destruct call; try lia. destruct (group_eq_dec g0 g); [apply most_pos|lia]. }
      assert (CO : forall l, Forall collect_op tr -> (pend = [] \/ exists o r, pend = [(o, r)] /\ collect_op (inr o, inr r)) -> l = rdone tr ++ pend ->
        nonneg l /\ (0 <= sum_over flow l <= might_add call)%Z).
      { intros l F PE' ->. assert (F2 : exists tr', Forall collect_op tr' /\ rdone tr' = rdone tr ++ pend).
        { destruct PE' as [->|(o & r' & -> & CO)]; [exists tr; now rewrite app_nil_r|]. exists (tr ++ [(inr o, inr r')]).
          split; [apply Forall_app; split; [exact F|now repeat constructor]|]. unfold rdone. now rewrite sel_done_app. }
        destruct F2 as (tr' & F2 & <-). apply ZE; [now apply nonneg_reads|]. rewrite flow_reads by assumption. exact MP. }
      destruct st as [g' u|q u|q u| |g'|q|x|x ks|x q ks|x|x|]; cbn [call_next] in N.
      - injection N as <-. destruct T as [-> ->]. destruct PE as [->|(o & r & X & _)]; [|discriminate]. apply ZE; [apply Forall_nil|exact MP].
      - injection N as <-. destruct T as (g' & -> & ->). cbn [rdone sel_done flat_map right_of app fst snd].
        destruct PE as [->|(o & r & X & ->)]; [apply ZE; [apply Forall_nil|exact MP]|]. injection X as <-.
        apply ZE; [constructor; [rewrite flow_other; lia|constructor]|]. cbn [sum_over fold_right]. rewrite flow_other. lia.
      - injection N as <-. destruct T as (g' & -> & ->). cbn [rdone sel_done flat_map right_of app fst snd].
        destruct PE as [->|(o & r & X & ->)].
        + apply ZE; [constructor; [rewrite flow_other; lia|constructor]|]. cbn [sum_over fold_right]. rewrite flow_other. lia.
        + pose proof (use_bounds g' 0 q u r (MA g' q (or_introl eq_refl))) as UB.
          injection X as <-. apply ZE; [constructor; [rewrite flow_other; lia|constructor; [apply UB|constructor]]|].
          cbn [sum_over fold_right]. rewrite flow_other. lia.
      - injection N as <-. destruct T as (g' & u & q & y & -> & ->). cbn [rdone sel_done flat_map right_of app fst snd].
        pose proof (use_bounds g' 0 q u (RVal y) (MA g' q (or_introl eq_refl))) as UB.
        destruct PE as [->|(o & r & X & ->)].
        + apply ZE; [constructor; [rewrite flow_other; lia|constructor; [apply UB|constructor]]|].
          cbn [sum_over fold_right]. rewrite flow_other. lia.
        + injection X as <-. apply ZE; [constructor; [rewrite flow_other; lia|constructor; [apply UB|constructor; [rewrite flow_drop; lia|constructor]]]|].
          cbn [sum_over fold_right]. rewrite flow_other, flow_drop. lia.
      - injection N as <-. destruct T as [-> ->]. destruct PE as [->|(o & r & X & _)]; [|discriminate]. apply ZE; [apply Forall_nil|exact MP].
      - injection N as <-. destruct T as (g' & -> & ->). cbn [rdone sel_done flat_map right_of app fst snd].
        destruct PE as [->|(o & r & X & ->)]; [apply ZE; [apply Forall_nil|exact MP]|]. injection X as <-.
        pose proof (remove_bounds j hd g' q r C (MA g' q (or_introl eq_refl))) as RB.
        apply ZE; [constructor; [rewrite RB; lia|constructor]|]. cbn [sum_over fold_right]. rewrite RB. lia.
      - destruct (Nat.ltb x shards); [|discriminate]. injection N as <-. destruct T as (-> & _ & F & _). apply (CO _ F); [|reflexivity].
        destruct PE as [->|(o & r & X & ->)]; [now left|]. injection X as <-. right. do 2 eexists. split; [reflexivity|exact Logic.I].
      - destruct T as (-> & _ & F & _). apply (CO _ F); [|reflexivity]. destruct PE as [->|(o & r & X & ->)]; [now left|]. right.
        destruct ks; [|subst op; discriminate]. subst op. injection N as <-. do 2 eexists. split; [reflexivity|exact Logic.I].
      - injection N as <-. destruct T as (-> & _ & F & _). apply (CO _ F); [|reflexivity].
        destruct PE as [->|(o & r & X & ->)]; [now left|]. injection X as <-. right. do 2 eexists. split; [reflexivity|]. reflexivity.
      - destruct (Nat.ltb x shards); [|discriminate]. injection N as <-. destruct T as (-> & _ & F & _). apply (CO _ F); [|reflexivity].
        destruct PE as [->|(o & r & X & ->)]; [now left|]. injection X as <-. right. do 2 eexists. split; [reflexivity|exact Logic.I].
      - injection N as <-. destruct T as (-> & _ & F & _). apply (CO _ F); [|reflexivity].
        destruct PE as [->|(o & r & X & ->)]; [now left|]. injection X as <-. right. do 2 eexists. split; [reflexivity|exact Logic.I].
      - discriminate.
    Qed.

    Lemma thread_flow : forall s log j, explained_by s log -> matches g k (t_done (c_th (cfg s) j)) ->
      nonneg (of_thread j log) /\
      (sum_over (call_adds add amount g) (calls_of s j) <= sum_over flow (of_thread j log) <=
       sum_over (call_adds add amount g) (calls_of s j) +
       underway_adds bd fields loc accepts shard_of O sh_new view shards read P m0 most g s j)%Z.
    Proof.
      intros s log j E MA. destruct (tame_history s j) as (A & D & C).
      pose proof (run_good call_init next (call_adv (V := V)) (both Ml Mv) (m0, sv_new) P s j) as [_ G].
      change (c_th (run (both Ml Mv) (follow call_init next call_adv P) s (start_config (m0, sv_new))) j) with (c_th (cfg s) j) in G.
      change (hist call_init next call_adv P (run (both Ml Mv) (follow call_init next call_adv P) s (start_config (m0, sv_new))) j)
        with (history (cfg s) j) in G.
      assert (MM : matches g k (flat_map snd (calls_of s j))) by (intros g' k' I; apply MA; rewrite D; apply in_or_app; now left).
      assert (MC : matches g k (cur_trace (history (cfg s) j))) by (intros g' k' I; apply MA; rewrite D; apply in_or_app; now right).
      assert (N1 : nonneg (rdone (flat_map snd (calls_of s j)))).
      { clear D C G MC E MA. revert A MM. induction (calls_of s j) as [|[call tr] hd IH]; intros A MM; [constructor|].
        cbn [flat_map snd]. unfold rdone in *. rewrite sel_done_app. apply Forall_app. split.
        - destruct (A call tr (or_introl eq_refl)) as [A1 A2]. apply complete_outcome in A1. apply (nonneg_call j call tr A1 A2).
          intros g' k' I. apply MM. cbn. apply in_or_app. now left.
        - apply IH; [intros c t I; apply A; now right|]. intros g' k' I. apply MM. cbn. apply in_or_app. now right. }
      assert (S1 : sum_over flow (rdone (flat_map snd (calls_of s j))) = sum_over (call_adds add amount g) (calls_of s j)).
      { apply flow_calls; [exact add_read| |exact MM]. intros call tr I. now apply complete_outcome, (A call tr). }
      assert (REST : forall pend, (pend = [] \/ exists op mic r, t_cur (rights (cfg s) j) = Some (op, mic) /\ pend = [(op, r)]) ->
        nonneg (rdone (cur_trace (history (cfg s) j)) ++ pend) /\
        (0 <= sum_over flow (rdone (cur_trace (history (cfg s) j)) ++ pend) <=
         underway_adds bd fields loc accepts shard_of O sh_new view shards read P m0 most g s j)%Z).
      { intros pend PE.
        assert (PE' : pend = [] \/ exists op mic r, t_cur (c_th (cfg s) j) = Some (inr op, mic) /\ pend = [(op, r)]).
        { destruct PE as [->|(op & mic & r & CU & ->)]; [now left|]. right. unfold rights, right_thread, sel_thread in CU. cbn [t_cur] in CU.
          destruct (t_cur (c_th (cfg s) j)) as [[[o'|o'] [m|m]]|]; cbn in CU; try discriminate. injection CU as -> ->. eauto. }
        clear PE. unfold underway_adds, underway, cur_trace, next_op in *.
        destruct (h_cur (history (cfg s) j)) as [[[call st] tr]|] eqn:HC.
        - destruct C as (T & NX & _ & PC). destruct (next st) as [op|] eqn:NE; [|contradiction].
          destruct PE' as [->|(o & mic & r & CU & ->)].
          + apply (under_way j call st tr op T NE PC MC). now left.
          + rewrite CU in G. injection G as ->. apply (under_way j call st tr (inr o) T NE PC MC). right. eauto.
        - destruct PE' as [->|(o & mic & r & CU & ->)].
          + cbn. split; [constructor|].
            destruct (t_cur (c_th (cfg s) j)); [|lia]. destruct (P j (calls_of s j)) as [[g' u| | |]|]; try lia.
            pose proof (most_pos u). destruct (group_eq_dec g' g); lia.
          + rewrite CU in *. change (h_done (history (cfg s) j)) with (calls_of s j) in G.
            destruct (P j (calls_of s j)) as [[g' u|g'| |]|]; cbn [call_init call_next] in G; try discriminate;
            (destruct (Nat.ltb 0 shards); [|discriminate]); injection G as <-; cbn [rdone sel_done flat_map app sum_over fold_right];
            rewrite flow_open; (split; [constructor; [rewrite flow_open; lia|constructor]|lia]). }
      assert (DD : exists pend, of_thread j log = rdone (flat_map snd (calls_of s j)) ++ rdone (cur_trace (history (cfg s) j)) ++ pend /\
        (pend = [] \/ exists op mic r, t_cur (rights (cfg s) j) = Some (op, mic) /\ pend = [(op, r)])).
      { pose proof (f_equal (sel_done (@right_of _ _) (@right_of _ _)) D) as DS. rewrite sel_done_app in DS.
        destruct (E j) as [E'|(op & mic & r & CU & E')]; rewrite E'; unfold rights, right_thread, sel_thread; cbn [t_done];
          rewrite DS; unfold rdone.
        - exists []. split; [|now left]. now rewrite app_nil_r.
        - exists [(op, r)]. rewrite <- app_assoc. split; [reflexivity|]. right. eauto. }
      destruct DD as (pend & -> & PE). destruct (REST pend PE) as [N2 S2]. split; [apply Forall_app; auto|].
      rewrite sum_over_app, S1. lia.
    Qed.
  End Bounds.

  (** *** A collection among other calls *)
  Lemma of_thread_split : forall Op' Res' i (log : list (@entry Op' Res')) a o r b, of_thread i log = a ++ (o, r) :: b ->
    exists pre post, log = pre ++ (i, o, r) :: post /\ of_thread i pre = a.
  Proof.
    intros Op' Res' i log. induction log as [|[[j o'] r'] log IH]; intros a o r b E; [now destruct a|].
    unfold of_thread in E. cbn [filter fst snd] in E. destruct (Nat.eqb_spec j i) as [->|NE].
    - cbn [map fst snd] in E. change (map _ (filter _ log)) with (of_thread i log) in E. destruct a as [|d a].
      + injection E as -> -> E. exists [], log. split; reflexivity.
      + cbn in E. injection E as <- E. destruct (IH a o r b E) as (pre & post & -> & D). exists ((i, o', r') :: pre), post.
        split; [reflexivity|]. unfold of_thread. cbn [filter fst]. rewrite Nat.eqb_refl. cbn. f_equal. exact D.
    - change (map _ (filter _ log)) with (of_thread i log) in E. destruct (IH a o r b E) as (pre & post & -> & D).
      exists ((j, o', r') :: pre), post. split; [reflexivity|]. unfold of_thread. cbn [filter fst].
      destruct (Nat.eqb_spec j i); [contradiction|exact D].
  Qed.

  Lemma call_logs : forall call s0 s1 i tr rest, running s0 i = None ->
    calls_of (s0 ++ s1) i = calls_of s0 i ++ (call, tr) :: rest ->
    exists log0 more a, explained_by s0 log0 /\ explained_by (s0 ++ s1) (log0 ++ more) /\ legal vspec av_new (log0 ++ more) a /\
      forall o r, In (vv o r) tr -> exists m post, more = m ++ (i, o, r) :: post.
  Proof.
    intros call s0 s1 i tr rest U M. destruct (project s0 s1) as (l1 & p1 & q1 & l2 & p2 & q2 & _ & _ & _ & [_ A] & [_ B]).
    destruct (vec_logs (calls l2)) as (L & MO & H). destruct (MO p2 q2) as (more & EM).
    destruct (H p2) as (E0 & _). destruct (H (p2 ++ q2)) as (E1 & a & LG & _). rewrite EM in E1, LG.
    assert (X0 : explained_by s0 (L p2)) by (intros j; specialize (E0 j); rewrite A in E0; exact E0).
    assert (X1 : explained_by (s0 ++ s1) (L p2 ++ more)) by (intros j; specialize (E1 j); rewrite B in E1; exact E1).
    exists (L p2), more, a. split; [exact X0|]. split; [exact X1|]. split; [exact LG|]. intros o r I.
    assert (T0 : of_thread i (L p2) = rdone (flat_map snd (calls_of s0 i))).
    { destruct (X0 i) as [X|(op & mic & r' & C & _)].
      - rewrite X. unfold rights, right_thread, sel_thread. cbn [t_done]. now rewrite (idle_done s0 i U).
      - unfold rights, right_thread, sel_thread in C. cbn [t_cur] in C. destruct (idle_cur s0 i U) as [Z _]. rewrite Z in C. discriminate. }
    destruct (tame_history (s0 ++ s1) i) as (_ & D & _).
    assert (T1 : exists x, t_done (rights (cfg (s0 ++ s1)) i) = rdone (flat_map snd (calls_of s0 i)) ++ rdone tr ++ x).
    { pose proof (f_equal (sel_done (@right_of _ _) (@right_of _ _)) D) as DS.
      unfold rights, right_thread, sel_thread. cbn [t_done]. rewrite DS, M, flat_map_app. cbn [flat_map snd].
      rewrite !sel_done_app, <- !app_assoc. unfold rdone. eauto. }
    destruct T1 as (x & T1). apply in_right in I. apply in_split in I as (c & d & I). fold (rdone tr) in I.
    assert (T2 : exists y, of_thread i more = c ++ (o, r) :: y).
    { destruct (X1 i) as [X|(op & mic & r' & _ & X)]; rewrite of_thread_app, T0, T1, I in X; repeat rewrite <- app_assoc in X;
        apply app_inv_head in X; cbn in X; eauto. }
    destruct T2 as (y & T2). apply of_thread_split in T2 as (m & post & -> & _). eauto.
  Qed.

  Section Bracket.
    Variable add : Op -> Res -> Z.
    Variable amount : V -> Z.
    Variable most : Op -> Z.
    Hypothesis add_read : forall r, add read r = 0%Z.
    Hypothesis add_most : forall u r, (0 <= add u r <= most u)%Z.
    Hypothesis most_pos : forall u, (0 <= most u)%Z.
    Variable g : group_val.
    Hypothesis kept : forall j hd, P j hd <> Some (CDelete g).
    Variable s0 s1 : schedule.
    Variable i : nat.
    Variable tr : trace lop lres.
    Variable rest : list (vec_call Op * trace lop lres).
    Variable n : nat.
    Hypothesis idle : running s0 i = None.
    Hypothesis later : calls_of (s0 ++ s1) i = calls_of s0 i ++ (CCollect, tr) :: rest.
    Hypothesis below : forall j, n <= j -> calls_of (s0 ++ s1) j = [] /\ running (s0 ++ s1) j = None.

    Lemma in_later : In (CCollect, tr) (calls_of (s0 ++ s1) i).
    Proof. rewrite later. apply in_or_app. right. now left. Qed.

    Lemma done_more : forall j d, In d (t_done (c_th (cfg s0) j)) -> In d (t_done (c_th (cfg (s0 ++ s1)) j)).
    Proof.
      intros j d I. destruct (done_grows (both Ml Mv) prog (m0, sv_new) s0 s1 j) as (x & E).
      change (t_done (c_th (cfg (s0 ++ s1)) j) = t_done (c_th (cfg s0) j) ++ x) in E. rewrite E. apply in_or_app. now left.
    Qed.

    Lemma sum_bounds : forall (f : vec_op unique Op * vec_res unique Res V -> Z) (l : list (@entry (vec_op unique Op) (vec_res unique Res V))),
      (forall j o r, In (j, o, r) l -> (0 <= f (o, r))%Z) -> (0 <= sum_over (fun e => f (snd (fst e), snd e)) l)%Z.
    Proof.
      intros f l H. induction l as [|[[j o] r] l IH]; [cbn; lia|]. apply Z.add_nonneg_nonneg.
      - apply (H j o r). now left.
      - apply IH. intros j' o' r' I. apply (H j'). now right.
    Qed.

    Lemma sum_prefix : forall (f : vec_op unique Op * vec_res unique Res V -> Z) (l m : list (@entry (vec_op unique Op) (vec_res unique Res V))),
      (forall j o r, In (j, o, r) m -> (0 <= f (o, r))%Z) ->
      (sum_over (fun e => f (snd (fst e), snd e)) l <= sum_over (fun e => f (snd (fst e), snd e)) (l ++ m))%Z.
    Proof.
      intros f l m H. induction l as [|e l IH]; [apply (sum_bounds f m H)|]. apply Z.add_le_mono_l, IH.
    Qed.

    Lemma sum_le : forall (f h : nat -> Z) l, (forall j, In j l -> (f j <= h j)%Z) -> (sum_over f l <= sum_over h l)%Z.
    Proof.
      intros f h l H. induction l as [|j l IH]; [cbn; lia|]. cbn [sum_over fold_right]. fold (sum_over f l) (sum_over h l).
      pose proof (H j (or_introl eq_refl)). assert (sum_over f l <= sum_over h l)%Z by (apply IH; intros x I; apply H; now right). lia.
    Qed.

    Theorem bracket : forall r, In (g, r) (combine (groups_of tr) (values_of tr)) -> exists k h pre post a,
      legal vspec av_new (pre ++ (i, SUse h k read, RVal r) :: post) a /\
      (all_adds bd fields loc accepts shard_of O sh_new view shards read P m0 add amount g n s0 <=
       sum_over (fun e => vec_flow unique_eqb add amount k (snd (fst e), snd e)) pre <=
       begun_adds bd fields loc accepts shard_of O sh_new view shards read P m0 add amount most g n (s0 ++ s1))%Z.
    Proof.
      intros r I. destruct (collect_facts (s0 ++ s1) i tr in_later) as (F & S & R & _ & _ & EN & SUB).
      rewrite groups_decoded, values_read in I. apply in_collected in I as (k & I1 & I2); [|exact R].
      destruct (EN k g I1) as (j0 & EK). apply in_reads in I2 as (h & I2); [|exact F].
      destruct (call_logs CCollect s0 s1 i tr rest idle later) as (log0 & more & a & X0 & X1 & LG & SP).
      destruct (SP _ _ I2) as (m & post & ->). exists k, h, (log0 ++ m), post, a. rewrite <- app_assoc. split; [exact LG|].
      set (flow := vec_flow unique_eqb add amount k).
      assert (M1 : forall j, matches g k (t_done (c_th (cfg (s0 ++ s1)) j))).
      { intros j g' k' J. apply (ids_unique (s0 ++ s1) j j0 g' g k' k J EK). }
      assert (M0 : forall j, matches g k (t_done (c_th (cfg s0) j))).
      { intros j g' k' J. apply (M1 j). now apply done_more. }
      assert (NN : forall j o r', In (j, o, r') (log0 ++ m ++ (i, SUse h k read, RVal r) :: post) -> (0 <= flow (o, r'))%Z).
      { intros j o r' J. destruct (thread_flow add amount most add_read add_most most_pos g k kept (s0 ++ s1) _ j X1 (M1 j)) as [N _].
        rewrite Forall_forall in N. apply N. now apply in_of_thread. }
      assert (BE : forall e, In e (log0 ++ m ++ (i, SUse h k read, RVal r) :: post) -> fst (fst e) < n).
      { intros [[j o] r'] J. cbn. destruct (Nat.lt_ge_cases j n) as [|GE]; [assumption|]. exfalso.
        destruct (below j GE) as [B1 B2]. pose proof (idle_done (s0 ++ s1) j B2) as D. rewrite B1 in D. cbn in D.
        destruct (idle_cur (s0 ++ s1) j B2) as [C _]. apply in_of_thread in J.
        destruct (X1 j) as [X|(op & mic & r2 & CU & _)].
        - rewrite X in J. unfold rights, right_thread, sel_thread in J. cbn [t_done] in J. rewrite D in J. exact J.
        - unfold rights, right_thread, sel_thread in CU. cbn [t_cur] in CU. rewrite C in CU. discriminate. }
      split.
      - eapply Z.le_trans; [|apply sum_prefix; intros j o r' J; apply (NN j), in_or_app; right; apply in_or_app; now left].
        rewrite (flow_by_thread _ _ flow n) by (intros e J; apply BE, in_or_app; now left).
        unfold all_adds. apply sum_le. intros j _.
        exact (proj1 (proj2 (thread_flow add amount most add_read add_most most_pos g k kept s0 log0 j X0 (M0 j)))).
      - apply Z.le_trans with (sum_over (fun e => flow (snd (fst e), snd e)) (log0 ++ m ++ (i, SUse h k read, RVal r) :: post)).
        + rewrite (app_assoc log0 m). apply sum_prefix. intros j o r' J. apply (NN j). rewrite app_assoc. apply in_or_app. now right.
        + rewrite (flow_by_thread _ _ flow n) by exact BE. unfold begun_adds. apply sum_le. intros j _.
          exact (proj2 (proj2 (thread_flow add amount most add_read add_most most_pos g k kept (s0 ++ s1) _ j X1 (M1 j)))).
    Qed.

    Lemma not_removed : forall s log j k r, explained_by s log -> (exists j0, In (ev (LEncode g) (LId (Some k))) (t_done (c_th (cfg s) j0))) ->
      ~ In (j, SRemove k, r) log.
    Proof.
      intros s log j k r X (j0 & EK) I. destruct (logged s j log (SRemove k) r X I) as (d & IS & b & DB).
      destruct IS as (call & t & st & H & N & (a' & ->) & hd & C). apply path_state in H.
      destruct st as [g' u|q u|q u| |g'|q|x|x ks|x q ks|x|x|]; cbn [call_next] in N; try discriminate; cbn [state_ok] in H.
      - injection N as ->. destruct H as (g' & -> & H).
        assert (H' : In (ev (LEncode g') (LId (Some k))) (t_done (c_th (cfg s) j))).
        { rewrite DB. apply in_or_app. left. apply in_or_app. now right. }
        assert (g' = g) as -> by now apply (ids_unique s j j0 g' g k k H' EK). exact (kept _ _ C).
      - destruct (Nat.ltb x shards); discriminate.
      - destruct ks; discriminate.
      - destruct (Nat.ltb x shards); discriminate.
    Qed.

    Lemma present_kept : forall k j h (log : list (@entry (vec_op unique Op) (vec_res unique Res V))), In (j, SGet h k, RUnit) log ->
      (forall j' r, ~ In (j', SRemove k, r) log) -> present unique_eqb k log = true.
    Proof.
      intros k j h log. induction log as [|[[j' o] r] log IH] using rev_ind; intros I NR; [contradiction|].
      refine (eq_trans (present_snoc unique_eqb k log j' o r) _).
      assert (IH' : In (j, SGet h k, RUnit) log -> present unique_eqb k log = true).
      { intros J. apply IH; [exact J|]. intros j2 r2 J2. apply (NR j2 r2), in_or_app. now left. }
      apply in_app_or in I as [I|[I|[]]].
      - specialize (IH' I). destruct o as [h' k'|h' k' u|h'|k'|h' x]; try exact IH'.
        + destruct r; rewrite IH'; try reflexivity. apply orb_true_r.
        + rewrite IH'. destruct (unique_eqb k' k) eqn:E; [|reflexivity]. apply unique_eqb_spec in E. subst k'. exfalso.
          apply (NR j' r), in_or_app. right. now left.
      - injection I as -> -> ->. assert (unique_eqb k k = true) as -> by now apply unique_eqb_spec. reflexivity.
    Qed.

    Hypothesis in_range : forall k, shard_of k < shards.

    Theorem bracket_shows : forall j u t r, In (CUpdate g u, t) (calls_of s0 j) -> result_of (CUpdate g u) t = Returned r ->
      exists r', In (g, r') (combine (groups_of tr) (values_of tr)).
    Proof.
      clear below most_pos add_most add_read. intros j u t r IU RU. destruct (made_outcome s0 j _ t IU) as (OC & _ & x & y & D).
      inversion OC as [|g' u' k r0 E1 E2| | | |]; subst; [discriminate|].
      destruct (collect_facts (s0 ++ s1) i tr in_later) as (F & [S1 S2] & R & _ & LE & EN & SUB).
      destruct (call_logs CCollect s0 s1 i tr rest idle later) as (log0 & more & a & X0 & X1 & LG & SP).
      assert (EK : In (ev (LEncode g) (LId (Some k))) (t_done (c_th (cfg (s0 ++ s1)) j))).
      { apply done_more. rewrite D. apply in_or_app. right. now left. }
      assert (G0 : In (j, SGet 0 k, RUnit) log0).
      { apply in_of_thread. assert (J : In (SGet 0 k, RUnit) (t_done (rights (cfg s0) j))).
        { unfold rights, right_thread, sel_thread. cbn [t_done]. apply in_right. rewrite D. apply in_or_app. right. right. now left. }
        destruct (X0 j) as [->|(op & mic & r2 & _ & ->)]; [exact J|]. apply in_or_app. now left. }
      assert (SH : In (shard_of k) (map fst (opened tr))).
      { rewrite S1. apply in_seq. pose proof (in_range k). lia. }
      apply in_map_iff in SH as ([z ks] & E & SH). cbn in E. subst z. pose proof SH as SH'. apply in_opened in SH as (h & SH).
      destruct (SP _ _ SH) as (m & post & ->). rewrite app_assoc in LG.
      destruct (legal_open unique_eqb unique_eqb_spec shard_of spec st_new aview _ i h _ ks post a LG) as [_ OP].
      assert (K : In k ks).
      { apply OP. split; [reflexivity|]. apply (present_kept k j 0); [apply in_or_app; now left|]. intros j' r' NR.
        apply (not_removed (s0 ++ s1) _ j' k r' X1 (ex_intro _ j EK)). rewrite app_assoc. apply in_or_app. now left. }
      rewrite app_nil_r in S2.
      assert (KD : In k (map fst (decoded tr))).
      { rewrite <- S2. apply in_concat. exists ks. split; [|exact K]. now apply (in_map snd) in SH'. }
      apply in_map_iff in KD as ([k' g'] & E & KD). cbn in E. subst k'. destruct (EN k g' KD) as (j' & EK').
      assert (g' = g) as -> by now apply (ids_unique (s0 ++ s1) j' j g' g k k EK' EK).
      apply (in_map snd) in KD. cbn in KD. rewrite <- groups_decoded in KD. clear -KD LE.
      revert LE KD. generalize (values_of tr). generalize (groups_of tr). intros l. induction l as [|x l IH]; intros [|v vs] L I; cbn in *; try discriminate; [contradiction|].
      destruct I as [->|I]; [eauto|]. destruct (IH vs) as (r' & J); [lia|exact I|eauto].
    Qed.

    (** *** A collection that begins after another has ended *)
    Section Earlier.
      Variable i0 : nat.
      Variable tr0 : trace lop lres.
      Variable r0 : Res.
      Hypothesis earlier : In (CCollect, tr0) (calls_of s0 i0).
      Hypothesis showed : In (g, r0) (combine (groups_of tr0) (values_of tr0)).

      Lemma earlier_read : exists k j0 h0, In (ev (LEncode g) (LId (Some k))) (t_done (c_th (cfg s0) j0)) /\
        forall log0, explained_by s0 log0 -> In (i0, SUse h0 k read, RVal r0) log0.
      Proof.
        clear below most_pos add_most add_read later idle in_range.
        destruct (collect_facts s0 i0 tr0 earlier) as (F & _ & R & _ & _ & EN & SUB).
        pose proof showed as I. rewrite groups_decoded, values_read in I. apply in_collected in I as (k & I1 & I2); [|exact R].
        destruct (EN k g I1) as (j0 & EK). apply in_reads in I2 as (h & I2); [|exact F]. apply SUB in I2.
        exists k, j0, h. split; [exact EK|]. intros log0 X0. apply in_of_thread.
        assert (J : In (SUse h k read, RVal r0) (t_done (rights (cfg s0) i0))).
        { unfold rights, right_thread, sel_thread. cbn [t_done]. now apply in_right. }
        destruct (X0 i0) as [->|(op & mic & r2 & _ & ->)]; [exact J|]. apply in_or_app. now left.
      Qed.

      Theorem later_read : forall r, In (g, r) (combine (groups_of tr) (values_of tr)) -> exists k h0 h pre mid post a,
        legal vspec av_new ((pre ++ (i0, SUse h0 k read, RVal r0) :: mid) ++ (i, SUse h k read, RVal r) :: post) a /\
        (forall j q, ~ In (j, SRemove k, q) ((pre ++ (i0, SUse h0 k read, RVal r0) :: mid) ++ (i, SUse h k read, RVal r) :: post)) /\
        (0 <= sum_over (fun e => vec_flow unique_eqb add amount k (snd (fst e), snd e)) pre <=
           sum_over (fun e => vec_flow unique_eqb add amount k (snd (fst e), snd e)) (pre ++ (i0, SUse h0 k read, RVal r0) :: mid))%Z /\
        (sum_over (fun e => vec_flow unique_eqb add amount k (snd (fst e), snd e)) (pre ++ (i0, SUse h0 k read, RVal r0) :: mid) <=
           begun_adds bd fields loc accepts shard_of O sh_new view shards read P m0 add amount most g n (s0 ++ s1))%Z.
      Proof.
        clear in_range. intros r I. destruct earlier_read as (k0 & j0 & h0 & EK0 & SP0).
        destruct (collect_facts (s0 ++ s1) i tr in_later) as (F & S & R & _ & _ & EN & SUB).
        rewrite groups_decoded, values_read in I. apply in_collected in I as (k & I1 & I2); [|exact R].
        destruct (EN k g I1) as (j1 & EK). apply in_reads in I2 as (h & I2); [|exact F].
        assert (k = k0) as -> by now apply (ids_unique (s0 ++ s1) j1 j0 g g k k0 EK (done_more _ _ EK0)).
        destruct (call_logs CCollect s0 s1 i tr rest idle later) as (log0 & more & a & X0 & X1 & LG & SP).
        destruct (SP _ _ I2) as (m & post & ->). specialize (SP0 log0 X0). apply in_split in SP0 as (pre & mid0 & ->).
        exists k0, h0, h, pre, (mid0 ++ m), post, a.
        set (flow := vec_flow unique_eqb add amount k0).
        set (e0 := (i0, SUse h0 k0 read, RVal r0)) in *. set (e1 := (i, SUse h k0 read, RVal r)) in *.
        assert (EQ : (pre ++ e0 :: mid0) ++ m ++ e1 :: post = (pre ++ e0 :: mid0 ++ m) ++ e1 :: post).
        { cbn. repeat rewrite <- app_assoc. cbn. repeat rewrite <- app_assoc. reflexivity. }
        assert (LG' : legal vspec av_new ((pre ++ e0 :: mid0 ++ m) ++ e1 :: post) a) by (rewrite <- EQ; exact LG).
        assert (X1' : explained_by (s0 ++ s1) ((pre ++ e0 :: mid0 ++ m) ++ e1 :: post)) by (rewrite <- EQ; exact X1).
        clear LG X1. rename LG' into LG. rename X1' into X1. split; [exact LG|]. split.
        { intros j q. exact (not_removed (s0 ++ s1) _ j k0 q X1 (ex_intro _ j1 EK)). }
        assert (M1 : forall j, matches g k0 (t_done (c_th (cfg (s0 ++ s1)) j))).
        { intros j g' k' J. apply (ids_unique (s0 ++ s1) j j1 g' g k' k0 J EK). }
        assert (NN : forall j o r', In (j, o, r') ((pre ++ e0 :: mid0 ++ m) ++ e1 :: post) -> (0 <= flow (o, r'))%Z).
        { intros j o r' J. destruct (thread_flow add amount most add_read add_most most_pos g k0 kept (s0 ++ s1) _ j X1 (M1 j)) as [N _].
          rewrite Forall_forall in N. apply N. now apply in_of_thread. }
        assert (BE : forall e, In e ((pre ++ e0 :: mid0 ++ m) ++ e1 :: post) -> fst (fst e) < n).
        { intros [[j o] r'] J. cbn. destruct (Nat.lt_ge_cases j n) as [|GE]; [assumption|]. exfalso.
          destruct (below j GE) as [B1 B2]. pose proof (idle_done (s0 ++ s1) j B2) as D. rewrite B1 in D. cbn in D.
          destruct (idle_cur (s0 ++ s1) j B2) as [C _]. apply in_of_thread in J.
          destruct (X1 j) as [X|(op & mic & r2 & CU & _)].
          - rewrite X in J. unfold rights, right_thread, sel_thread in J. cbn [t_done] in J. rewrite D in J. exact J.
          - unfold rights, right_thread, sel_thread in CU. cbn [t_cur] in CU. rewrite C in CU. discriminate. }
        split; [split|].
        - apply sum_bounds. intros j o r' J. apply (NN j). apply in_or_app. left. apply in_or_app. now left.
        - apply sum_prefix. intros j o r' J. apply (NN j). apply in_or_app. left. apply in_or_app. now right.
        - apply Z.le_trans with (sum_over (fun e => flow (snd (fst e), snd e)) ((pre ++ e0 :: mid0 ++ m) ++ e1 :: post)).
          + apply sum_prefix. intros j o r' J. apply (NN j). apply in_or_app. now right.
          + rewrite (flow_by_thread _ _ flow n) by exact BE. unfold begun_adds. apply sum_le. intros j _.
            exact (proj2 (proj2 (thread_flow add amount most add_read add_most most_pos g k0 kept (s0 ++ s1) _ j X1 (M1 j)))).
      Qed.

      (** The group is still there. *)
      Theorem later_shows : exists r, In (g, r) (combine (groups_of tr) (values_of tr)).
      Proof.
        clear below most_pos add_most add_read. destruct earlier_read as (k & j & h0 & EK0 & SP0).
        destruct (collect_facts (s0 ++ s1) i tr in_later) as (F & [S1 S2] & R & _ & LE & EN & SUB).
        destruct (call_logs CCollect s0 s1 i tr rest idle later) as (log0 & more & a & X0 & X1 & LG & SP).
        pose proof (done_more _ _ EK0) as EK.
        assert (G0 : exists j' h', In (j', SGet h' k, RUnit) log0).
        { specialize (SP0 log0 X0). apply in_split in SP0 as (pre & mid & ->). pose proof LG as LG'. rewrite <- app_assoc in LG'.
          apply legal_app in LG' as (a1 & L1 & L2). cbn in L2. inversion L2 as [|t0 i1 op r1 a2 log s'' E2 H' EQ2]; subst.
          pose proof (spec_key unique_eqb unique_eqb_spec shard_of _ _ _ _ _ _ _ _ k
            (legal_ok unique_eqb unique_eqb_spec shard_of _ _ _ _ _ _ (av_ok_new shard_of) L1) E2) as SK.
          cbn in SK. rewrite (keqb_refl unique_eqb unique_eqb_spec) in SK. destruct SK as (x & x' & A1 & _).
          pose proof (legal_life unique_eqb unique_eqb_spec shard_of spec st_new aview k _ _ L1) as LF. rewrite A1 in LF. destruct LF as [PR _].
          apply present_got in PR as (j' & h' & G). exists j', h'. apply in_or_app. now left. }
        destruct G0 as (j1 & h1 & G0).
        assert (SH : In (shard_of k) (map fst (opened tr))).
        { rewrite S1. apply in_seq. pose proof (in_range k). lia. }
        apply in_map_iff in SH as ([z ks] & E & SH). cbn in E. subst z. pose proof SH as SH'. apply in_opened in SH as (h & SH).
        destruct (SP _ _ SH) as (m & post & ->). rewrite app_assoc in LG.
        destruct (legal_open unique_eqb unique_eqb_spec shard_of spec st_new aview _ i h _ ks post a LG) as [_ OP].
        assert (K : In k ks).
        { apply OP. split; [reflexivity|]. apply (present_kept k j1 h1); [apply in_or_app; now left|]. intros j' r' NR.
          apply (not_removed (s0 ++ s1) _ j' k r' X1 (ex_intro _ j EK)). rewrite app_assoc. apply in_or_app. now left. }
        rewrite app_nil_r in S2.
        assert (KD : In k (map fst (decoded tr))).
        { rewrite <- S2. apply in_concat. exists ks. split; [|exact K]. now apply (in_map snd) in SH'. }
        apply in_map_iff in KD as ([k' g'] & E & KD). cbn in E. subst k'. destruct (EN k g' KD) as (j' & EK').
        assert (g' = g) as -> by now apply (ids_unique (s0 ++ s1) j' j g' g k k EK' EK).
        apply (in_map snd) in KD. cbn in KD. rewrite <- groups_decoded in KD. clear -KD LE.
        revert LE KD. generalize (values_of tr). generalize (groups_of tr). intros l. induction l as [|x l IH]; intros [|v vs] L I; cbn in *; try discriminate; [contradiction|].
        destruct I as [->|I]; [eauto|]. destruct (IH vs) as (r' & J); [lia|exact I|eauto].
      Qed.
    End Earlier.
  End Bracket.

  (** *** Counts *)
  Definition keys_seen (tr : trace lop lres) : list unique := concat (map snd (opened tr)).

  Lemma lengths_seen : forall tr, list_sum (lengths_of tr) = length (keys_seen tr).
  Proof.
    intros tr. unfold lengths_of, keys_seen, opened. induction tr as [|[o r] tr IH]; [reflexivity|].
    cbn [flat_map]. rewrite list_sum_app, map_app, concat_app, app_length, IH. f_equal.
    destruct o as [|[]], r as [|[]]; cbn; rewrite ?app_nil_r; lia.
  Qed.

  Lemma counted_keys : forall s i tr, In (CCount, tr) (calls_of s i) ->
    result_of CCount tr = Counted (length (keys_seen tr)) /\ map fst (opened tr) = seq 0 shards /\ NoDup (keys_seen tr) /\
    (forall k, In k (keys_seen tr) -> exists j g u, began s j (CUpdate g u) /\ In (ev (LEncode g) (LId (Some k))) (t_done (c_th (cfg s) j))) /\
    forall d, In d tr -> In d (t_done (c_th (cfg s) i)).
  Proof.
    intros s i tr I. destruct (made_outcome s i CCount tr I) as (OC & _ & a & b & D). inversion OC as [| | | | |? F S L]; subst.
    assert (SUB : forall d, In d tr -> In d (t_done (c_th (cfg s) i))).
    { intros d H. rewrite D. apply in_or_app. right. apply in_or_app. now left. }
    split.
    { cbn [result_of]. destruct L as [->|(tr' & ->)]; [reflexivity|]. rewrite last_snoc. now rewrite lengths_seen. }
    split; [exact S|]. split; [|split; [|exact SUB]].
    - apply NoDup_shards; [rewrite S; apply seq_NoDup|]. intros x ks J. apply in_opened in J as (h & J).
      apply SUB in J. destruct (opened_keys s i x ks h J) as [N K]. split; [exact N|]. intros k H. now apply K.
    - intros k K. apply in_concat in K as (ks & K1 & K2). apply in_map_iff in K1 as ([x ks'] & E & K1). cbn in E. subst ks'.
      apply in_opened in K1 as (h & K1). apply SUB in K1. destruct (opened_keys s i x ks h K1) as [_ K]. now apply K.
  Qed.

  Section Count.
    Variable s0 s1 : schedule.
    Variable i : nat.
    Variable tr : trace lop lres.
    Variable rest : list (vec_call Op * trace lop lres).
    Hypothesis idle : running s0 i = None.
    Hypothesis later : calls_of (s0 ++ s1) i = calls_of s0 i ++ (CCount, tr) :: rest.
    Hypothesis in_range : forall k, shard_of k < shards.

    Lemma count_in : In (CCount, tr) (calls_of (s0 ++ s1) i).
    Proof. rewrite later. apply in_or_app. right. now left. Qed.

    (** The metric of a group that nobody deletes stays. *)
    Lemma count_sees : forall g k, (forall j hd, P j hd <> Some (CDelete g)) ->
      (exists j, In (ev (LEncode g) (LId (Some k))) (t_done (c_th (cfg s0) j))) ->
      (forall log0 a, explained_by s0 log0 -> legal vspec av_new log0 a -> exists j h, In (j, SGet h k, RUnit) log0) -> In k (keys_seen tr).
    Proof.
      intros g k KP (j & EK0) G. destruct (counted_keys (s0 ++ s1) i tr count_in) as (_ & S & _).
      destruct (call_logs CCount s0 s1 i tr rest idle later) as (log0 & more & a & X0 & X1 & LG & SP).
      pose proof (done_more s0 s1 _ _ EK0) as EK.
      assert (G0 : exists j' h', In (j', SGet h' k, RUnit) log0).
      { apply legal_app in LG as (a1 & L1 & _). exact (G log0 a1 X0 L1). }
      destruct G0 as (j1 & h1 & G0).
      assert (SH : In (shard_of k) (map fst (opened tr))).
      { rewrite S. apply in_seq. pose proof (in_range k). lia. }
      apply in_map_iff in SH as ([z ks] & E & SH). cbn in E. subst z. pose proof SH as SH'. apply in_opened in SH as (h & SH).
      destruct (SP _ _ SH) as (m & post & ->). rewrite app_assoc in LG.
      destruct (legal_open unique_eqb unique_eqb_spec shard_of spec st_new aview _ i h _ ks post a LG) as [_ OP].
      assert (K : In k ks).
      { apply OP. split; [reflexivity|]. apply (present_kept k j1 h1); [apply in_or_app; now left|]. intros j' r' NR.
        apply (not_removed g KP (s0 ++ s1) _ j' k r' X1 (ex_intro _ j EK)). rewrite app_assoc. apply in_or_app. now left. }
      apply in_concat. exists ks. split; [|exact K]. now apply (in_map snd) in SH'.
    Qed.

    Lemma count_updated : forall g, (forall j hd, P j hd <> Some (CDelete g)) ->
      forall j u t r, In (CUpdate g u, t) (calls_of s0 j) -> result_of (CUpdate g u) t = Returned r ->
      exists k j0, In (ev (LEncode g) (LId (Some k))) (t_done (c_th (cfg s0) j0)) /\ In k (keys_seen tr).
    Proof.
      intros g KP j u t r IU RU. destruct (made_outcome s0 j _ t IU) as (OC & _ & x & y & D).
      inversion OC as [|g' u' k r0 E1 E2| | | |]; subst; [discriminate|].
      assert (EK : In (ev (LEncode g) (LId (Some k))) (t_done (c_th (cfg s0) j))) by (rewrite D; apply in_or_app; right; now left).
      exists k, j. split; [exact EK|]. apply (count_sees g k KP (ex_intro _ j EK)). intros log0 a X0 _. exists j, 0. apply in_of_thread.
      assert (J : In (SGet 0 k, RUnit) (t_done (rights (cfg s0) j))).
      { unfold rights, right_thread, sel_thread. cbn [t_done]. apply in_right. rewrite D. apply in_or_app. right. right. now left. }
      destruct (X0 j) as [->|(op & mic & r2 & _ & ->)]; [exact J|]. apply in_or_app. now left.
    Qed.

    Lemma groups_for : forall ks, (forall k, In k ks -> exists j g u, began (s0 ++ s1) j (CUpdate g u) /\
        In (ev (LEncode g) (LId (Some k))) (t_done (c_th (cfg (s0 ++ s1)) j))) -> NoDup ks ->
      exists gs, length gs = length ks /\ NoDup gs /\ (forall g, In g gs -> exists j u, began (s0 ++ s1) j (CUpdate g u)) /\
        (forall g, In g gs -> exists k j, In k ks /\ In (ev (LEncode g) (LId (Some k))) (t_done (c_th (cfg (s0 ++ s1)) j))) /\
        forall g k j, In k ks -> In (ev (LEncode g) (LId (Some k))) (t_done (c_th (cfg (s0 ++ s1)) j)) -> In g gs.
    Proof.
      clear idle later in_range. intros ks. induction ks as [|k ks IH]; intros H N.
      - exists []. split; [reflexivity|]. split; [constructor|]. split; [intros g []|]. split; [intros g []|]. intros g k j [].
      - inversion N as [|? ? N1 N2]; subst. destruct IH as (gs & L & ND & B & B2 & A); [intros q Q; apply H; now right|exact N2|].
        destruct (H k (or_introl eq_refl)) as (j & g & u & BG & EK). exists (g :: gs). split; [cbn; now rewrite L|]. split; [|split; [|split]].
        + constructor; [|exact ND]. intros I. destruct (B2 g I) as (k' & j' & K1 & K2).
          assert (k' = k) as -> by now apply (ids_unique (s0 ++ s1) j' j g g k' k K2 EK). contradiction.
        + intros g' [<-|I]; eauto.
        + intros g' [<-|I]; [exists k, j; split; [now left|exact EK]|]. destruct (B2 g' I) as (k' & j' & K1 & K2). exists k', j'. split; [now right|exact K2].
        + intros g' k' j' [<-|I] E; [left|right; exact (A g' k' j' I E)]. symmetry. now apply (ids_unique (s0 ++ s1) j' j g' g k k E EK).
    Qed.

    (** A count is the size of a set of groups. *)
    Theorem count_groups : exists gs, result_of CCount tr = Counted (length gs) /\ NoDup gs /\
      (forall g, In g gs -> exists j u, began (s0 ++ s1) j (CUpdate g u)) /\
      forall g, (forall j hd, P j hd <> Some (CDelete g)) ->
        forall j u t r, In (CUpdate g u, t) (calls_of s0 j) -> result_of (CUpdate g u) t = Returned r -> In g gs.
    Proof.
      destruct (counted_keys (s0 ++ s1) i tr count_in) as (RE & _ & ND & BG & _).
      destruct (groups_for (keys_seen tr) BG ND) as (gs & L & N & B & _ & A). exists gs. rewrite L. split; [exact RE|]. split; [exact N|].
      split; [exact B|]. intros g KP j u t r IU RU. destruct (count_updated g KP j u t r IU RU) as (k & j0 & EK & IK).
      apply (A g k j0 IK). now apply done_more.
    Qed.

    (** A later count is no smaller, unless something is deleted. *)
    Theorem count_later : forall i0 tr0 n0 n, In (CCount, tr0) (calls_of s0 i0) -> (forall g j hd, P j hd <> Some (CDelete g)) ->
      result_of CCount tr0 = Counted n0 -> result_of CCount tr = Counted n -> n0 <= n.
    Proof.
      intros i0 tr0 n0 n I0 KP R0 R. destruct (counted_keys (s0 ++ s1) i tr count_in) as (RE & _ & _).
      destruct (counted_keys s0 i0 tr0 I0) as (RE0 & _ & ND0 & BG0 & SUB). rewrite RE in R. rewrite RE0 in R0.
      injection R as <-. injection R0 as <-. apply NoDup_incl_length; [exact ND0|]. intros k K.
      destruct (BG0 k K) as (j & g & u & _ & EK). apply (count_sees g k (KP g) (ex_intro _ j EK)). intros log0 a X0 LG.
      apply in_concat in K as (ks & K1 & K2). apply in_map_iff in K1 as ([x ks'] & E & K1). cbn in E. subst ks'.
      apply in_opened in K1 as (h & K1). apply SUB in K1.
      assert (J : In (i0, SOpen h x, RKeys ks) log0).
      { apply in_of_thread. apply in_right in K1. change (In (SOpen h x, RKeys ks) (t_done (rights (cfg s0) i0))) in K1.
        destruct (X0 i0) as [->|(op & mic & r & _ & ->)]; [exact K1|]. apply in_or_app. now left. }
      apply in_split in J as (pre & post & ->).
      destruct (legal_open unique_eqb unique_eqb_spec shard_of spec st_new aview pre i0 h x ks post a LG) as [_ OP].
      apply OP in K2 as [_ K2]. apply present_got in K2 as (j' & h' & K2). exists j', h'. apply in_or_app. now left.
    Qed.
  End Count.
End Calls.
