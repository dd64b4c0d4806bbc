(** Threads making whole calls on a dense vec: what the runs look like. *)
From Coq Require Import List NArith ZArith Bool Arith Lia.
From Verif Require Import Base BaseFacts LabelModel LabelSpec GroupProofs LawProofs ConcModel ConcSpec ConcProofs ConcTheorems ConcVecSpec ConcVecTheorems
  ConcLabelProofs ConcDenseModel ConcDenseSpec ConcDense ConcDenseTheorems ConcCallModel ConcBoth ConcScript ConcCallSpec ConcCallProofs
  ConcDenseCallModel ConcDenseCallSpec.
Import ListNotations.
Local Open Scope nat_scope.
Local Set Asymmetric Patterns.

(** ** Label sets of a known cardinality *)
Lemma tree_stays : forall bd t ls c, tree_ok bd t ls -> lg_cardinality (lgset_of bd t) ls = Some c ->
  forall g, tree_wt bd t ls g -> exists r, lg_encode (lgset_of bd t) ls g = Done (ls, r).
Proof.
  intros bd. induction t as [| |a IHa b IHb]; cbn; intros ls c OK C g W.
  - destruct (group_encode_spec bd ls g (sound_ok ls OK)) as (s' & r & E & X & _).
    exists r. rewrite E. apply group_cardinality_Some in C as [ND _]. now rewrite (set_ext_no_dynamic _ _ X ND).
  - eexists. reflexivity.
  - destruct ls as [la lb], g as [ga gb]. apply composed_card_inv in C as (x & y & Cx & Cy & _). cbn [fst snd] in *.
    destruct OK as [OA OB], W as [WA WB]. destruct (IHa la x OA Cx ga WA) as (ra & EA). destruct (IHb lb y OB Cy gb WB) as (rb & EB).
    unfold composed_encode. cbn [fst snd]. rewrite EA. cbn [obind]. destruct ra as [ua|]; [|eauto]. rewrite EB. cbn [obind]. destruct rb; eauto.
Qed.

Theorem trees_fixed : forall bd t ls c, tree_ok bd t ls -> lg_cardinality (lgset_of bd t) ls = Some c ->
  fixed_label_set (lgset_of bd t) (tree_wt bd t) ls c.
Proof.
  intros bd t ls c OK C. split; [|split; [exact C|exact (tree_stays bd t ls c OK C)]].
  exists (tree_ok bd t), (tree_valid bd t). split; [apply tree_lawful|exact OK].
Qed.

(** ** Runs of the right part of two *)
Lemma project_right : forall Sh1 Op1 Res1 Mic1 Sh2 Op2 Res2 Mic2 (M1 : machine Sh1 Op1 Res1 Mic1) (M2 : machine Sh2 Op2 Res2 Mic2) sh1 sh2 prog s s',
  let cfg s := run (both M1 M2) prog s (start_config (sh1, sh2)) in
  exists l s1 t, shows M2 l s1 sh2 (snd (c_sh (cfg s))) (fun i => right_thread (c_th (cfg s) i)) /\
    shows M2 l (s1 ++ t) sh2 (snd (c_sh (cfg (s ++ s')))) (fun i => right_thread (c_th (cfg (s ++ s')) i)).
Proof.
  intros Sh1 Op1 Res1 Mic1 Sh2 Op2 Res2 Mic2 M1 M2 sh1 sh2 prog s s' cfg.
  destruct (parts_more M1 M2 sh1 sh2 prog s [] _ _ _ _ (parts_start M1 M2 sh1 sh2 prog)) as (l1 & t1 & l2 & t2 & _ & _ & PA). cbn [app] in PA.
  destruct (parts_more M1 M2 sh1 sh2 prog s' s _ _ _ _ PA) as (l1' & t1' & l2' & t2' & _ & X & PA').
  exists l2', t2, t2'. split.
  - destruct PA as [_ [_ E]]. exact (E l2' X).
  - destruct PA' as [_ [_ E]]. exact (E l2' (extends_refl _)).
Qed.

(** Operations of a left part without steps between. *)
Lemma left_results : forall Op1 Res1 Sh2 Op2 Res2 Mic2 (eff : Op1 -> unit -> unit * Res1) (M2 : machine Sh2 Op2 Res2 Mic2) (sh2 : Sh2) prog s i,
  let th := c_th (run (both (atomic_machine eff) M2) prog s (start_config (tt, sh2))) i in
  (forall o r, In (inl o, r) (t_done th) -> r = inl (snd (eff o tt))) /\
  forall o m, t_cur th = Some (inl o, m) -> m = inl o.
Proof.
  intros Op1 Res1 Sh2 Op2 Res2 Mic2 eff M2 sh2 prog. induction s as [|[j ch] s IH] using rev_ind; intros i; cbn zeta in *.
  - cbn. split; [intros o r []|discriminate].
  - rewrite run_app. set (c := run _ prog s _) in *. cbn [run]. unfold step.
    destruct (t_cur (c_th c j)) as [[op mic]|] eqn:CUR.
    + destruct (m_step (both (atomic_machine eff) M2) j ch mic (c_sh c)) as [[sh' [mic'|r]]|] eqn:MS; cbn [c_th]; [..|apply IH];
        (destruct (Nat.eq_dec i j) as [->|NE]; [rewrite upd_same; cbn [t_done t_cur]|rewrite upd_other by exact NE; apply IH]).
      * split; [apply IH|]. intros o m E. injection E as -> ->. specialize (IH j) as [_ IH]. rewrite CUR in IH.
        rewrite (IH o mic eq_refl) in MS. cbn in MS. destruct (eff o (fst (c_sh c))). discriminate.
      * split; [|discriminate]. intros o r' I. apply in_app_or in I as [I|[I|[]]]; [now apply (proj1 (IH j))|]. injection I as -> ->.
        specialize (IH j) as [_ IH]. rewrite CUR in IH. rewrite (IH o mic eq_refl) in MS. cbn in MS.
        destruct (fst (c_sh c)). destruct (eff o tt) as [x y] eqn:E. cbn in MS. inversion MS; subst. reflexivity.
    + destruct (prog j (t_done (c_th c j))) as [op|]; cbn [c_th]; [|apply IH].
      destruct (Nat.eq_dec i j) as [->|NE]; [rewrite upd_same; cbn [t_done t_cur]|rewrite upd_other by exact NE; apply IH].
      split; [apply IH|]. intros o m E. injection E as -> <-. reflexivity.
Qed.

Lemma in_sel_right : forall A B C D o r (l : list ((A + B) * (C + D))), In (o, r) (sel_done right_of right_of l) <-> In (inr o, inr r) l.
Proof.
  intros A B C D o r l. unfold sel_done. rewrite in_flat_map. split.
  - intros ([[o'|o'] [r'|r']] & H & I); cbn in I; try contradiction. destruct I as [I|[]]. injection I as -> ->. exact H.
  - intros H. exists (inr o, inr r). split; [exact H|now left].
Qed.

(** ** What operations on the cells give *)
Section Returns.
  Context {Op Res : Type}.
  Variable card : nat.
  Notation event := (dense_op Op * dense_res Res)%type.

  (** Given what the thread's variables refer to. *)
  Definition drets (e : nat -> option nat) (d : event) : Prop :=
    match d with
    | (DGet _ k, r) => k < card -> r = DUnit
    | (DPeek _ k, r) => k < card -> exists b, r = DFound b
    | (DUse h k u, r) => e h = Some k -> exists x, r = DVal x
    end.
  Definition env_after (e : nat -> option nat) (d : event) : nat -> option nat :=
    match d with
    | (DGet h k, DUnit) => upd e h (Some k)
    | (DPeek h k, DFound true) => upd e h (Some k)
    | _ => e
    end.
  Fixpoint drets_all (e : nat -> option nat) (l : list event) : Prop :=
    match l with [] => True | d :: l => drets e d /\ drets_all (env_after e d) l end.

  Lemma drets_app : forall l l' e, drets_all e (l ++ l') <-> drets_all e l /\ drets_all (fold_left env_after l e) l'.
  Proof. induction l as [|d l IH]; intros l' e; cbn; [tauto|]. rewrite IH. tauto. Qed.

  Context {St : Type}.
  Variable spec : nat -> Op -> St -> option (St * Res).
  Variable st_new : St.

  Lemma legal_drets : forall i a log a', legal (dense_spec spec st_new card) a log a' -> drets_all (ad_env a i) (of_thread i log).
  Proof.
    intros i a log a' H. induction H as [a|a j op r a1 log a' E H IH]; [exact I|].
    unfold of_thread. cbn [filter fst]. change (map _ (filter _ log)) with (of_thread i log).
    destruct (Nat.eqb_spec j i) as [->|NE].
    - cbn [map fst snd drets_all]. change (map _ (filter _ log)) with (of_thread i log).
      destruct op as [h k|h k|h k u]; unfold dense_spec in E.
      + destruct (Nat.ltb_spec k card) as [LT|GE].
        * destruct (ad_tab a k); inversion E; subst; cbn in *; rewrite upd_same in IH; auto.
        * inversion E; subst. cbn. split; [lia|exact IH].
      + destruct (Nat.ltb_spec k card) as [LT|GE].
        * destruct (ad_tab a k); inversion E; subst; cbn in *; rewrite ?upd_same in IH; eauto.
        * inversion E; subst. cbn. split; [lia|exact IH].
      + cbn. destruct (ad_env a i h) as [k'|]; [|inversion E; subst; split; [discriminate|exact IH]].
        destruct (Nat.eqb_spec k' k) as [EQ|NE]; [|inversion E; subst; split; [congruence|exact IH]].
        subst k'. destruct (ad_tab a k) as [x|]; [|discriminate]. destruct (spec i u x) as [[x' r']|]; [|discriminate].
        inversion E; subst. cbn in *. eauto.
    - assert (ad_env a1 i = ad_env a i) as <-; [|exact IH].
      destruct op as [h k|h k|h k u]; unfold dense_spec in E.
      + destruct (k <? card); [|now inversion E]. destruct (ad_tab a k); inversion E; subst; cbn; now rewrite upd_other by congruence.
      + destruct (k <? card); [|now inversion E]. destruct (ad_tab a k); inversion E; subst; cbn; [now rewrite upd_other by congruence|reflexivity].
      + destruct (ad_env a j h) as [k'|]; [|now inversion E]. destruct (Nat.eqb k' k); [|now inversion E].
        destruct (ad_tab a k) as [x|]; [|discriminate]. destruct (spec j u x) as [[x' r']|]; [|discriminate]. now inversion E.
  Qed.

  Lemma asked_got : forall k (log : list (@entry (dense_op Op) (dense_res Res))), asked k log = true -> exists j h, In (j, DGet h k, DUnit) log.
  Proof.
    intros k log H. unfold asked in H. apply existsb_exists in H as ([[j o] r] & I & E).
    destruct o as [h k'| |]; try discriminate. destruct r; try discriminate. apply Nat.eqb_eq in E. subst. eauto.
  Qed.
  Lemma got_asked : forall k (log : list (@entry (dense_op Op) (dense_res Res))) j h, In (j, DGet h k, DUnit) log -> asked k log = true.
  Proof. intros k log j h I. unfold asked. apply existsb_exists. exists (j, DGet h k, DUnit). split; [exact I|apply Nat.eqb_refl]. Qed.
End Returns.

(** ** Calls on a dense vec *)
Section Calls.
  Context {L : lgset} {Sh Op Res Mic V St : Type}.
  Variable wt : lg_state L -> lg_group L -> Prop.
  Variable w : dense_setup L.
  Variable m : metric_code Sh Op Res Mic V.
  Variable spec : nat -> Op -> St -> option (St * Res).
  Variable st_new : St.
  Variable aview : St -> V.
  Variable P : dense_program L Op Res.
  Hypothesis fixed : dense_ok_setup L wt w.
  Hypothesis shaped : dense_shaped wt w P.
  Hypothesis good : good_metric (mc_machine m) (mc_new m) (mc_view m) spec st_new aview.

  Notation ls := (dn_set w).
  Notation card := (dn_cells w).
  Notation read := (mc_read m).
  Notation lk := (look (dn_build w) L ls card).
  Notation Ml := (look_machine (dn_build w) L ls card).
  Notation Mv := (dense_machine (mc_machine m) (mc_new m) card).
  Notation next := (dense_next card read).
  Notation dspec := (dense_spec spec st_new card).
  Notation adv := (dense_adv (L := L) (Op := Op) (Res := Res)).
  Notation ini := (dense_init (L := L) (Op := Op)).
  Notation prog := (follow ini next adv P).
  Notation cfg s := (dense_at_time w m P s).
  Notation lop := (look_op L + dense_op Op)%type.
  Notation lres := (look_res L + dense_res Res)%type.
  Notation lpath call tr st := (path next adv (ini call) tr st).
  Notation "'ev' o r" := ((inl o, inl r) : lop * lres) (at level 10, o at level 9, r at level 9).
  Notation "'vv' o r" := ((inr o, inr r) : lop * lres) (at level 10, o at level 9, r at level 9).
  Notation ID := (dense_id wt w).

  (** *** Groups and cells *)
  Lemma cells_named : forall k, k < card -> exists g, ID g k /\ lg_decode_dense L ls (N.of_nat k) = Done g.
  Proof.
    intros k LT. destruct fixed as ((ok & valid & LW & OK) & C & _).
    destruct (law_dense_onto _ _ _ _ LW ls (N.of_nat k) _ OK C) as (u & V1 & E1); [lia|].
    destruct (law_valid _ _ _ _ LW ls u OK V1) as (g & W & D & E).
    destruct (law_dense _ _ _ _ LW ls u _ OK V1 C) as (i & E2 & _ & E3). rewrite E1 in E2. injection E2 as <-.
    exists g. split; [split; [exact W|exists u; auto]|]. now rewrite E3.
  Qed.

  Lemma id_facts : forall g k, ID g k -> k < card /\ lg_decode_dense L ls (N.of_nat k) = Done g /\ lk g = Done (Some k).
  Proof.
    intros g k (W & u & E & ED). destruct fixed as ((ok & valid & LW & OK) & C & _).
    destruct (law_encode_some _ _ _ _ LW ls g ls u OK W E) as [V1 D1].
    destruct (law_dense _ _ _ _ LW ls u _ OK V1 C) as (i & E2 & LT & E3). rewrite ED in E2. injection E2 as <-.
    split; [lia|]. split; [now rewrite E3|].
    unfold look. rewrite E. cbn [obind snd]. rewrite ED. cbn [obind].
    assert (N.ltb (N.of_nat k) (N.of_nat card) = true) as -> by (apply N.ltb_lt; lia).
    unfold debug_assert. destruct (dn_build w); cbn; now rewrite Nat2N.id.
  Qed.

  Lemma look_cases : forall g, wt ls g -> (lg_encode L ls g = Done (ls, None) /\ lk g = Done None) \/ exists k, ID g k /\ lk g = Done (Some k).
  Proof.
    intros g W. destruct fixed as ((ok & valid & LW & OK) & C & ST). destruct (ST g W) as ([u|] & E).
    - right. destruct (law_encode_some _ _ _ _ LW ls g ls u OK W E) as [V1 D1].
      destruct (law_dense _ _ _ _ LW ls u _ OK V1 C) as (i & E2 & LT & E3).
      assert (I : ID g (N.to_nat i)). { split; [exact W|]. exists u. split; [exact E|]. now rewrite N2Nat.id. }
      exists (N.to_nat i). split; [exact I|]. apply (id_facts g _ I).
    - left. split; [exact E|]. unfold look. now rewrite E.
  Qed.

  Lemma ids_agree : forall g k g' k', ID g k -> ID g' k' -> (k' = k <-> g' = g).
  Proof.
    intros g k g' k' I I'. destruct (id_facts g k I) as (_ & D & E). destruct (id_facts g' k' I') as (_ & D' & E').
    split; intros ->; congruence.
  Qed.

  Lemma looked_up : forall g k, wt ls g -> lk g = Done (Some k) -> ID g k.
  Proof. intros g k W E. destruct (look_cases g W) as [[_ X]|(k' & I & X)]; [congruence|]. assert (k' = k) as <- by congruence. exact I. Qed.

  (** *** The cells of a run *)
  Definition cells (c : config (unit * dvec Sh) lop lres (look_op L + dense_mic Op Mic)) i := right_thread (c_th c i).

  Lemma cell_logs : forall p : program (dense_op Op) (dense_res Res), exists Lg : schedule -> list entry,
    (forall s s', exists more, Lg (s ++ s') = Lg s ++ more) /\
    forall s, let c := run Mv p s (start_config dv_new) in
      explains (Lg s) c /\ exists a, legal dspec ad_new (Lg s) a /\
        (quiescent c -> forall k, option_map (mc_view m) (dense_lookup k (c_sh c)) = option_map aview (ad_tab a k)).
  Proof.
    destruct good as (lin & inv & rep & OK & RV). intros p.
    destruct (object_linearizable _ _ _ _ _ _ _ (dense_ok (mc_machine m) (mc_new m) card spec st_new lin inv rep OK) p) as (Lg & MO & H).
    exists Lg. split; [exact MO|]. intros s c. destruct (H s) as (E & a & LG & R). split; [exact E|]. exists a. split; [exact LG|].
    intros Q k. specialize (R Q k). unfold dense_lookup, c. destruct (d_cells (c_sh (run Mv p s (start_config dv_new))) k) as [|b|n sh].
    - now rewrite R.
    - now rewrite R.
    - destruct (ad_tab a k); [|contradiction]. cbn. f_equal. now apply RV.
  Qed.

  Definition explained_by (s : schedule) (log : list (@entry (dense_op Op) (dense_res Res))) : Prop :=
    forall i, of_thread i log = t_done (cells (cfg s) i) \/
      exists op mic r, t_cur (cells (cfg s) i) = Some (op, mic) /\ of_thread i log = t_done (cells (cfg s) i) ++ [(op, r)].

  (** A run and one that goes on from there. *)
  Lemma logs : forall s s', exists log more a, explained_by s log /\ explained_by (s ++ s') (log ++ more) /\
    legal dspec ad_new (log ++ more) a /\
    ((forall i, t_cur (c_th (cfg (s ++ s')) i) = None) ->
     forall k, option_map (mc_view m) (dense_metric_at w m P (s ++ s') k) = option_map aview (ad_tab a k)).
  Proof.
    intros s s'. destruct (project_right _ _ _ _ _ _ _ _ Ml Mv tt dv_new prog s s') as (l & s1 & t & [_ A] & [B1 B2]).
    destruct (cell_logs (calls l)) as (Lg & MO & H). destruct (MO s1 t) as (more & EM).
    destruct (H s1) as (E0 & _). destruct (H (s1 ++ t)) as (E1 & a & LG & R). rewrite EM in E1, LG.
    exists (Lg s1), more, a. split; [intros j; specialize (E0 j); rewrite A in E0; exact E0|].
    split; [intros j; specialize (E1 j); rewrite B2 in E1; exact E1|]. split; [exact LG|].
    intros Q k. unfold dense_metric_at, dense_at_time, shared_dense. rewrite <- B1. apply R. intros i. rewrite B2.
    unfold right_thread, sel_thread. cbn [t_cur]. specialize (Q i). unfold dense_at_time, shared_dense in Q. now rewrite Q.
  Qed.

  Definition rdone (tr : trace lop lres) := sel_done right_of right_of tr.

  Lemma run_rets : forall s i, drets_all card (fun _ => None) (rdone (t_done (c_th (cfg s) i))).
  Proof.
    intros s i. destruct (logs s []) as (log & more & a & E & _ & LG & _). apply legal_app in LG as (a1 & LG & _).
    pose proof (legal_drets card spec st_new i _ _ _ LG) as R. cbn in R.
    destruct (E i) as [E'|(op & mic & r & _ & E')]; rewrite E' in R; [exact R|]. apply drets_app in R. apply R.
  Qed.

  Definition fine (tr : trace lop lres) : Prop := forall o r, In (o, r) tr ->
    match o, r with
    | inl (QLook g), inl q => q = QId (lk g)
    | inl (QName k), inl q => q = QGroup (lg_decode_dense L ls (N.of_nat k))
    | inr _, inr _ => True
    | _, _ => False
    end.

  Lemma run_fine : forall s i, fine (t_done (c_th (cfg s) i)).
  Proof.
    intros s i o r I. pose proof (sides Ml Mv tt dv_new prog s i) as [_ S]. rewrite Forall_forall in S. specialize (S _ I).
    destruct (left_results _ _ _ _ _ _ (look_eff (dn_build w) L ls card) Mv dv_new prog s i) as [LR _].
    destruct o as [o|o].
    - specialize (LR o r I). subst r. destruct o; reflexivity.
    - destruct r; [contradiction|exact Logic.I].
  Qed.

  (** *** Whole calls *)
  Definition peeks (tr : trace lop lres) : list (nat * bool) :=
    flat_map (fun d => match d with (inr (DPeek _ k), inr (DFound b)) => [(k, b)] | _ => [] end) tr.
  Definition named (tr : trace lop lres) : list (nat * lg_group L) :=
    flat_map (fun d => match d with (inl (QName k), inl (QGroup (Done g))) => [(k, g)] | _ => [] end) tr.
  Definition reads (tr : trace lop lres) : list (nat * Res) :=
    flat_map (fun d => match d with (inr (DUse _ k _), inr (DVal r)) => [(k, r)] | _ => [] end) tr.
  Definition trues (l : list (nat * bool)) : list nat := map fst (filter snd l).
  Definition collect_op (d : lop * lres) : Prop :=
    match d with
    | (inr (DPeek _ _), inr (DFound _)) => True
    | (inl (QName k), inl (QGroup (Done g))) => lg_decode_dense L ls (N.of_nat k) = Done g
    | (inr (DUse _ _ u), inr (DVal _)) => u = read
    | _ => False
    end.
  Definition count_op (d : lop * lres) : Prop :=
    match d with (inr (DPeek _ _), inr (DFound _)) => True | _ => False end.

  Definition tame (call : dense_call L Op) (st : dense_state L Op) (tr : trace lop lres) : Prop :=
    match st with
    | XLook g u => call = EUpdate g u /\ tr = []
    | XGet k u => exists g, call = EUpdate g u /\ ID g k /\ tr = [ev (QLook g) (QId (Done (Some k)))]
    | XUse k u => exists g, call = EUpdate g u /\ ID g k /\ tr = [ev (QLook g) (QId (Done (Some k))); vv (DGet 0 k) DUnit]
    | XFind g => call = EDelete g /\ tr = []
    | XCell k => call = ECollect /\ k <= card /\ Forall collect_op tr /\ map fst (peeks tr) = seq 0 k /\
        map fst (named tr) = trues (peeks tr) /\ map fst (reads tr) = trues (peeks tr)
    | XName k => call = ECollect /\ k < card /\ Forall collect_op tr /\ map fst (peeks tr) = seq 0 (S k) /\
        map fst (named tr) ++ [k] = trues (peeks tr) /\ map fst (reads tr) ++ [k] = trues (peeks tr)
    | XRead k => call = ECollect /\ k < card /\ Forall collect_op tr /\ map fst (peeks tr) = seq 0 (S k) /\
        map fst (named tr) = trues (peeks tr) /\ map fst (reads tr) ++ [k] = trues (peeks tr)
    | XTally k => call = ECount /\ k <= card /\ Forall count_op tr /\ map fst (peeks tr) = seq 0 k
    | XEnd =>
      (exists g u, call = EUpdate g u /\
        ((lg_encode L ls g = Done (ls, None) /\ tr = [ev (QLook g) (QId (Done None))]) \/
         exists k r, ID g k /\ tr = [ev (QLook g) (QId (Done (Some k))); vv (DGet 0 k) DUnit; vv (DUse 0 k u) (DVal r)])) \/
      (exists g, call = EDelete g /\
        ((lg_encode L ls g = Done (ls, None) /\ tr = [ev (QLook g) (QId (Done None))]) \/
         exists k, ID g k /\ tr = [ev (QLook g) (QId (Done (Some k)))]))
    end.

  Definition fit (st : dense_state L Op) (e : nat -> option nat) : Prop :=
    match st with XUse k _ | XName k | XRead k => e 0 = Some k | _ => True end.

  Lemma shows_snoc : forall (tr : trace lop lres) d,
    peeks (tr ++ [d]) = peeks tr ++ peeks [d] /\ named (tr ++ [d]) = named tr ++ named [d] /\ reads (tr ++ [d]) = reads tr ++ reads [d].
  Proof. intros tr d. unfold peeks, named, reads. now rewrite !flat_map_app. Qed.
  Lemma trues_snoc : forall l k b, trues (l ++ [(k, b)]) = trues l ++ (if b then [k] else []).
  Proof. intros l k b. unfold trues. rewrite filter_app, map_app. now destruct b. Qed.

  Lemma path_tame : forall call tr st, lpath call tr st -> (forall g, dense_group call = Some g -> wt ls g) -> fine tr ->
    forall e, drets_all card e (rdone tr) -> tame call st tr /\ fit st (fold_left env_after (rdone tr) e).
  Proof.
    intros call tr st H. induction H as [|tr st op r H IH N]; intros W F e R.
    - destruct call; cbn; auto; split; auto; split; auto; split; auto; lia.
    - assert (F' : fine tr) by (intros o' r' I; apply F, in_or_app; now left).
      pose proof (F op r ltac:(apply in_or_app; right; now left)) as Fd. clear F.
      unfold rdone in *. rewrite sel_done_app in *. apply drets_app in R as [R Rd]. destruct (IH W F' e R) as [T G]. clear IH F' R H.
      rewrite fold_left_app. set (e' := fold_left env_after (sel_done right_of right_of tr) e) in *.
      destruct (shows_snoc tr (op, r)) as (S1 & S2 & S3).
      destruct st as [g u|k u|k u|g|k|k|k|k|]; cbn [dense_next] in N.
      + (* XLook *) injection N as <-. destruct T as [-> ->]. destruct r as [r|r]; [subst r|contradiction].
        pose proof (W g eq_refl) as Wg. destruct (look_cases g Wg) as [[E ->]|(k & I & ->)]; cbn.
        * split; [left; exists g, u; auto|exact Logic.I].
        * split; [eauto|exact Logic.I].
      + (* XGet *) injection N as <-. destruct T as (g & -> & I & ->). destruct r as [r|r]; [contradiction|].
        cbn in Rd. destruct Rd as [Rd _]. rewrite (Rd (proj1 (id_facts g k I))). cbn. split; [eauto|]. reflexivity.
      + (* XUse *) injection N as <-. destruct T as (g & -> & I & ->). destruct r as [r|r]; [contradiction|].
        cbn in Rd. destruct Rd as [Rd _]. destruct (Rd G) as (x & ->). cbn. split; [|exact Logic.I]. left. exists g, u. split; [reflexivity|]. right. eauto.
      + (* XFind *) injection N as <-. destruct T as [-> ->]. destruct r as [r|r]; [subst r|contradiction].
        pose proof (W g eq_refl) as Wg. destruct (look_cases g Wg) as [[E ->]|(k & I & ->)]; cbn; (split; [right|exact Logic.I]); eauto 6.
      + (* XCell *) destruct (Nat.ltb_spec k card) as [LT|]; [|discriminate]. injection N as <-. destruct T as (-> & LE & FO & PK & NM & RD).
        destruct r as [r|r]; [contradiction|]. cbn in Rd. destruct Rd as [Rd _]. destruct (Rd LT) as (b & ->).
        assert (FO' : Forall collect_op (tr ++ [vv (DPeek 0 k) (DFound b)])) by (apply Forall_app; split; [exact FO|now repeat constructor]).
        destruct b; cbn [dense_adv tame fit]; (split; [|first [reflexivity|exact Logic.I]]);
          rewrite S1, S2, S3; cbn [peeks named reads flat_map app]; rewrite !app_nil_r, trues_snoc, map_app, PK; cbn [map fst app]; rewrite seq_S.
        * cbn [plus]. rewrite NM, RD. auto 10.
        * rewrite app_nil_r. auto 10.
      + (* XName *) injection N as <-. destruct T as (-> & LT & FO & PK & NM & RD). destruct r as [r|r]; [subst r|contradiction].
        destruct (cells_named k LT) as (g & I & E). rewrite E in *. cbn [dense_adv tame fit]. split; [|exact G].
        rewrite S1, S2, S3. cbn [peeks named reads flat_map app]. rewrite !app_nil_r, map_app.
        assert (FO' : Forall collect_op (tr ++ [ev (QName k) (QGroup (Done g))])) by (apply Forall_app; split; [exact FO|repeat constructor; exact E]).
        auto 10.
      + (* XRead *) injection N as <-. destruct T as (-> & LT & FO & PK & NM & RD). destruct r as [r|r]; [contradiction|].
        cbn in Rd. destruct Rd as [Rd _]. destruct (Rd G) as (x & ->). cbn [dense_adv tame fit]. split; [|exact Logic.I].
        rewrite S1, S2, S3. cbn [peeks named reads flat_map app]. rewrite !app_nil_r, map_app.
        assert (FO' : Forall collect_op (tr ++ [vv (DUse 0 k read) (DVal x)])) by (apply Forall_app; split; [exact FO|now repeat constructor]).
        auto 10.
      + (* XTally *) destruct (Nat.ltb_spec k card) as [LT|]; [|discriminate]. injection N as <-. destruct T as (-> & LE & FO & PK).
        destruct r as [r|r]; [contradiction|]. cbn in Rd. destruct Rd as [Rd _]. destruct (Rd LT) as (b & ->).
        cbn [dense_adv tame fit]. split; [|exact Logic.I]. rewrite S1. cbn [peeks flat_map app]. rewrite map_app, PK, seq_S.
        split; [reflexivity|]. split; [exact LT|]. split; [apply Forall_app; split; [exact FO|now repeat constructor]|reflexivity].
      + discriminate.
  Qed.

  Notation history c i := (history_of ini next adv (P i%nat) (t_done (c_th c i%nat))).
  Notation calls_of s i := (dense_finished w m P s i).
  Notation running s i := (dense_underway w m P s i).
  Notation began s i call := (dense_begun w m P s i call).

  Definition complete (call : dense_call L Op) (tr : trace lop lres) : Prop := exists st, tame call st tr /\ next st = None.

  Lemma asked_shaped : forall i call, (exists hd, P i hd = Some call) -> forall g, dense_group call = Some g -> wt ls g.
  Proof. intros i call (hd & C) g G. eapply shaped; eauto. Qed.

  Lemma tame_history : forall s i,
    (forall call tr, In (call, tr) (calls_of s i) -> complete call tr /\ exists hd, P i hd = Some call) /\
    t_done (c_th (cfg s) i) = flat_map snd (calls_of s i) ++ cur_trace (history (cfg s) i) /\
    match h_cur (history (cfg s) i) with
    | Some (call, st, tr) => tame call st tr /\ next st <> None /\ exists hd, P i hd = Some call
    | None => True
    end.
  Proof.
    intros s i. pose proof (run_good ini next adv (both Ml Mv) (tt, dv_new) P s i) as [G _].
    change (ConcScript.good ini next adv (P i) (t_done (c_th (cfg s) i)) (history (cfg s) i)) in G.
    destruct G as [D PA C]. change (h_done (history (cfg s) i)) with (calls_of s i) in D, PA.
    pose proof (run_fine s i) as F. pose proof (run_rets s i) as R. rewrite D in F, R.
    assert (H : forall hd tl e, (forall call tr, In (call, tr) hd -> (exists st, lpath call tr st /\ next st = None) /\ exists h, P i h = Some call) ->
      fine (flat_map snd hd ++ tl) -> drets_all card e (rdone (flat_map snd hd ++ tl)) ->
      (forall call tr, In (call, tr) hd -> complete call tr) /\ fine tl /\ exists e', drets_all card e' (rdone tl)).
    { clear D PA C F R. induction hd as [|[call tr] hd IH]; intros tl e HP HF HR; cbn [flat_map snd app] in *.
      - split; [now intros|]. split; [assumption|eauto].
      - rewrite <- app_assoc in HF, HR. unfold rdone in *. rewrite sel_done_app in HR. apply drets_app in HR as [HR1 HR2].
        destruct (HP call tr (or_introl eq_refl)) as ((st & HP1 & HP2) & HP3).
        destruct (path_tame call tr st HP1 (asked_shaped i call HP3)) with (e := e) as [T G].
        { intros o r I. apply HF, in_or_app. now left. }
        { exact HR1. }
        destruct (IH tl (fold_left env_after (sel_done right_of right_of tr) e)) as (A & B & E).
        { intros c' t' I. apply HP. now right. }
        { intros o r I. apply HF, in_or_app. now right. }
        { exact HR2. }
        split; [|split; assumption]. intros c' t' [I|I]; [injection I as <- <-; exists st; auto|auto]. }
    destruct (H (calls_of s i) (cur_trace (history (cfg s) i)) (fun _ => None)) as (A & B & e' & E).
    { exact PA. }
    { exact F. }
    { exact R. }
    split; [|split; [exact D|]].
    - intros call tr I. split; [now apply A|]. apply PA in I. apply I.
    - unfold cur_trace in B, E. destruct (h_cur (history (cfg s) i)) as [[[call st] tr]|]; [|exact Logic.I].
      destruct C as (C1 & C2 & C3). destruct (path_tame call tr st C1 (asked_shaped i call C3) B e' E) as [T G]. auto.
  Qed.

  Lemma next_now : forall s i, match t_cur (c_th (cfg s) i) with Some (op, _) => next_op ini next (P i) (history (cfg s) i) = Some op | None => True end.
  Proof. intros s i. exact (proj2 (run_good ini next adv (both Ml Mv) (tt, dv_new) P s i)). Qed.

  Lemma idle_cur : forall s i, running s i = None -> t_cur (c_th (cfg s) i) = None /\ h_cur (history (cfg s) i) = None.
  Proof.
    intros s i U. unfold dense_underway in U. pose proof (next_now s i) as G. unfold next_op, dense_finished in *.
    destruct (h_cur (history (cfg s) i)) as [[[c st] tr]|]; [discriminate|]. split; [|reflexivity].
    destruct (t_cur (c_th (cfg s) i)) as [[op mic]|]; [|reflexivity]. rewrite U in G. discriminate.
  Qed.

  Lemma idle_done : forall s i, running s i = None -> t_done (c_th (cfg s) i) = flat_map snd (calls_of s i).
  Proof.
    intros s i U. destruct (idle_cur s i U) as [_ C]. destruct (tame_history s i) as (_ & D & _).
    unfold cur_trace in D. rewrite C, app_nil_r in D. exact D.
  Qed.

  Lemma idle_log : forall s log i, explained_by s log -> running s i = None -> of_thread i log = rdone (flat_map snd (calls_of s i)).
  Proof.
    intros s log i E U. destruct (E i) as [X|(op & mic & r & C & _)].
    - rewrite X. unfold cells, right_thread, sel_thread. cbn [t_done]. now rewrite (idle_done s i U).
    - unfold cells, right_thread, sel_thread in C. cbn [t_cur] in C. destruct (idle_cur s i U) as [Z _]. rewrite Z in C. discriminate.
  Qed.

  (** The calls a thread has finished, one by one. *)
  Inductive outcome_is : dense_call L Op -> trace lop lres -> Prop :=
  | O_refused_update : forall g u, lg_encode L ls g = Done (ls, None) -> outcome_is (EUpdate g u) [ev (QLook g) (QId (Done None))]
  | O_update : forall g u k r, ID g k -> outcome_is (EUpdate g u)
      [ev (QLook g) (QId (Done (Some k))); vv (DGet 0 k) DUnit; vv (DUse 0 k u) (DVal r)]
  | O_refused_delete : forall g, lg_encode L ls g = Done (ls, None) -> outcome_is (EDelete g) [ev (QLook g) (QId (Done None))]
  | O_delete : forall g k, ID g k -> outcome_is (EDelete g) [ev (QLook g) (QId (Done (Some k)))]
  | O_collect : forall tr, Forall collect_op tr -> map fst (peeks tr) = seq 0 card -> map fst (named tr) = trues (peeks tr) ->
      map fst (reads tr) = trues (peeks tr) -> outcome_is ECollect tr
  | O_count : forall tr, Forall count_op tr -> map fst (peeks tr) = seq 0 card -> outcome_is ECount tr.

  Lemma complete_outcome : forall call tr, complete call tr -> outcome_is call tr.
  Proof.
    intros call tr (st & T & N). destruct st as [g u|k u|k u|g|k|k|k|k|]; cbn [dense_next] in N; try discriminate.
    - destruct (Nat.ltb_spec k card) as [|GE]; [discriminate|]. destruct T as (-> & LE & A & B & C & D).
      assert (k = card) as -> by lia. now constructor.
    - destruct (Nat.ltb_spec k card) as [|GE]; [discriminate|]. destruct T as (-> & LE & A & B).
      assert (k = card) as -> by lia. now constructor.
    - destruct T as [(g & u & -> & [[E ->]|(k & r & I & ->)])|(g & -> & [[E ->]|(k & I & ->)])]; now constructor.
  Qed.

  Lemma made_outcome : forall s i call tr, In (call, tr) (calls_of s i) ->
    outcome_is call tr /\ (exists hd, P i hd = Some call) /\ exists a b, t_done (c_th (cfg s) i) = a ++ tr ++ b.
  Proof.
    intros s i call tr I. destruct (tame_history s i) as (A & D & _). destruct (A call tr I) as [C H].
    split; [now apply complete_outcome|]. split; [exact H|]. apply in_split in I as (x & y & I). rewrite I in D.
    rewrite D, flat_map_app. cbn. exists (flat_map snd x), (flat_map snd y ++ cur_trace (history (cfg s) i)).
    now rewrite <- !app_assoc.
  Qed.

  (** *** Results *)
  Lemma calm : forall (tr : trace lop lres), Forall collect_op tr \/ Forall count_op tr -> existsb panics tr = false.
  Proof.
    intros tr [F|F]; induction F as [|d tr C F IH]; cbn [existsb]; auto; rewrite IH, orb_false_r; destruct d as [[[]|[]] [[[]|[]]|[]]]; cbn in C; try contradiction; reflexivity.
  Qed.

  Lemma groups_named : forall tr, Forall collect_op tr -> row_groups_of tr = map snd (named tr).
  Proof.
    intros tr F. unfold row_groups_of, named. induction F as [|d tr C F IH]; [reflexivity|]. cbn [flat_map]. rewrite map_app, IH. f_equal.
    destruct d as [[[]|[]] [[[]|[]]|[]]]; cbn in C; try contradiction; reflexivity.
  Qed.
  Lemma values_read : forall tr, Forall collect_op tr -> row_values_of tr = map snd (reads tr).
  Proof.
    intros tr F. unfold row_values_of, reads. induction F as [|d tr C F IH]; [reflexivity|]. cbn [flat_map]. rewrite map_app, IH. f_equal.
    destruct d as [[[]|[]] [[[]|[]]|[]]]; cbn in C; try contradiction; reflexivity.
  Qed.
  Lemma found_peeks : forall tr, Forall count_op tr -> cells_found tr = length (trues (peeks tr)).
  Proof.
    intros tr F. unfold cells_found, trues. rewrite map_length. induction F as [|d tr C F IH]; [reflexivity|].
    unfold peeks in *. cbn [filter flat_map]. rewrite filter_app, app_length, <- IH.
    destruct d as [[[]|[]] [[[]|[]]|[|[]| | | |]]]; cbn in C; try contradiction; reflexivity.
  Qed.

  Theorem call_results : forall s i call tr, In (call, tr) (calls_of s i) ->
    match dense_result_of call tr with
    | DReturned _ => exists g u k, call = EUpdate g u /\ ID g k
    | DNotRemoved => exists g k, call = EDelete g /\ ID g k
    | DCollected _ => call = ECollect
    | DCounted _ => call = ECount
    | DRefused => exists g, dense_group call = Some g /\ lg_encode L ls g = Done (ls, None)
    | DFailed => False
    end.
  Proof.
    intros s i call tr I. destruct (made_outcome s i call tr I) as (OC & _).
    destruct OC as [g u E|g u k r E|g E|g k E|tr F A B C|tr F A]; unfold dense_result_of; cbn; eauto.
    - now rewrite calm by now left.
    - now rewrite calm by now right.
  Qed.

  (** *** Where entries come from *)
  Lemma entry_call : forall s log j o r, explained_by s log -> In (j, o, r) log ->
    exists call st tr, began s j call /\ tame call st tr /\ ((exists r', In (inr o, r') tr) \/ next st = Some (inr o)).
  Proof.
    intros s log j o r E I. apply in_of_thread in I. destruct (tame_history s j) as (A & D & C). pose proof (next_now s j) as G.
    assert (X : In (o, r) (t_done (cells (cfg s) j)) ->
      exists call st tr, began s j call /\ tame call st tr /\ ((exists r', In (inr o, r') tr) \/ next st = Some (inr o))).
    { intros J. apply in_sel_right in J. rewrite D in J. apply in_app_or in J as [J|J].
      - apply in_flat_map in J as ([call tr] & J1 & J2). cbn in J2. destruct (A call tr J1) as [(st & T & _) _].
        exists call, st, tr. split; [left; apply in_map_iff; now exists (call, tr)|]. split; [exact T|]. left. eauto.
      - unfold cur_trace in J. unfold dense_begun, dense_underway. destruct (h_cur (history (cfg s) j)) as [[[call st] tr]|] eqn:HC; [|contradiction].
        destruct C as (T & _). exists call, st, tr. split; [now right|]. split; [exact T|]. left. eauto. }
    destruct (E j) as [E'|(op & mic & r' & CU & E')]; rewrite E' in I; [now apply X|].
    apply in_app_or in I as [I|[I|[]]]; [now apply X|]. injection I as -> ->. clear X.
    unfold cells, right_thread, sel_thread in CU. cbn [t_cur] in CU.
    destruct (t_cur (c_th (cfg s) j)) as [[[o'|o'] [m'|m']]|] eqn:CUR; cbn in CU; try discriminate. injection CU as -> ->.
    unfold next_op in G. unfold dense_begun, dense_underway. destruct (h_cur (history (cfg s) j)) as [[[call st] tr]|] eqn:HC.
    - destruct C as (T & _). exists call, st, tr. split; [now right|]. split; [exact T|]. now right.
    - change (h_done (history (cfg s) j)) with (calls_of s j) in G. destruct (P j (calls_of s j)) as [call|] eqn:PC; [|discriminate].
      exists call, (ini call), []. rewrite CUR. split; [now right|]. split; [|now right].
      destruct call; cbn; auto; split; auto; split; auto; try lia.
  Qed.

  Lemma got_begun : forall s log j h k, explained_by s log -> In (j, DGet h k, DUnit) log -> exists g u, began s j (EUpdate g u) /\ ID g k.
  Proof.
    intros s log j h k E I. destruct (entry_call s log j _ _ E I) as (call & st & tr & B & T & H).
    assert (NC : Forall collect_op tr -> forall r', ~ In (inr (DGet h k), r') tr).
    { intros F r' J. rewrite Forall_forall in F. specialize (F _ J). destruct r'; exact F. }
    assert (NT : Forall count_op tr -> forall r', ~ In (inr (DGet h k), r') tr).
    { intros F r' J. rewrite Forall_forall in F. specialize (F _ J). destruct r'; exact F. }
    destruct st as [g u|q u|q u|g|q|q|q|q|]; cbn [tame] in T; cbn [dense_next] in H.
    - destruct T as [-> ->]. destruct H as [(r' & [])|H]; discriminate.
    - destruct T as (g & -> & J & ->). destruct H as [(r' & [H|[]])|H]; [discriminate|]. injection H as <- <-. eauto.
    - destruct T as (g & -> & J & ->). destruct H as [(r' & [H|[H|[]]])|H]; try discriminate. injection H as <- <- <-. eauto.
    - destruct T as [-> ->]. destruct H as [(r' & [])|H]; discriminate.
    - destruct T as (_ & _ & F & _). destruct H as [(r' & H)|H]; [now apply NC in H|]. destruct (Nat.ltb q card); discriminate.
    - destruct T as (_ & _ & F & _). destruct H as [(r' & H)|H]; [now apply NC in H|]. discriminate.
    - destruct T as (_ & _ & F & _). destruct H as [(r' & H)|H]; [now apply NC in H|]. discriminate.
    - destruct T as (_ & _ & F & _). destruct H as [(r' & H)|H]; [now apply NT in H|]. destruct (Nat.ltb q card); discriminate.
    - destruct H as [(r' & H)|H]; [|discriminate].
      destruct T as [(g & u & -> & [[_ ->]|(q & r & J & ->)])|(g & -> & [[_ ->]|(q & J & ->)])].
      + destruct H as [H|[]]; discriminate.
      + destruct H as [H|[H|[H|[]]]]; try discriminate. injection H as <- <- <-. eauto.
      + destruct H as [H|[]]; discriminate.
      + destruct H as [H|[]]; discriminate.
  Qed.

  Theorem row_groups : forall s, (forall i, running s i = None) -> forall k x, dense_metric_at w m P s k = Some x ->
    exists g u j tr, In (EUpdate g u, tr) (calls_of s j) /\ ID g k.
  Proof.
    intros s IDL k x M. destruct (logs s []) as (log & more & a & _ & E & LG & SV). rewrite app_nil_r in E, SV.
    assert (SV' := SV (fun i => proj1 (idle_cur s i (IDL i))) k). rewrite M in SV'. cbn in SV'.
    pose proof (legal_cell spec st_new card k _ _ LG) as LF. destruct (ad_tab a k) as [y|]; [|discriminate]. destruct LF as [PR _].
    apply asked_got in PR as (j & h & G). destruct (got_begun s _ j h k E G) as (g & u & B & I).
    destruct B as [B|B]; [|rewrite (IDL j) in B; discriminate]. apply in_map_iff in B as ([c tr] & B1 & B2). cbn in B1. subst c. eauto 6.
  Qed.

  (** *** Collections *)
  Lemma in_peeks : forall tr k b, In (k, b) (peeks tr) -> exists h, In (vv (DPeek h k) (DFound b)) tr.
  Proof.
    intros tr k b I. unfold peeks in I. apply in_flat_map in I as ([o r] & I & J).
    destruct o as [o|[h q|h q|h q u]], r as [r|[]]; cbn in J; try contradiction. destruct J as [J|[]]. injection J as -> ->. eauto.
  Qed.
  Lemma in_named : forall tr k g, Forall collect_op tr -> In (k, g) (named tr) -> lg_decode_dense L ls (N.of_nat k) = Done g.
  Proof.
    intros tr k g F I. unfold named in I. apply in_flat_map in I as ([o r] & I & J).
    rewrite Forall_forall in F. specialize (F _ I).
    destruct o as [[|q]|[]], r as [[[]|[]]|r]; cbn in J, F; try contradiction. destruct J as [J|[]]. injection J as -> ->. exact F.
  Qed.
  Lemma in_reads : forall tr k r, Forall collect_op tr -> In (k, r) (reads tr) -> exists h, In (vv (DUse h k read) (DVal r)) tr.
  Proof.
    intros tr k r F I. unfold reads in I. apply in_flat_map in I as ([o r'] & I & J).
    destruct o as [o|[h q|h q|h q u]], r' as [r'|[]]; cbn in J; try contradiction. destruct J as [J|[]]. injection J as -> ->.
    rewrite Forall_forall in F. pose proof (F _ I) as C. cbn in C. subst u. eauto.
  Qed.
  Lemma in_trues : forall l k, In k (trues l) <-> In (k, true) l.
  Proof.
    intros l k. unfold trues. rewrite in_map_iff. split.
    - intros ([k' b] & E & I). cbn in E. subst k'. apply filter_In in I as [I T]. cbn in T. now subst b.
    - intros I. exists (k, true). split; [reflexivity|]. apply filter_In. auto.
  Qed.
  Lemma trues_sorted : forall l n c, map fst l = seq n c -> Sorted.StronglySorted lt (trues l) /\ Forall (le n) (trues l).
  Proof.
    induction l as [|[k b] l IH]; intros n c E; [split; constructor|]. destruct c as [|c]; [discriminate|]. cbn in E. injection E as -> E.
    destruct (IH (S n) c E) as [S F]. unfold trues in *. cbn [filter snd map]. destruct b; cbn [map fst].
    - split; [constructor; [exact S|exact F]|]. constructor; [lia|]. eapply Forall_impl; [|exact F]. cbn. lia.
    - split; [exact S|]. eapply Forall_impl; [|exact F]. cbn. lia.
  Qed.
  Lemma trues_below : forall l c k, map fst l = seq 0 c -> In k (trues l) -> k < c.
  Proof. intros l c k E I. apply in_trues in I. apply (in_map fst) in I. rewrite E in I. apply in_seq in I. cbn in I. lia. Qed.

  Lemma collect_facts : forall s i tr, In (ECollect, tr) (calls_of s i) ->
    Forall collect_op tr /\ map fst (peeks tr) = seq 0 card /\ map fst (named tr) = trues (peeks tr) /\ map fst (reads tr) = map fst (named tr) /\
    dense_result_of ECollect tr = DCollected (combine (map snd (named tr)) (map snd (reads tr))) /\
    (forall k g, In (k, g) (named tr) -> ID g k) /\
    forall d, In d tr -> In d (t_done (c_th (cfg s) i)).
  Proof.
    intros s i tr I. destruct (made_outcome s i ECollect tr I) as (OC & _ & a & b & D). inversion OC as [| | | |? F PK NM RD|]; subst.
    split; [exact F|]. split; [exact PK|]. split; [exact NM|]. split; [congruence|]. split.
    { unfold dense_result_of. rewrite calm by now left. now rewrite groups_named, values_read. }
    split.
    - intros k g J. pose proof (in_named tr k g F J) as E. apply (in_map fst) in J. rewrite NM in J. apply (trues_below _ _ _ PK) in J.
      destruct (cells_named k J) as (g' & I' & E'). assert (g' = g) as -> by congruence. exact I'.
    - intros d H. rewrite D. apply in_or_app. right. apply in_or_app. now left.
  Qed.

  (** The cells seen by a collection or a count. *)
  Lemma peek_true : forall s i h k, In (vv (DPeek h k) (DFound true)) (t_done (c_th (cfg s) i)) -> exists j g u, began s j (EUpdate g u) /\ ID g k.
  Proof.
    intros s i h k I. destruct (logs s []) as (log & more & a & _ & E & LG & _). rewrite app_nil_r in E. set (lg := log ++ more) in *.
    assert (J : In (i, DPeek h k, DFound true) lg).
    { apply in_of_thread. assert (J : In (DPeek h k, DFound true) (t_done (cells (cfg s) i))) by now apply in_sel_right.
      destruct (E i) as [->|(op & mic & r & _ & ->)]; [exact J|]. apply in_or_app. now left. }
    apply in_split in J as (pre & post & J). rewrite J in LG. pose proof (dlegal_peek spec st_new card pre i h k true post a LG) as A.
    symmetry in A. apply asked_got in A as (j & h' & A).
    destruct (got_begun s lg j h' k E) as (g & u & B); [rewrite J; apply in_or_app; now left|]. eauto.
  Qed.

  Theorem collections : forall s i tr, In (ECollect, tr) (calls_of s i) -> exists l ks, dense_result_of ECollect tr = DCollected l /\
    Forall2 (fun p k => ID (fst p) k) l ks /\ Sorted.StronglySorted lt ks /\ forall g r, In (g, r) l -> exists j u, began s j (EUpdate g u).
  Proof.
    intros s i tr I. destruct (collect_facts s i tr I) as (F & PK & NM & RD & RE & IDS & SUB).
    exists (combine (map snd (named tr)) (map snd (reads tr))), (trues (peeks tr)). split; [exact RE|]. split; [|split].
    - rewrite <- NM. clear -IDS RD. revert RD IDS. generalize (reads tr). induction (named tr) as [|[k g] l IH]; intros [|[k' r] v] E IDS; cbn in *; try discriminate; constructor.
      + cbn. apply IDS. now left.
      + apply IH; [congruence|]. intros q g' J. apply IDS. now right.
    - apply (trues_sorted _ 0 _ PK).
    - intros g r J. apply in_combine_l in J. apply in_map_iff in J as ([k g'] & X & J). cbn in X. subst g'.
      pose proof (IDS k g J) as IG. apply (in_map fst) in J. rewrite NM in J. apply in_trues in J. apply in_peeks in J as (h & J). apply SUB in J.
      destruct (peek_true s i h k J) as (j & g' & u & B & IG'). assert (g' = g) as -> by now apply (ids_agree g k g' k IG IG'). eauto.
  Qed.

  (** *** Counts *)
  Lemma count_facts : forall s i tr, In (ECount, tr) (calls_of s i) ->
    Forall count_op tr /\ map fst (peeks tr) = seq 0 card /\ dense_result_of ECount tr = DCounted (length (trues (peeks tr))) /\
    forall d, In d tr -> In d (t_done (c_th (cfg s) i)).
  Proof.
    intros s i tr I. destruct (made_outcome s i ECount tr I) as (OC & _ & a & b & D). inversion OC as [| | | | |? F PK]; subst.
    split; [exact F|]. split; [exact PK|]. split.
    - unfold dense_result_of. rewrite calm by now right. now rewrite found_peeks.
    - intros d H. rewrite D. apply in_or_app. right. apply in_or_app. now left.
  Qed.

  (** *** A call among other calls *)
  Lemma call_logs : forall s0 s1 i call tr rest, running s0 i = None ->
    calls_of (s0 ++ s1) i = calls_of s0 i ++ (call, tr) :: rest ->
    exists log0 more a, explained_by s0 log0 /\ explained_by (s0 ++ s1) (log0 ++ more) /\ legal dspec ad_new (log0 ++ more) a /\
      forall o r, In (vv o r) tr -> exists m post, more = m ++ (i, o, r) :: post.
  Proof.
    intros s0 s1 i call tr rest U M. destruct (logs s0 s1) as (log0 & more & a & X0 & X1 & LG & _).
    exists log0, more, a. split; [exact X0|]. split; [exact X1|]. split; [exact LG|]. intros o r I.
    pose proof (idle_log s0 log0 i X0 U) as T0. destruct (tame_history (s0 ++ s1) i) as (_ & D & _).
    assert (T1 : exists x, t_done (cells (cfg (s0 ++ s1)) i) = rdone (flat_map snd (calls_of s0 i)) ++ rdone tr ++ x).
    { pose proof (f_equal (sel_done (@right_of _ _) (@right_of _ _)) D) as DS.
      unfold cells, right_thread, sel_thread. cbn [t_done]. rewrite DS, M, flat_map_app. cbn [flat_map snd].
      rewrite !sel_done_app, <- !app_assoc. unfold rdone. eauto. }
    destruct T1 as (x & T1). apply in_sel_right in I. apply in_split in I as (c & d & I). fold (rdone tr) in I.
    assert (T2 : exists y, of_thread i more = c ++ (o, r) :: y).
    { destruct (X1 i) as [X|(op & mic & r' & _ & X)]; rewrite of_thread_app, T0, T1, I in X; repeat rewrite <- app_assoc in X;
        apply app_inv_head in X; cbn in X; eauto. }
    destruct T2 as (y & T2). apply of_thread_split in T2 as (m' & post & -> & _). eauto.
  Qed.

  (** Cells asked for before the call are found by it. *)
  Lemma peek_before : forall s0 s1 i call tr rest, running s0 i = None -> calls_of (s0 ++ s1) i = calls_of s0 i ++ (call, tr) :: rest ->
    forall j g u t r k h b, In (EUpdate g u, t) (calls_of s0 j) -> dense_result_of (EUpdate g u) t = DReturned r -> ID g k ->
    In (vv (DPeek h k) (DFound b)) tr -> b = true.
  Proof.
    intros s0 s1 i call tr rest U M j g u t r k h b IU RU IG PB. destruct (made_outcome s0 j _ t IU) as (OC & _ & x & y & D).
    inversion OC as [|g' u' k' r0 IG' E1 E2| | | |]; subst; [discriminate|].
    assert (k' = k) as -> by now apply (ids_agree g k g k' IG IG').
    destruct (call_logs s0 s1 i call tr rest U M) as (log0 & more & a & X0 & X1 & LG & SP).
    destruct (SP _ _ PB) as (m' & post & ->). rewrite app_assoc in LG. rewrite (dlegal_peek spec st_new card _ i h k b post a LG).
    apply (got_asked k _ j 0), in_or_app. left. apply in_of_thread.
    assert (J : In (DGet 0 k, DUnit) (t_done (cells (cfg s0) j))).
    { apply in_sel_right. rewrite D. apply in_or_app. right. right. now left. }
    destruct (X0 j) as [->|(op & mic & r2 & _ & ->)]; [exact J|]. apply in_or_app. now left.
  Qed.

  Lemma peeked : forall (tr : trace lop lres) k, map fst (peeks tr) = seq 0 card -> k < card -> exists h b, In (vv (DPeek h k) (DFound b)) tr /\ In (k, b) (peeks tr).
  Proof.
    intros tr k PK LT. assert (I : In k (map fst (peeks tr))) by (rewrite PK; apply in_seq; cbn; lia).
    apply in_map_iff in I as ([k' b] & E & I). cbn in E. subst k'. pose proof I as J. apply in_peeks in I as (h & I). eauto.
  Qed.

  Theorem shown : forall s0 s1 i tr rest, running s0 i = None -> calls_of (s0 ++ s1) i = calls_of s0 i ++ (ECollect, tr) :: rest ->
    forall j g u t r, In (EUpdate g u, t) (calls_of s0 j) -> dense_result_of (EUpdate g u) t = DReturned r ->
    exists l r', dense_result_of ECollect tr = DCollected l /\ In (g, r') l.
  Proof.
    intros s0 s1 i tr rest U M j g u t r IU RU.
    assert (IL : In (ECollect, tr) (calls_of (s0 ++ s1) i)) by (rewrite M; apply in_or_app; right; now left).
    destruct (collect_facts _ i tr IL) as (F & PK & NM & RD & RE & IDS & SUB).
    pose proof (call_results s0 j _ t IU) as CR. rewrite RU in CR. destruct CR as (g' & u' & k & X & IG). injection X as <- <-.
    destruct (id_facts g k IG) as (LT & _). destruct (peeked tr k PK LT) as (h & b & PB & PB').
    rewrite (peek_before s0 s1 i _ tr rest U M j g u t r k h b IU RU IG PB) in PB'.
    assert (KN : In k (map fst (named tr))) by (rewrite NM; now apply in_trues).
    apply in_map_iff in KN as ([k' g'] & E & KN). cbn in E. subst k'.
    assert (g' = g) as -> by (apply (ids_agree g k g' k IG (IDS k g' KN)); reflexivity).
    exists (combine (map snd (named tr)) (map snd (reads tr))).
    assert (IN : exists r', In (g, r') (combine (map snd (named tr)) (map snd (reads tr)))); [|destruct IN as (r' & IN); eauto].
    clear -KN RD. revert RD KN. generalize (reads tr). induction (named tr) as [|[q x] l IH]; intros [|[q' v] vs] E I; cbn in *; try contradiction; try discriminate.
    destruct I as [I|I]; [injection I as -> ->; eauto|]. destruct (IH vs) as (r' & J); [congruence|exact I|eauto].
  Qed.

  Theorem counts : forall s0 s1 i tr rest, running s0 i = None -> calls_of (s0 ++ s1) i = calls_of s0 i ++ (ECount, tr) :: rest ->
    exists n, dense_result_of ECount tr = DCounted n /\ n <= card /\
    (forall gs, NoDup gs -> (forall g, In g gs -> exists j u t r, In (EUpdate g u, t) (calls_of s0 j) /\ dense_result_of (EUpdate g u) t = DReturned r) ->
       length gs <= n) /\
    exists gs, NoDup gs /\ length gs = n /\ forall g, In g gs -> exists j u, began (s0 ++ s1) j (EUpdate g u).
  Proof.
    intros s0 s1 i tr rest U M.
    assert (IL : In (ECount, tr) (calls_of (s0 ++ s1) i)) by (rewrite M; apply in_or_app; right; now left).
    destruct (count_facts _ i tr IL) as (F & PK & RE & SUB). exists (length (trues (peeks tr))). split; [exact RE|].
    assert (ND : NoDup (trues (peeks tr))).
    { assert (N0 : NoDup (map fst (peeks tr))) by (rewrite PK; apply seq_NoDup). clear -N0. unfold trues. induction (peeks tr) as [|[k b] l IH]; [constructor|].
      cbn in *. inversion N0 as [|? ? N1 N2]; subst. destruct b; [|auto]. cbn. constructor; [|auto]. intros I. apply N1.
      apply in_map_iff in I as (d & <- & I). apply filter_In in I as [I _]. now apply in_map. }
    split; [|split].
    - rewrite <- (seq_length card 0). apply NoDup_incl_length; [exact ND|]. intros k I. apply (trues_below _ _ _ PK) in I. apply in_seq. cbn. lia.
    - intros gs N H.
      assert (X : exists ks, Forall2 ID gs ks /\ incl ks (trues (peeks tr))).
      { clear N. induction gs as [|g gs IH]; [exists []; split; [constructor|intros x []]|].
        destruct IH as (ks & A & B); [intros g' I; apply H; now right|]. destruct (H g (or_introl eq_refl)) as (j & u & t & r & IU & RU).
        pose proof (call_results s0 j _ t IU) as CR. rewrite RU in CR. destruct CR as (g' & u' & k & X & IG). injection X as <- <-.
        destruct (id_facts g k IG) as (LT & _). destruct (peeked tr k PK LT) as (h & b & PB & PB').
        rewrite (peek_before s0 s1 i _ tr rest U M j g u t r k h b IU RU IG PB) in PB'.
        exists (k :: ks). split; [now constructor|]. intros q [<-|I]; [now apply in_trues|auto]. }
      destruct X as (ks & A & B). assert (LE : length gs = length ks) by (clear -A; induction A; cbn; congruence).
      rewrite LE. apply NoDup_incl_length; [|exact B]. clear -N A fixed shaped good. induction A as [|g k gs ks IG A IH]; [constructor|].
      inversion N as [|? ? N1 N2]; subst. constructor; [|auto]. intros I. apply N1. clear -A IG I fixed shaped good.
      induction A as [|g' k' gs ks IG' A IH]; [contradiction|]. destruct I as [->|I]; [left|right; auto].
      now apply (ids_agree g k g' k IG IG').
    - assert (X : forall l : list nat, NoDup l -> incl l (trues (peeks tr)) -> exists gs, Forall2 ID gs l /\ NoDup gs /\
        forall g, In g gs -> exists j u, began (s0 ++ s1) j (EUpdate g u)).
      { intros l N B. induction N as [|k l NI N IH]; [exists []; split; [constructor|split; [constructor|intros g []]]|].
        destruct IH as (gs & A1 & A2 & A3); [intros x I; apply B; now right|].
        pose proof (B k (or_introl eq_refl)) as K. apply in_trues in K. apply in_peeks in K as (h & K). apply SUB in K.
        destruct (peek_true _ i h k K) as (j & g & u & BG & IG). exists (g :: gs). split; [now constructor|]. split.
        - constructor; [|exact A2]. intros I. apply NI. clear -A1 IG I fixed shaped good. induction A1 as [|g' k' gs ks IG' A IH]; [contradiction|].
          destruct I as [->|I]; [left|right; auto]. now apply (ids_agree g k g k' IG IG').
        - intros g' [<-|I]; eauto. }
      destruct (X _ ND (incl_refl _)) as (gs & A1 & A2 & A3). exists gs. split; [exact A2|]. split; [|exact A3].
      clear -A1. induction A1; cbn; congruence.
  Qed.

  (** A count that begins after another has ended is no less. *)
  Theorem counts_later : forall s0 s1 i tr rest, running s0 i = None -> calls_of (s0 ++ s1) i = calls_of s0 i ++ (ECount, tr) :: rest ->
    forall i0 tr0 n0, In (ECount, tr0) (calls_of s0 i0) -> dense_result_of ECount tr0 = DCounted n0 ->
    exists n, dense_result_of ECount tr = DCounted n /\ n0 <= n.
  Proof.
    intros s0 s1 i tr rest U M i0 tr0 n0 I0 R0.
    assert (IL : In (ECount, tr) (calls_of (s0 ++ s1) i)) by (rewrite M; apply in_or_app; right; now left).
    destruct (count_facts _ i tr IL) as (F & PK & RE & SUB). destruct (count_facts _ i0 tr0 I0) as (F0 & PK0 & RE0 & SUB0).
    exists (length (trues (peeks tr))). split; [exact RE|]. rewrite R0 in RE0. injection RE0 as ->.
    assert (ND : NoDup (trues (peeks tr0))).
    { assert (N0 : NoDup (map fst (peeks tr0))) by (rewrite PK0; apply seq_NoDup). clear -N0. unfold trues. induction (peeks tr0) as [|[k b] l IH]; [constructor|].
      cbn in *. inversion N0 as [|? ? N1 N2]; subst. destruct b; [|auto]. cbn. constructor; [|auto]. intros I. apply N1.
      apply in_map_iff in I as (d & <- & I). apply filter_In in I as [I _]. now apply in_map. }
    apply NoDup_incl_length; [exact ND|]. intros k K. pose proof (trues_below _ _ _ PK0 K) as LT. apply in_trues in K.
    apply in_peeks in K as (h0 & K). apply SUB0 in K. destruct (peeked tr k PK LT) as (h & b & PB & PB').
    destruct (call_logs s0 s1 i _ tr rest U M) as (log0 & more & a & X0 & X1 & LG & SP).
    destruct (SP _ _ PB) as (m' & post & ->).
    assert (J : In (i0, DPeek h0 k, DFound true) log0).
    { apply in_of_thread. assert (J : In (DPeek h0 k, DFound true) (t_done (cells (cfg s0) i0))) by now apply in_sel_right.
      destruct (X0 i0) as [->|(op & mic & r & _ & ->)]; [exact J|]. apply in_or_app. now left. }
    apply in_trues. assert (b = true) as <-; [|exact PB']. rewrite app_assoc in LG. rewrite (dlegal_peek spec st_new card _ i h k b post a LG).
    apply in_split in J as (pre & mid & ->). repeat rewrite <- app_assoc in LG. cbn [app] in LG.
    pose proof (dlegal_peek spec st_new card _ _ _ _ _ _ _ LG) as A. symmetry in A. apply asked_got in A as (j & h' & A).
    apply (got_asked k _ j h'). apply in_or_app. left. apply in_or_app. now left.
  Qed.

  Variable geq : forall a b : lg_group L, {a = b} + {a <> b}.

  (** *** Sums *)
  Section Flow.
    Variable add : Op -> Res -> Z.
    Hypothesis add_read : forall r, add read r = 0%Z.
    Variable g : lg_group L.
    Variable k : nat.
    Hypothesis id : ID g k.
    Notation flow := (dense_flow add k).

    Lemma eq_cases : forall g' k' (x y : Z), ID g' k' -> (if Nat.eqb k' k then x else y) = (if geq g' g then x else y).
    Proof.
      intros g' k' x y H. pose proof (ids_agree g k g' k' id H) as A. destruct (geq g' g) as [E|NE].
      - apply A in E. subst. now rewrite Nat.eqb_refl.
      - destruct (Nat.eqb_spec k' k) as [E|]; [|reflexivity]. apply A in E. contradiction.
    Qed.

    Lemma flow_reads : forall tr, Forall (fun d => collect_op d \/ count_op d) tr -> Forall (fun d => flow d = 0%Z) (rdone tr).
    Proof.
      intros tr F. apply Forall_forall. intros [o r] I. apply in_sel_right in I. rewrite Forall_forall in F. specialize (F _ I).
      destruct o, r; cbn in F; try tauto. cbn. destruct F as [->|[]]. rewrite add_read. now destruct (Nat.eqb k0 k).
    Qed.
    Lemma sum_zero : forall l, Forall (fun d => flow d = 0%Z) l -> sum_over flow l = 0%Z.
    Proof. intros l F. induction F as [|d l E F IH]; [reflexivity|]. cbn [sum_over fold_right]. fold (sum_over flow l). now rewrite E, IH. Qed.

    Lemma flow_call : forall call tr, outcome_is call tr -> sum_over flow (rdone tr) = dense_adds geq add g (call, tr).
    Proof.
      intros call tr OC. destruct OC as [g' u E|g' u k' r E|g' E|g' k' E|tr F A B C|tr F A].
      - reflexivity.
      - unfold dense_adds. cbn. rewrite (eq_cases g' k') by exact E. destruct (geq g' g); lia.
      - reflexivity.
      - reflexivity.
      - rewrite sum_zero; [unfold dense_adds; cbn [fst snd]; now destruct (dense_result_of ECollect tr)|].
        apply flow_reads. eapply Forall_impl; [|exact F]. auto.
      - rewrite sum_zero; [unfold dense_adds; cbn [fst snd]; now destruct (dense_result_of ECount tr)|].
        apply flow_reads. eapply Forall_impl; [|exact F]. auto.
    Qed.

    Lemma flow_calls : forall hd, (forall call tr, In (call, tr) hd -> outcome_is call tr) ->
      sum_over flow (rdone (flat_map snd hd)) = sum_over (dense_adds geq add g) hd.
    Proof.
      intros hd. induction hd as [|[call tr] hd IH]; intros OC; [reflexivity|].
      cbn [flat_map snd]. unfold rdone in *. rewrite sel_done_app, sum_over_app. cbn [sum_over fold_right].
      f_equal; [apply flow_call, OC; now left|]. apply IH. intros c t I. apply OC. now right.
    Qed.

    Variable most : Op -> Z.
    Hypothesis add_most : forall u r, (0 <= add u r <= most u)%Z.
    Hypothesis most_pos : forall u, (0 <= most u)%Z.
    Notation nonneg := (Forall (fun d => 0 <= flow d)%Z).
    Definition might_add (call : dense_call L Op) : Z :=
      match call with EUpdate g' u => if geq g' g then most u else 0 | _ => 0 end%Z.

    Lemma might_pos : forall call, (0 <= might_add call)%Z.
    Proof. intros [g' u| | |]; cbn; try lia. destruct (geq g' g); [apply most_pos|lia]. Qed.
    Lemma flow_pos : forall d, (0 <= flow d)%Z.
    Proof. intros [[h q|h q|h q u] r]; cbn; try lia; destruct r; try lia. destruct (Nat.eqb q k); [apply add_most|lia]. Qed.
    Lemma sum_pos : forall l, (0 <= sum_over flow l)%Z.
    Proof. induction l as [|d l IH]; [cbn; lia|]. cbn [sum_over fold_right]. fold (sum_over flow l). pose proof (flow_pos d). lia. Qed.

    (** The call a thread is in. *)
    Lemma under_way : forall call st tr op, tame call st tr -> next st = Some op ->
      forall pend, pend = [] \/ (exists o r, op = inr o /\ pend = [(o, r)]) -> (sum_over flow (rdone tr ++ pend) <= might_add call)%Z.
    Proof.
      intros call st tr op T N pend PE. pose proof (might_pos call) as MP.
      assert (CO : Forall (fun d => collect_op d \/ count_op d) tr -> Forall (fun d => flow d = 0%Z) pend -> (sum_over flow (rdone tr ++ pend) <= might_add call)%Z).
      { intros F Z0. rewrite sum_zero; [exact MP|]. apply Forall_app. split; [now apply flow_reads|exact Z0]. }
      assert (FC : Forall collect_op tr -> Forall (fun d => collect_op d \/ count_op d) tr) by (intros F; eapply Forall_impl; [|exact F]; auto).
      assert (FN : Forall count_op tr -> Forall (fun d => collect_op d \/ count_op d) tr) by (intros F; eapply Forall_impl; [|exact F]; auto).
      assert (PK : forall h q, op = inr (DPeek h q) \/ op = inr (DGet h q) \/ (exists o, op = inl o) \/ op = inr (DUse h q read) -> Forall (fun d => flow d = 0%Z) pend).
      { intros h q O. destruct PE as [->|(o & r & -> & ->)]; [constructor|]. constructor; [|constructor].
        destruct O as [O|[O|[[x O]|O]]]; inversion O; subst; cbn; destruct r; try reflexivity. rewrite add_read. now destruct (Nat.eqb q k). }
      destruct st as [g' u|q u|q u|g'|q|q|q|q|]; cbn [dense_next] in N.
      - injection N as <-. destruct T as [-> ->]. apply CO; [constructor|]. apply (PK 0 0). right. right. left. eauto.
      - injection N as <-. destruct T as (g' & -> & I & ->). cbn [rdone sel_done flat_map right_of app fst snd].
        rewrite sum_zero; [exact MP|]. apply (PK 0 q). auto.
      - injection N as <-. destruct T as (g' & -> & I & ->). cbn [rdone sel_done flat_map right_of app fst snd].
        destruct PE as [->|(o & r & X & ->)]; [exact MP|]. injection X as <-.
        cbn [sum_over fold_right dense_flow might_add]. rewrite <- (eq_cases g' q) by exact I. pose proof (most_pos u).
        destruct r; destruct (Nat.eqb q k); try lia.
      - injection N as <-. destruct T as [-> ->]. apply CO; [constructor|]. apply (PK 0 0). right. right. left. eauto.
      - destruct (Nat.ltb q card); [|discriminate]. injection N as <-. destruct T as (-> & _ & F & _). apply CO; [now apply FC|]. apply (PK 0 q). auto.
      - injection N as <-. destruct T as (-> & _ & F & _). apply CO; [now apply FC|]. apply (PK 0 0). right. right. left. eauto.
      - injection N as <-. destruct T as (-> & _ & F & _). apply CO; [now apply FC|]. apply (PK 0 q). auto.
      - destruct (Nat.ltb q card); [|discriminate]. injection N as <-. destruct T as (-> & _ & F & _). apply CO; [now apply FN|]. apply (PK 0 q). auto.
      - discriminate.
    Qed.

    Lemma thread_flow : forall s log j, explained_by s log ->
      (sum_over (dense_adds geq add g) (calls_of s j) <= sum_over flow (of_thread j log) <=
       sum_over (dense_adds geq add g) (calls_of s j) +
       match running s j with Some (EUpdate g' u) => if geq g' g then most u else 0 | _ => 0 end)%Z.
    Proof.
      intros s log j E. destruct (tame_history s j) as (A & D & C). pose proof (next_now s j) as G.
      assert (S1 : sum_over flow (rdone (flat_map snd (calls_of s j))) = sum_over (dense_adds geq add g) (calls_of s j)).
      { apply flow_calls. intros call tr I. now apply complete_outcome, (A call tr). }
      assert (REST : forall pend, (pend = [] \/ exists op mic r, t_cur (cells (cfg s) j) = Some (op, mic) /\ pend = [(op, r)]) ->
        (sum_over flow (rdone (cur_trace (history (cfg s) j)) ++ pend) <=
         match running s j with Some (EUpdate g' u) => if geq g' g then most u else 0 | _ => 0 end)%Z).
      { intros pend PE.
        assert (PE' : pend = [] \/ exists op mic r, t_cur (c_th (cfg s) j) = Some (inr op, mic) /\ pend = [(op, r)]).
        { destruct PE as [->|(op & mic & r & CU & ->)]; [now left|]. right. unfold cells, right_thread, sel_thread in CU. cbn [t_cur] in CU.
          destruct (t_cur (c_th (cfg s) j)) as [[[o'|o'] [m'|m']]|]; cbn in CU; try discriminate. injection CU as -> ->. eauto. }
        clear PE. unfold dense_underway, cur_trace, next_op in *.
        destruct (h_cur (history (cfg s) j)) as [[[call st] tr]|] eqn:HC.
        - destruct C as (T & NX & PC). destruct (next st) as [op|] eqn:NE; [|contradiction].
          assert (X : (sum_over flow (rdone tr ++ pend) <= might_add call)%Z).
          { destruct PE' as [->|(o & mic & r & CU & ->)].
            + apply (under_way call st tr op T NE). now left.
            + rewrite CU in G. injection G as ->. apply (under_way call st tr (inr o) T NE). right. eauto. }
          destruct call; exact X.
        - destruct PE' as [->|(o & mic & r & CU & ->)].
          + cbn. destruct (t_cur (c_th (cfg s) j)); [|lia]. destruct (P j (calls_of s j)) as [[g' u| | |]|]; try lia.
            pose proof (most_pos u). destruct (geq g' g); lia.
          + rewrite CU in *. change (h_done (history (cfg s) j)) with (calls_of s j) in G.
            destruct (P j (calls_of s j)) as [[g' u|g'| |]|]; cbn [dense_init dense_next] in G; try discriminate;
              (destruct (Nat.ltb 0 card); [|discriminate]); injection G as <-; cbn; destruct r; lia. }
      assert (DD : exists pend, of_thread j log = rdone (flat_map snd (calls_of s j)) ++ rdone (cur_trace (history (cfg s) j)) ++ pend /\
        (pend = [] \/ exists op mic r, t_cur (cells (cfg s) j) = Some (op, mic) /\ pend = [(op, r)])).
      { pose proof (f_equal (sel_done (@right_of _ _) (@right_of _ _)) D) as DS. rewrite sel_done_app in DS.
        destruct (E j) as [E'|(op & mic & r & CU & E')]; rewrite E'; unfold cells, right_thread, sel_thread; cbn [t_done];
          rewrite DS; unfold rdone.
        - exists []. split; [|now left]. now rewrite app_nil_r.
        - exists [(op, r)]. rewrite <- app_assoc. split; [reflexivity|]. right. eauto. }
      destruct DD as (pend & -> & PE). pose proof (REST pend PE) as S2. rewrite sum_over_app, S1.
      pose proof (sum_pos (rdone (cur_trace (history (cfg s) j)) ++ pend)). lia.
    Qed.
  End Flow.

  (** *** Sums in a collection *)
  Lemma sums_le : forall A (f h : A -> Z) l, (forall x, In x l -> f x <= h x)%Z -> (sum_over f l <= sum_over h l)%Z.
  Proof.
    intros A f h l. induction l as [|x l IH]; intros H; [apply Z.le_refl|]. cbn [sum_over fold_right]. fold (sum_over f l). fold (sum_over h l).
    apply Z.add_le_mono; [apply H; now left|]. apply IH. intros y I. apply H. now right.
  Qed.
  Lemma sum_grows : forall A (f : A -> Z) l l', (forall x, 0 <= f x)%Z -> (sum_over f l <= sum_over f (l ++ l'))%Z.
  Proof.
    intros A f l l' H. rewrite sum_over_app. assert (0 <= sum_over f l')%Z; [|lia]. induction l' as [|x l' IH]; [cbn; lia|].
    cbn [sum_over fold_right]. fold (sum_over f l'). pose proof (H x). lia.
  Qed.

  Section Bracket.
    Variable add : Op -> Res -> Z.
    Variable most : Op -> Z.
    Hypothesis add_read : forall r, add read r = 0%Z.
    Hypothesis add_most : forall u r, (0 <= add u r <= most u)%Z.
    Hypothesis most_pos : forall u, (0 <= most u)%Z.
    Variable s0 s1 : schedule.
    Variable i : nat.
    Variable tr : trace lop lres.
    Variable rest : list (dense_call L Op * trace lop lres).
    Variable n : nat.
    Hypothesis idle : running s0 i = None.
    Hypothesis later : calls_of (s0 ++ s1) i = calls_of s0 i ++ (ECollect, tr) :: rest.
    Hypothesis below : forall j, n <= j -> calls_of (s0 ++ s1) j = [] /\ running (s0 ++ s1) j = None.

    Theorem bracket : forall l g r, dense_result_of ECollect tr = DCollected l -> In (g, r) l -> exists k h pre post a,
      ID g k /\ legal dspec ad_new (pre ++ (i, DUse h k read, DVal r) :: post) a /\
      (dense_sum_finished w m P geq add g n s0 <= sum_over (fun e => dense_flow add k (snd (fst e), snd e)) pre <=
       dense_sum_begun w m P geq add most g n (s0 ++ s1))%Z.
    Proof.
      intros l g r RL I. assert (IL : In (ECollect, tr) (calls_of (s0 ++ s1) i)) by (rewrite later; apply in_or_app; right; now left).
      destruct (collect_facts _ i tr IL) as (F & PK & NM & RD & RE & IDS & SUB). rewrite RE in RL. injection RL as <-.
      assert (X : exists k, In (k, g) (named tr) /\ In (k, r) (reads tr)).
      { clear -I RD. revert RD I. generalize (reads tr). induction (named tr) as [|[q x] d IH]; intros [|[q' v] vs] E I; cbn in *; try contradiction.
        injection E as -> E. destruct I as [I|I]; [injection I as -> ->; eauto|]. destruct (IH vs E I) as (k & A & B). eauto. }
      destruct X as (k & I1 & I2). pose proof (IDS k g I1) as IG. apply in_reads in I2 as (h & I2); [|exact F].
      destruct (call_logs s0 s1 i _ tr rest idle later) as (log0 & more & a & X0 & X1 & LG & SP).
      destruct (SP _ _ I2) as (m' & post & ->). exists k, h, (log0 ++ m'), post, a. rewrite <- app_assoc. split; [exact IG|]. split; [exact LG|].
      set (flow := dense_flow add k).
      assert (FP : forall e : @entry (dense_op Op) (dense_res Res), (0 <= flow (snd (fst e), snd e))%Z) by (intros e; eapply flow_pos; eassumption).
      assert (BE : forall e, In e (log0 ++ m' ++ (i, DUse h k read, DVal r) :: post) -> fst (fst e) < n).
      { intros [[j o] r'] J. cbn. destruct (Nat.lt_ge_cases j n) as [|GE]; [assumption|]. exfalso.
        destruct (below j GE) as [B1 B2]. apply in_of_thread in J. rewrite (idle_log _ _ j X1 B2), B1 in J. exact J. }
      split.
      - eapply Z.le_trans; [|apply (sum_grows _ _ _ _ FP)].
        rewrite (flow_by_thread _ _ flow n) by (intros e J; apply BE, in_or_app; now left).
        unfold dense_sum_finished. apply sums_le. intros j _.
        exact (proj1 (thread_flow add add_read g k IG most add_most most_pos s0 log0 j X0)).
      - apply Z.le_trans with (sum_over (fun e => flow (snd (fst e), snd e)) (log0 ++ m' ++ (i, DUse h k read, DVal r) :: post)).
        + rewrite (app_assoc log0 m'). apply (sum_grows _ _ _ _ FP).
        + rewrite (flow_by_thread _ _ flow n) by exact BE. unfold dense_sum_begun. apply sums_le. intros j _.
          exact (proj2 (thread_flow add add_read g k IG most add_most most_pos (s0 ++ s1) _ j X1)).
    Qed.

    (** *** A collection that begins after another has ended *)
    Section Earlier.
      Variable i0 : nat.
      Variable tr0 : trace lop lres.
      Variable l0 : list (lg_group L * Res).
      Variable g : lg_group L.
      Variable r0 : Res.
      Hypothesis earlier : In (ECollect, tr0) (calls_of s0 i0).
      Hypothesis collected0 : dense_result_of ECollect tr0 = DCollected l0.
      Hypothesis showed : In (g, r0) l0.

      Lemma named_read : forall (x : trace lop lres) r, map fst (reads x) = map fst (named x) -> In (g, r) (combine (map snd (named x)) (map snd (reads x))) ->
        exists k, In (k, g) (named x) /\ In (k, r) (reads x).
      Proof.
        clear. intros x r RD I. revert RD I. generalize (reads x). induction (named x) as [|[q y] d IH]; intros [|[q' v] vs] E I; cbn in *; try contradiction.
        injection E as -> E. destruct I as [I|I]; [injection I as -> ->; eauto|]. destruct (IH vs E I) as (k & A & B). eauto.
      Qed.

      Lemma earlier_read : exists k h0, ID g k /\ forall log0, explained_by s0 log0 -> In (i0, DUse h0 k read, DVal r0) log0.
      Proof.
        clear below most_pos add_most add_read later idle.
        destruct (collect_facts s0 i0 tr0 earlier) as (F & PK & NM & RD & RE & IDS & SUB).
        pose proof collected0 as RL. rewrite RE in RL. injection RL as <-. destruct (named_read tr0 r0 RD showed) as (k & I1 & I2).
        apply in_reads in I2 as (h & I2); [|exact F]. apply SUB in I2. exists k, h. split; [now apply IDS|]. intros log0 X0. apply in_of_thread.
        assert (J : In (DUse h k read, DVal r0) (t_done (cells (cfg s0) i0))) by now apply in_sel_right.
        destruct (X0 i0) as [->|(op & mic & r2 & _ & ->)]; [exact J|]. apply in_or_app. now left.
      Qed.

      Theorem later_read : forall l r, dense_result_of ECollect tr = DCollected l -> In (g, r) l -> exists k h0 h pre mid post a,
        ID g k /\ legal dspec ad_new ((pre ++ (i0, DUse h0 k read, DVal r0) :: mid) ++ (i, DUse h k read, DVal r) :: post) a /\
        (0 <= sum_over (fun e => dense_flow add k (snd (fst e), snd e)) pre <=
           sum_over (fun e => dense_flow add k (snd (fst e), snd e)) (pre ++ (i0, DUse h0 k read, DVal r0) :: mid))%Z /\
        (sum_over (fun e => dense_flow add k (snd (fst e), snd e)) (pre ++ (i0, DUse h0 k read, DVal r0) :: mid) <=
           dense_sum_begun w m P geq add most g n (s0 ++ s1))%Z.
      Proof.
        intros l r RL I. destruct earlier_read as (k0 & h0 & IG0 & SP0).
        assert (IL : In (ECollect, tr) (calls_of (s0 ++ s1) i)) by (rewrite later; apply in_or_app; right; now left).
        destruct (collect_facts _ i tr IL) as (F & PK & NM & RD & RE & IDS & SUB). rewrite RE in RL. injection RL as <-.
        destruct (named_read tr r RD I) as (k & I1 & I2). pose proof (IDS k g I1) as IG. apply in_reads in I2 as (h & I2); [|exact F].
        assert (k = k0) as -> by now apply (ids_agree g k0 g k IG0 IG).
        destruct (call_logs s0 s1 i _ tr rest idle later) as (log0 & more & a & X0 & X1 & LG & SP).
        destruct (SP _ _ I2) as (m' & post & ->). specialize (SP0 log0 X0). apply in_split in SP0 as (pre & mid0 & ->).
        exists k0, h0, h, pre, (mid0 ++ m'), post, a. split; [exact IG|]. set (flow := dense_flow add k0).
        set (e0 := (i0, DUse h0 k0 read, DVal r0)) in *. set (e1 := (i, DUse h k0 read, DVal r)) in *.
        assert (EQ : (pre ++ e0 :: mid0) ++ m' ++ e1 :: post = (pre ++ e0 :: mid0 ++ m') ++ e1 :: post).
        { cbn. repeat rewrite <- app_assoc. cbn. repeat rewrite <- app_assoc. reflexivity. }
        assert (LG' : legal dspec ad_new ((pre ++ e0 :: mid0 ++ m') ++ e1 :: post) a) by (rewrite <- EQ; exact LG).
        assert (X1' : explained_by (s0 ++ s1) ((pre ++ e0 :: mid0 ++ m') ++ e1 :: post)) by (rewrite <- EQ; exact X1).
        split; [exact LG'|].
        assert (FP : forall e : @entry (dense_op Op) (dense_res Res), (0 <= flow (snd (fst e), snd e))%Z) by (intros e; eapply flow_pos; eassumption).
        split; [split|].
        - clear - FP. induction pre as [|e pre IH]; [apply Z.le_refl|]. apply Z.add_nonneg_nonneg; [apply FP|exact IH].
        - apply (sum_grows _ _ _ _ FP).
        - eapply Z.le_trans; [apply (sum_grows _ _ _ (e1 :: post) FP)|]. rewrite (flow_by_thread _ _ flow n).
          + unfold dense_sum_begun. apply sums_le. intros j _.
            exact (proj2 (thread_flow add add_read g k0 IG most add_most most_pos (s0 ++ s1) _ j X1')).
          + intros [[j o] r'] J. cbn. destruct (Nat.lt_ge_cases j n) as [|GE]; [assumption|]. exfalso.
            destruct (below j GE) as [B1 B2]. apply in_of_thread in J. rewrite (idle_log _ _ j X1' B2), B1 in J. exact J.
      Qed.

      Theorem later_shows : exists l r, dense_result_of ECollect tr = DCollected l /\ In (g, r) l.
      Proof.
        clear below most_pos add_most add_read. destruct earlier_read as (k & h0 & IG & SP0).
        assert (IL : In (ECollect, tr) (calls_of (s0 ++ s1) i)) by (rewrite later; apply in_or_app; right; now left).
        destruct (collect_facts _ i tr IL) as (F & PK & NM & RD & RE & IDS & SUB).
        destruct (id_facts g k IG) as (LT & _). destruct (peeked tr k PK LT) as (h & b & PB & PB').
        destruct (call_logs s0 s1 i _ tr rest idle later) as (log0 & more & a & X0 & X1 & LG & SP).
        destruct (SP _ _ PB) as (m' & post & ->). specialize (SP0 log0 X0). rewrite app_assoc in LG.
        pose proof (dlegal_peek spec st_new card _ i h k b post a LG) as B.
        assert (b = true) as ->.
        { rewrite B. apply in_split in SP0 as (pre & mid & ->). clear B. repeat rewrite <- app_assoc in LG. cbn [app] in LG.
          pose proof LG as LG'. apply legal_app in LG' as (a1 & L1 & L2).
          destruct (dlegal_use spec st_new card _ _ _ _ _ _ _ _ LG) as (x & x' & LF & _).
          inversion L2 as [|t0 i1 op r1 a2 log s'' E2 H' EQ2]; subst.
          pose proof (dspec_cell spec st_new card _ _ _ _ _ k E2) as SK. cbn in SK. rewrite Nat.eqb_refl in SK. destruct SK as (y & y' & A1 & _).
          pose proof (legal_cell spec st_new card k _ _ L1) as LC. rewrite A1 in LC. destruct LC as [AK _].
          apply asked_got in AK as (j' & h' & AK). apply (got_asked k _ j' h'). apply in_or_app. left. apply in_or_app. now left. }
        assert (KN : In k (map fst (named tr))) by (rewrite NM; now apply in_trues).
        apply in_map_iff in KN as ([k' g'] & E & KN). cbn in E. subst k'.
        assert (g' = g) as -> by (apply (ids_agree g k g' k IG (IDS k g' KN)); reflexivity).
        exists (combine (map snd (named tr)) (map snd (reads tr))).
        assert (IN : exists r', In (g, r') (combine (map snd (named tr)) (map snd (reads tr)))); [|destruct IN as (r' & IN); eauto].
        clear -KN RD. revert RD KN. generalize (reads tr). induction (named tr) as [|[q x] l IH]; intros [|[q' v] vs] E I; cbn in *; try contradiction; try discriminate.
        destruct I as [I|I]; [injection I as -> ->; eauto|]. destruct (IH vs) as (r' & J); [congruence|exact I|eauto].
      Qed.
    End Earlier.
  End Bracket.
End Calls.
