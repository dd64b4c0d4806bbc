(** Whole calls on a sparse vec come to an end. *)
From Coq Require Import List NArith ZArith Bool Arith Lia.
From Verif Require Import Base FloatModel MetricModel LabelModel LabelSpec ConcModel ConcSpec ConcProofs ConcTheorems ConcVecModel ConcVecSpec ConcVecTheorems
  ConcLabelModel ConcLabelProofs ConcCallModel ConcScript ConcCallSpec ConcCallTheorems ConcProgressSpec ConcProgress ConcCallProgress ConcFinishSpec ConcFinish ConcFinishVec.
Import ListNotations.
Local Open Scope nat_scope.
Local Set Asymmetric Patterns.

(** ** At most [k] calls *)
Section Scripts.
  Context {Call St Op Res : Type}.
  Variable s_init : Call -> St.
  Variable s_next : St -> option Op.
  Variable s_adv : St -> Res -> St.
  Variable k : nat.
  Variable calls : list (Call * trace Op Res) -> option Call.
  (** What holds of the operations of every call holds of all. *)
  Lemma length_bound : forall done h b, good s_init s_next s_adv calls done h -> length (h_done h) + (match h_cur h with Some _ => 1 | None => 0 end) <= k ->
    forall size : trace Op Res -> nat, (forall a b, size (a ++ b) = size a + size b) -> size [] = 0 ->
    (forall call tr st, path s_next s_adv (s_init call) tr st -> (exists l r, done = l ++ tr ++ r) -> size tr <= b) -> size done <= k * b.
  Proof.
    intros done h b [D PA C] L size AP NIL PB.
    assert (H : forall hd tl, (forall call tr, In (call, tr) hd -> exists st, path s_next s_adv (s_init call) tr st) -> (exists l, done = l ++ flat_map snd hd ++ tl) ->
      size (flat_map snd hd) <= length hd * b).
    { induction hd as [|[call tr] hd IH]; intros tl HP (l & HD); [cbn; now rewrite NIL|]. cbn [flat_map snd length] in *. rewrite AP.
      destruct (HP call tr (or_introl eq_refl)) as (st & P1). rewrite <- app_assoc in HD.
      pose proof (PB call tr st P1 (ex_intro _ l (ex_intro _ _ HD))) as B1.
      specialize (IH tl). specialize (IH (fun c t I => HP c t (or_intror I))). rewrite app_assoc in HD. specialize (IH (ex_intro _ _ HD)). lia. }
    rewrite D, AP. specialize (H (h_done h) (cur_trace h)). unfold cur_trace in *.
    assert (H1 : size (flat_map snd (h_done h)) <= length (h_done h) * b).
    { apply H; [intros call tr I; destruct (PA call tr I) as [(st & P1 & _) _]; eauto|exists []; exact D]. }
    destruct (h_cur h) as [[[call st] tr]|].
    - destruct C as (C1 & _). assert (B1 : size tr <= b).
      { eapply PB; [exact C1|]. exists (flat_map snd (h_done h)), []. now rewrite app_nil_r. }
      assert (length (h_done h) + 1 <= k) as L1 by lia. apply (Nat.mul_le_mono_r _ _ b) in L1. lia.
    - rewrite NIL. assert (length (h_done h) <= k) as L1 by lia. apply (Nat.mul_le_mono_r _ _ b) in L1. lia.
  Qed.

  Hypothesis few : forall made, k <= length made -> calls made = None.

  Lemma calls_bound : forall done, let h := history_of s_init s_next s_adv calls done in
    length (h_done h) + (match h_cur h with Some _ => 1 | None => 0 end) <= k.
  Proof.
    induction done as [|d done IH] using rev_ind; [cbn; lia|]. cbn zeta in *. rewrite history_snoc.
    set (h := history_of s_init s_next s_adv calls done) in *. unfold h_step.
    assert (A : forall call st tr, length (h_done h) < k -> length (h_done (after s_next call st tr (h_done h))) +
      match h_cur (after s_next call st tr (h_done h)) with Some _ => 1 | None => 0 end <= k).
    { intros call st tr L. unfold after. destruct (s_next st); cbn [h_done h_cur]; [lia|]. rewrite app_length. cbn. lia. }
    destruct (h_cur h) as [[[call st] tr]|] eqn:C; [apply A; lia|].
    destruct (calls (h_done h)) as [call|] eqn:E; [|rewrite C; lia]. apply A.
    destruct (Nat.lt_ge_cases (length (h_done h)) k) as [L|L]; [exact L|]. rewrite (few _ L) in E. discriminate.
  Qed.
End Scripts.

(** ** The keys of a collection *)
Section Keys.
  Context {Sh1 Op1 Res1 Mic1 K Sh Op Res Mic V : Type}.
  Variable M1 : machine Sh1 Op1 Res1 Mic1.
  Variable sh1 : Sh1.
  Variable keqb : K -> K -> bool.
  Variable shard_of : K -> nat.
  Variable O : machine Sh Op Res Mic.
  Variable sh_new : Sh.
  Variable view : Sh -> V.
  Notation Mv := (sparse_machine (V := V) keqb shard_of O sh_new view).
  Notation thr := (thread (Op1 + vec_op K Op) (Res1 + vec_res K Res V) (Mic1 + vec_mic K Op Res Mic V)).

  Definition is_get (op : Op1 + vec_op K Op) : nat := match op with inr (SGet _ _) => 1 | _ => 0 end.
  Definition gets (l : list ((Op1 + vec_op K Op) * (Res1 + vec_res K Res V))) : nat := list_sum (map (fun d => is_get (fst d)) l).
  Definition past (mic : vec_mic K Op Res Mic V) : nat := match mic with MDown _ _ | MFind _ _ => 1 | _ => 0 end.
  Definition weight (t : thr) : nat := gets (t_done t) + match t_cur t with Some (_, inr mic) => past mic | _ => 0 end.

  Definition mic_fits (op : vec_op K Op) (mic : vec_mic K Op Res Mic V) : Prop :=
    match mic with
    | MGet _ _ | MLook _ _ | MUnread _ _ | MReq _ _ | MWrite _ _ | MIns _ _ | MDown _ _ | MFind _ _ => exists h k, op = SGet h k
    | MRUnwrite _ r => exists v, r = RRemoved v
    | _ => True
    end.

  Lemma begin_fits : forall op, mic_fits op (m_begin Mv op).
  Proof. intros [h k|h k u|h|k|h s]; cbn; eauto. Qed.

  Lemma vec_counts : forall i ch mic c c' x op, mic_fits op mic -> (forall s, length (tab_of s c) <= v_next c) -> vec_step keqb shard_of O sh_new view i ch mic c = Some (c', x) ->
    v_next c <= v_next c' /\
    match x with
    | inl mic' => mic_fits op mic' /\ v_next c' + past mic <= v_next c + past mic'
    | inr r => v_next c' + past mic <= v_next c + is_get (inr op) /\ forall ks, r = RKeys ks -> length ks <= v_next c'
    end.
  Proof.
    intros i ch mic c c' x op F LT H.
    destruct mic as [h k|h k|h k|h k|h k|h k|h k|h k|h k u|s id m|h|k|k|k|s r|h s|h s]; cbn [vec_step mic_fits] in *.
    - destruct F as (h0 & k0 & ->). destruct (held i h c); [|destruct (rw_read i ch (lock_of (shard_of k) c)) as [l|]; [|discriminate]]; injection H as <- <-; cbn.
      + split; [lia|]. split; [lia|discriminate].
      + split; [lia|]. split; [eauto|lia].
    - destruct F as (h0 & k0 & ->). destruct (find_key keqb k (tab_of (shard_of k) c)) as [e|]; injection H as <- <-; cbn.
      + split; [lia|]. split; [lia|discriminate].
      + split; [lia|]. split; [eauto|lia].
    - injection H as <- <-. cbn. split; [lia|]. split; [eauto|lia].
    - injection H as <- <-. cbn. split; [lia|]. split; [eauto|lia].
    - destruct (rw_write i (lock_of (shard_of k) c)) as [l|]; [|discriminate]. injection H as <- <-. cbn. split; [lia|]. split; [eauto|lia].
    - destruct (find_key keqb k (tab_of (shard_of k) c)) as [e|]; injection H as <- <-; cbn; (split; [lia|]; split; [eauto|lia]).
    - injection H as <- <-. cbn. split; [lia|]. split; [eauto|lia].
    - destruct F as (h0 & k0 & ->). destruct (find_key keqb k (tab_of (shard_of k) c)) as [e|]; injection H as <- <-; cbn; (split; [lia|]; split; [lia|discriminate]).
    - destruct (find_guard i h c) as [g|]; [destruct (ref_of keqb k g) as [id|]|]; injection H as <- <-; cbn [past mic_fits];
        (split; [lia|]; split; [exact I || lia|discriminate || lia]).
    - destruct (find_id id (tab_of s c)) as [e|]; [destruct (m_step O i ch m (e_sh e)) as [[sh' [m'|r]]|]; [..|discriminate]|]; injection H as <- <-; cbn [past mic_fits];
        (split; [cbn; lia|]; split; [exact I || (cbn; lia)|discriminate || (cbn; lia)]).
    - destruct (find_guard i h c) as [g|]; injection H as <- <-; cbn [past]; (split; [cbn; lia|]; split; [cbn; lia|discriminate]).
    - injection H as <- <-. cbn. split; [lia|]. split; [exact I|lia].
    - destruct (rw_write i (lock_of (shard_of k) c)) as [l|]; [|discriminate]. injection H as <- <-. cbn. split; [lia|]. split; [exact I|lia].
    - destruct (find_key keqb k (tab_of (shard_of k) c)) as [e|]; injection H as <- <-; cbn; (split; [lia|]; split; [eauto|lia]).
    - destruct F as (v & ->). injection H as <- <-. cbn. split; [lia|]. split; [lia|discriminate].
    - destruct (held i h c); [|destruct (rw_read i ch (lock_of s c)) as [l|]; [|discriminate]]; injection H as <- <-; cbn.
      + split; [lia|]. split; [lia|discriminate].
      + split; [lia|]. split; [exact I|lia].
    - injection H as <- <-. cbn [v_next add_guard set_guards past]. split; [lia|]. split; [lia|]. intros ks E. injection E as <-. rewrite map_length. apply LT.
  Qed.

  Lemma gets_snoc : forall l d, gets (l ++ [d]) = gets l + is_get (fst d).
  Proof. intros l d. unfold gets. rewrite map_app, list_sum_app. cbn. now rewrite Nat.add_0_r. Qed.

  Variable prog : program (Op1 + vec_op K Op) (Res1 + vec_res K Res V).
  Variable n : nat.
  Hypothesis few : forall i, n <= i -> prog i [] = None.
  Notation cfg s := (run (both M1 Mv) prog s (start_config (sh1, sv_new))).
  Notation next c := (v_next (snd (c_sh c))).
  Hypothesis rows : forall s sh, length (tab_of sh (snd (c_sh (cfg s)))) <= next (cfg s).

  Record counted (c : config (Sh1 * svec K Sh) (Op1 + vec_op K Op) (Res1 + vec_res K Res V) (Mic1 + vec_mic K Op Res Mic V)) : Prop := {
    ct_fit : forall i op mic, t_cur (c_th c i) = Some (op, mic) -> match op, mic with inr o, inr m => mic_fits o m | inl _, inl _ => True | _, _ => False end;
    ct_few : forall i, n <= i -> t_cur (c_th c i) = None /\ t_done (c_th c i) = [];
    ct_sum : next c <= list_sum (map (fun i => weight (c_th c i)) (seq 0 n));
    ct_keys : forall i op ks, In (op, inr (RKeys ks)) (t_done (c_th c i)) -> length ks <= next c
  }.

  Lemma run_counted : forall s, counted (cfg s).
  Proof.
    induction s as [|[i ch] s [FI FE SU KE]] using rev_ind.
    - split; cbn; try discriminate; try lia; auto.
    - pose proof (rows s) as rows_s. rewrite run_split. set (c := cfg s) in *. cbn [run]. unfold step.
      assert (LT : t_cur (c_th c i) <> None \/ prog i (t_done (c_th c i)) <> None -> i < n).
      { intros H. destruct (Nat.lt_ge_cases i n) as [|GE]; [assumption|]. destruct (FE i GE) as [F1 F2]. rewrite F1, F2, (few i GE) in H.
        destruct H; contradiction. }
      assert (CH : forall sh' t, i < n -> (forall op mic, t_cur t = Some (op, mic) -> match op, mic with inr o, inr m => mic_fits o m | inl _, inl _ => True | _, _ => False end) ->
        next c <= v_next (snd sh') -> weight (c_th c i) + (v_next (snd sh') - next c) <= weight t ->
        (forall op ks, In (op, inr (RKeys ks)) (t_done t) -> length ks <= v_next (snd sh')) -> counted {| c_sh := sh'; c_th := upd (c_th c) i t |}).
      { intros sh' t L F N W KS. split; cbn [c_th c_sh].
        - intros j op mic. destruct (Nat.eq_dec j i) as [->|NE]; [rewrite upd_same; apply F|rewrite upd_other by exact NE; apply FI].
        - intros j GE. rewrite upd_other by lia. now apply FE.
        - pose proof (sum_change (fun j => weight (c_th c j)) (fun j => weight (upd (c_th c) i t j)) (seq 0 n) i 0 (v_next (snd sh') - next c) 0 (seq_NoDup _ _)) as S.
          rewrite in_seq in S. specialize (S ltac:(lia)). rewrite upd_same in S.
          enough (E : forall j, j <> i -> weight (c_th c j) <= weight (upd (c_th c) i t j) + 0) by (specialize (S E ltac:(lia)); lia).
          intros j NE. rewrite upd_other by exact NE. lia.
        - intros j op ks. destruct (Nat.eq_dec j i) as [->|NE]; [rewrite upd_same; apply KS|rewrite upd_other by exact NE; intros H; apply KE in H; lia]. }
      destruct (t_cur (c_th c i)) as [[op mic]|] eqn:CUR.
      + specialize (LT ltac:(left; discriminate)). pose proof (FI i op mic CUR) as F.
        destruct op as [op|op], mic as [mic|mic]; try contradiction; cbn [m_step both both_step].
        * destruct (m_step M1 i ch mic (fst (c_sh c))) as [[sh' [mic'|r]]|]; [..|split; assumption]; apply CH; cbn [snd t_cur t_done]; try exact LT; try lia.
          -- intros ? ? E. injection E as <- <-. exact I.
          -- unfold weight. cbn [t_cur t_done]. rewrite CUR. lia.
          -- intros o ks H. apply (KE i o ks H).
          -- discriminate.
          -- unfold weight. cbn [t_cur t_done]. rewrite CUR, gets_snoc. cbn. lia.
          -- intros o ks H. apply in_app_or in H as [H|[H|[]]]; [apply (KE i o ks H)|discriminate].
        * destruct (vec_step keqb shard_of O sh_new view i ch mic (snd (c_sh c))) as [[sh' x]|] eqn:ST; cbn [m_step sparse_machine]; rewrite ST; [|split; assumption].
          pose proof (vec_counts _ _ _ _ _ _ _ F rows_s ST) as [N X]. destruct x as [mic'|r]; apply CH; cbn [snd t_cur t_done]; try exact LT; try exact N.
          -- intros ? ? E. injection E as <- <-. apply X.
          -- unfold weight. cbn [t_cur t_done]. rewrite CUR. lia.
          -- intros o ks H. apply KE in H. lia.
          -- discriminate.
          -- unfold weight. cbn [t_cur t_done]. rewrite CUR, gets_snoc. cbn [fst]. lia.
          -- intros o ks H. apply in_app_or in H as [H|[H|[]]]; [apply KE in H; lia|]. injection H as <- ->. now apply X.
      + destruct (prog i (t_done (c_th c i))) as [op|] eqn:PR; [|split; assumption].
        specialize (LT ltac:(right; discriminate)). apply CH; cbn [t_cur t_done]; try exact LT; try lia.
        * intros ? ? E. injection E as <- <-. destruct op as [op|op]; [exact I|apply begin_fits].
        * unfold weight. cbn [t_cur t_done]. rewrite CUR. destruct op as [op|[]]; cbn; lia.
        * intros o ks H. apply (KE i o ks H).
  Qed.

  Variable g : nat.
  Hypothesis few_gets : forall s i, gets (t_done (c_th (cfg s) i)) <= g.

  Lemma keys_bound : forall s i op ks, In (op, inr (RKeys ks)) (t_done (c_th (cfg s) i)) -> length ks <= n * (g + 1).
  Proof.
    intros s i op ks H. destruct (run_counted s) as [_ _ SU KE]. apply KE in H.
    assert (B : list_sum (map (fun i => weight (c_th (cfg s) i)) (seq 0 n)) <= length (seq 0 n) * (g + 1)).
    { apply sum_bound. intros j _. unfold weight. pose proof (few_gets s j). destruct (t_cur (c_th (cfg s) j)) as [[o [m|m]]|]; [lia| |lia].
      destruct m; cbn [past]; lia. }
    rewrite seq_length in B. lia.
  Qed.
End Keys.

(** ** Sparse vecs *)
Section Calls.
  Context {Sh Op Res Mic V : Type}.
  Variable w : setup.
  Variable m : metric_code Sh Op Res Mic V.
  Variable bad : nat -> Mic -> Sh -> bool.
  Notation lop := (label_op + vec_op unique Op)%type.
  Notation lres := (label_res + vec_res unique Res V)%type.
  Variable P : nat -> list (vec_call Op * trace lop lres) -> option (vec_call Op).
  Variable n k : nat.
  Hypothesis brief : brief_metric (mc_machine m) (mc_new m) bad.
  Hypothesis bounded : bounded_calls n k P.
  Notation Ml := (label_machine (su_build w) (su_fields w) (su_loc w) (su_accepts w)).
  Notation Mv := (sparse_machine (V := V) unique_eqb (su_shard_of w) (mc_machine m) (mc_new m) (mc_view m)).
  Notation next := (call_next (su_shards w) (mc_read m)).
  Notation prog := (calling (V := V) (Res := Res) (su_shards w) (mc_read m) P).
  Notation cfg s := (run (both Ml Mv) prog s (start_config (su_strings w, sv_new))).
  Notation lpath call tr st := (path next (call_adv (V := V)) (call_init call) tr st).

  Lemma few_threads : forall i, n <= i -> prog i [] = None.
  Proof. intros i L. unfold calling, follow. cbn. now rewrite (proj1 bounded i L). Qed.

  Lemma path_gets : forall call (tr : trace lop lres) st, lpath call tr st -> match st with TLook _ _ | TGet _ _ => gets tr = 0 | _ => gets tr <= 1 end.
  Proof.
    intros call tr st H. induction H as [|tr st op r H IH N]; [destruct call; cbn; lia|]. rewrite gets_snoc. cbn [fst].
    destruct st as [g u|q u|q u| |g|q|s|s [|q ks]|s q ks|s|s|]; cbn [call_next] in N; try discriminate;
      try (destruct (Nat.ltb s (su_shards w)); [|discriminate]); injection N as <-; cbn [is_get] in *;
      destruct r as [[[r|]|r|r|]|[|ks'|r|r| | |]]; cbn [call_adv]; lia.
  Qed.

  Definition width (b : nat) : nat := 2 + 2 * b.
  Lemma path_length : forall b call (tr : trace lop lres) st, lpath call tr st -> (forall op ks, In (op, inr (RKeys ks)) tr -> length ks <= b) ->
    length tr <= 4 + su_shards w * width b /\
    match st with
    | TLook _ _ | TFind _ => length tr = 0
    | TGet _ _ | TRemove _ => length tr = 1
    | TUse _ _ => length tr = 2
    | TDrop => length tr = 3
    | TShard s | TLen s => s <= su_shards w /\ length tr <= s * width b
    | TKeys s ks => s < su_shards w /\ length tr + 2 * length ks + 1 <= S s * width b
    | TRead s _ ks => s < su_shards w /\ length tr + 2 * length ks + 2 <= S s * width b
    | TClose s => s < su_shards w /\ length tr + 1 <= S s * width b
    | TEnd => True
    end.
  Proof.
    intros b call tr st H. induction H as [|tr st op r H IH N]; intros KB; [destruct call; cbn; lia|].
    destruct IH as [IH0 IH]; [intros o ks I; eapply KB, in_or_app; left; exact I|]. rewrite app_length. cbn [length].
    assert (UP : forall s, s < su_shards w -> S s * width b <= su_shards w * width b) by (intros s L; apply Nat.mul_le_mono_r; lia).
    destruct st as [g u|q u|q u| |g|q|s|s [|q ks]|s q ks|s|s|]; cbn [call_next] in N; try discriminate;
      try (destruct (Nat.ltb_spec s (su_shards w)) as [LS|]; [|discriminate]); injection N as <-; cbn [length] in *;
      try specialize (UP s).
    1,2,3,4,5,6: destruct r as [[[r|]|r|r|]|[|ks'|r|r| | |]]; cbn [call_adv]; lia.
    - assert (KL : forall ks, r = inr (RKeys ks) -> length ks <= b) by (intros ks ->; eapply KB, in_or_app; right; left; reflexivity).
      destruct r as [[[r|]|r|r|]|[|ks'|r|r| | |]]; cbn [call_adv]; try (unfold width in *; lia). specialize (KL _ eq_refl). unfold width in *. lia.
    - destruct r as [[[r|]|r|r|]|[|ks'|r|r| | |]]; cbn [call_adv]; unfold width in *; lia.
    - destruct r as [[[r|]|r|r|]|[|ks'|r|r| | |]]; cbn [call_adv]; unfold width in *; lia.
    - destruct r as [[[r|]|r|r|]|[|ks'|r|r| | |]]; cbn [call_adv]; unfold width in *; lia.
    - destruct r as [[[r|]|r|r|]|[|ks'|r|r| | |]]; cbn [call_adv]; unfold width in *; lia.
    - destruct r as [[[r|]|r|r|]|[|ks'|r|r| | |]]; cbn [call_adv]; unfold width in *; lia.
  Qed.

  Lemma thread_good : forall s i, let h := history_of call_init next (call_adv (V := V)) (P i) (t_done (c_th (cfg s) i)) in
    good call_init next (call_adv (V := V)) (P i) (t_done (c_th (cfg s) i)) h /\
    length (h_done h) + (match h_cur h with Some _ => 1 | None => 0 end) <= k.
  Proof.
    intros s i h. split; [apply (run_good call_init next (call_adv (V := V)) (both Ml Mv) (su_strings w, sv_new) P s i)|].
    apply calls_bound. exact (proj2 bounded i).
  Qed.

  Lemma few_gets : forall s i, gets (t_done (c_th (cfg s) i)) <= k * 1.
  Proof.
    intros s i. destruct (thread_good s i) as [G L]. eapply length_bound; [exact G|exact L| |reflexivity|].
    - intros a b. unfold gets. now rewrite map_app, list_sum_app.
    - intros call tr st H _. apply path_gets in H. destruct st; lia.
  Qed.

  Section Ranks.
    Variable most : nat.
    Variable rank : Mic -> Sh -> nat.
    Variable inv : Sh -> Prop.
    Hypothesis rk : ranked (mc_machine m) (mc_new m) bad n most rank inv.

    Lemma all_ranked : ranked_on (both Ml Mv) (su_strings w, sv_new) (right_spurious (sparse_spurious bad)) n
      ((2 + length (dynamics (su_fields w))) + (9 + most)) (both_rank (label_rank (length (dynamics (su_fields w)))) (vec_rank most rank))
      (fun sh => True /\ vec_inv inv (snd sh)) (both_valid (label_valid (length (dynamics (su_fields w)))) (fun _ => True)).
    Proof.
      eapply (both_ranked Ml Mv (su_strings w) sv_new (sparse_spurious bad) n _ _ _ _ (fun _ => True) (vec_inv inv)); [apply label_ranked|].
      apply vec_ranked. exact rk.
    Qed.

    Definition most_ops : nat := k * (4 + su_shards w * width (n * (k * 1 + 1))).
    Lemma ops_bound : forall s i, length (t_done (c_th (cfg s) i)) <= most_ops.
    Proof.
      intros s i. destruct (thread_good s i) as [G L]. eapply (length_bound _ _ _ _ _ _ _ _ G L (@length _)); [apply app_length|reflexivity|].
      intros call tr st H (a & b & D). eapply path_length in H; [apply H|]. intros op ks I.
      eapply (keys_bound Ml (su_strings w) unique_eqb (su_shard_of w) (mc_machine m) (mc_new m) (mc_view m) prog n few_threads) with (s := s) (i := i) (op := op).
      - intros s' x. apply (rows_next inv). destruct (steps_gone _ _ _ _ _ _ _ _ all_ranked prog few_threads s' _ (ok_start _ _ _ _ _ _ _ _ all_ranked)) as [[[_ OK] _ _] _].
        exact OK.
      - exact few_gets.
      - rewrite D. apply in_or_app. right. apply in_or_app. now left.
    Qed.
  End Ranks.

  Lemma sparse_work_bounded : exists a c, forall s, sparse_work w m P s <= a + c * sparse_failures w m P bad s.
  Proof.
    destruct (brief n) as (most & rank & inv & rk). eexists _, _. intros s.
    eapply work_bounded; [exact (all_ranked most rank inv rk)|exact few_threads|].
    intros s' i _. exact (ops_bound most rank inv rk s' i).
  Qed.

  Lemma sparse_finishes : deadlock_free (both Ml Mv) (su_strings w, sv_new) prog -> 0 < su_shards w ->
    forall f, fair n f -> (exists r, forall t, sparse_failures w m P bad (up_to f t) <= r) ->
    exists t0, forall t, t0 <= t -> sparse_over w m P (up_to f t).
  Proof.
    intros DF SH f FA RT. destruct (brief n) as (most & rank & inv & rk).
    destruct (all_finish _ _ _ _ _ _ _ _ (all_ranked most rank inv rk) prog few_threads _ (fun s' i _ => ops_bound most rank inv rk s' i) DF f FA RT) as (T & HT).
    exists T. intros t L i. specialize (HT t L i).
    pose proof (thread_good (up_to f t) i) as [[_ _ C] _]. unfold call_underway, underway, finished_calls, made.
    unfold active in HT. unfold calling, follow in HT.
    change (at_time (su_build w) (su_fields w) (su_loc w) (su_accepts w) (su_shard_of w) (mc_machine m) (mc_new m) (mc_view m) (su_shards w) (mc_read m) P
      (su_strings w) (up_to f t)) with (cfg (up_to f t)).
    unfold calling, follow in C |- *.
    match goal with |- context [history_of ?a ?b ?c ?d ?e] => remember (history_of a b c d e) as h eqn:EH end.
    match type of HT with context [t_cur ?x] => destruct (t_cur x) as [p|]; [exfalso; apply HT; left; discriminate|] end.
    destruct (h_cur h) as [[[call st] tr]|]; [exfalso; apply HT; right; apply C|].
    split; [reflexivity|]. destruct (P i (h_done h)) as [call|]; [|reflexivity]. exfalso. apply HT. right.
    destruct call; cbn [call_init call_next]; try discriminate; destruct (Nat.ltb_spec 0 (su_shards w)); discriminate || lia.
  Qed.
End Calls.

Theorem sparse_all_finish : forall Sh Op Res Mic V St w (m : metric_code Sh Op Res Mic V) spec (st_new : St) aview bad (P : call_program Op Res V) n k f,
  setup_ok w -> 0 < su_shards w -> calls_shaped (su_fields w) P -> lively_metric (mc_machine m) (mc_new m) (mc_view m) spec st_new aview ->
  brief_metric (mc_machine m) (mc_new m) bad -> bounded_calls n k P ->
  fair n f -> (exists r, forall t, sparse_failures w m P bad (up_to f t) <= r) ->
  exists t0, forall t, t0 <= t -> sparse_over w m P (up_to f t).
Proof.
  intros Sh Op Res Mic V St w m spec st_new aview bad P n k f SU SH CS LV BR BC FA RT.
  eapply sparse_finishes; try eassumption. eapply sparse_calls_free; eassumption.
Qed.

(** Machines without spurious failures. *)
Lemma never_fails : forall Sh Op Res Mic V w (m : metric_code Sh Op Res Mic V) (P : call_program Op Res V) s, sparse_failures w m P never s = 0.
Proof.
  intros Sh Op Res Mic V w m P s. unfold sparse_failures.
  match goal with |- count_steps _ _ _ s ?c = 0 => generalize c end.
  induction s as [|ic s IH]; intros c; [reflexivity|]. cbn [count_steps]. rewrite IH. unfold fails.
  destruct (t_cur (c_th c (fst ic))) as [[op [mic|mic]]|]; [reflexivity| |reflexivity].
  cbn [right_spurious]. unfold sparse_spurious. destruct mic as [| | | | | | | | |x id y| | | | | | |]; try reflexivity. destruct (find_id id (tab_of x (snd (c_sh c)))); reflexivity.
Qed.
