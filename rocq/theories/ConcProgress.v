(** Deadlocks: proofs (C55). *)
From Coq Require Import List NArith ZArith Bool Arith Lia.
From Verif Require Import Base FloatModel MetricModel ConcModel ConcSpec ConcProofs ConcHist ConcTheorems ConcLock
  ConcVecModel ConcVecSpec ConcVec ConcVecTheorems ConcDenseModel ConcDenseSpec ConcDense ConcDenseTheorems ConcProgressSpec.
Import ListNotations.
Local Open Scope nat_scope.

(** The invariant together with the log. *)
Lemma object_invariant_log : forall Sh Op Res Mic St (M : machine Sh Op Res Mic) spec lin inv sh0 (st0 : St) rep prog s,
  object_ok M spec lin inv sh0 st0 rep -> let c := run M prog s (start_config sh0) in
  exists (g : nat -> option Res) st log,
    inv (c_sh c) (fun i => match t_cur (c_th c i) with Some (op, mic) => Some (op, mic, g i) | None => None end) st /\
    legal spec st0 log st /\
    forall i, of_thread i log = t_done (c_th c i) ++ match t_cur (c_th c i), g i with Some (op, _), Some r => [(op, r)] | _, _ => [] end.
Proof.
  intros Sh Op Res Mic St M spec lin inv sh0 st0 rep prog s OK c.
  destruct (grun_inv M spec lin inv sh0 st0 rep prog OK s) as [GL GI GD _].
  pose proof (grun_c M spec lin prog s (gstart sh0 st0)) as C. cbn [gstart g_c] in C. change (run M prog s (start_config sh0)) with c in C.
  unfold pend in GI. unfold taken in GD. rewrite C in *. eauto 8.
Qed.

(** Every call was the one the program asked for. *)
Lemma done_asked : forall Sh Op Res Mic (M : machine Sh Op Res Mic) prog s sh0, let c := run M prog s (start_config sh0) in
  (forall i pre op r post, t_done (c_th c i) = pre ++ (op, r) :: post -> prog i pre = Some op) /\
  (forall i op mic, t_cur (c_th c i) = Some (op, mic) -> prog i (t_done (c_th c i)) = Some op).
Proof.
  intros Sh Op Res Mic M prog s sh0. induction s as [|[i ch] s IH] using rev_ind; cbn zeta in *.
  - split; cbn; [intros i [|] ? ? ? H; discriminate|discriminate].
  - rewrite run_app. cbn [run]. revert IH. generalize (run M prog s (start_config sh0)). intros c [A B].
    unfold step. destruct (t_cur (c_th c i)) as [[op mic]|] eqn:TC.
    + destruct (m_step M i ch mic (c_sh c)) as [[sh' [mic'|r]]|]; [| |auto]; cbn [c_th].
      * split; intros j; (destruct (Nat.eq_dec j i) as [->|NE]; [rewrite upd_same|rewrite upd_other by exact NE; eauto]); cbn [t_done t_cur].
        -- apply A.
        -- intros op' m' E. inversion E; subst. eapply B. exact TC.
      * split; intros j; (destruct (Nat.eq_dec j i) as [->|NE]; [rewrite upd_same|rewrite upd_other by exact NE; eauto]); cbn [t_done t_cur]; [|discriminate].
        intros pre op' r' post E. destruct (@exists_last _ ((op', r') :: post)) as (l & x & EL); [discriminate|].
        rewrite EL, app_assoc in E. apply app_inj_tail in E as [E <-]. destruct l as [|y l].
        -- cbn in EL. inversion EL; subst. rewrite app_nil_r in E. rewrite <- E. eapply B. exact TC.
        -- cbn in EL. inversion EL; subst. eapply A. exact E.
    + destruct (prog i (t_done (c_th c i))) as [op|] eqn:PR; [|auto]. cbn [c_th].
      split; intros j; (destruct (Nat.eq_dec j i) as [->|NE]; [rewrite upd_same|rewrite upd_other by exact NE; eauto]); cbn [t_done t_cur].
      * apply A.
      * intros op' m' E. inversion E; subst. exact PR.
Qed.

(* ------------------------------------------------------------------ *)
(** ** Metrics *)

Lemma lively_good : forall Sh Op Res Mic V St (O : machine Sh Op Res Mic) sh_new (view : Sh -> V) spec (st_new : St) aview,
  lively_metric O sh_new view spec st_new aview -> good_metric O sh_new view spec st_new aview.
Proof. intros Sh Op Res Mic V St O sh_new view spec st_new aview (lin & inv & rep & OK & RV & _). exists lin, inv, rep. auto. Qed.

Lemma atomic_lively : forall St Op Res (eff : Op -> St -> St * Res) v,
  lively_metric (atomic_machine eff) v (fun v => v) (pure_spec eff) v (fun v => v).
Proof.
  intros St Op Res eff v. do 3 eexists. split; [apply atomic_ok|]. split; [intros sh st E; exact E|].
  intros sh P st i [[op mic] g] I PI. exists i, op, mic, g. split; [exact PI|]. intros ch. cbn. destruct (eff mic sh). discriminate.
Qed.

Lemma float_lively : forall v, lively_metric float_machine v (fun v => v) float_spec v (fun v => v).
Proof.
  intros v. do 3 eexists. split; [apply float_ok|]. split; [intros sh st E; exact E|].
  intros sh P st i [[op mic] g] I PI. exists i, op, mic, g. split; [exact PI|]. intros ch.
  destruct mic; cbn; try discriminate. destruct (_ && _)%bool; discriminate.
Qed.

Lemma hist_goes_on : forall i ch mic c, h_reading (Some (HSample, mic, None)) = true \/ h_writing (Some (HSample, mic, None)) = true ->
  hist_step i ch mic c <> None.
Proof.
  intros i ch mic c H. destruct mic as [b x|b x|x|x cur|r| | |k acc|bs|bs inf|r]; cbn in *; try (destruct H; discriminate); try discriminate.
  - match goal with |- context [if ?x then _ else _] => destruct x end; [|discriminate].
    match goal with |- context [if ?x then _ else _] => destruct x end; discriminate.
  - match goal with |- context [if ?x then _ else _] => destruct x end; discriminate.
  - match goal with |- context [match ?x with Some _ => _ | None => _ end] => destruct x end; discriminate.
Qed.

Lemma hist_lively : forall n, lively_metric hist_machine {| ch_lock := rw_free; ch_state := hist_new n |} (fun c => hist_view (ch_state c))
  hist_spec (hist_new n) hist_view.
Proof.
  intros n. do 3 eexists. split; [apply hist_ok|]. split; [intros sh st [-> _]; reflexivity|].
  intros c P st i [[op mic] g] I PI.
  assert (RD : forall j, In j (rw_readers (ch_lock c)) -> exists op mic g, P j = Some (op, mic, g) /\ forall ch, hist_step j ch mic c <> None).
  { intros j J. apply (hi_readers _ _ _ I) in J. destruct (P j) as [[[op' mic'] g']|]; [|discriminate].
    exists op', mic', g'. split; [reflexivity|]. intros ch. apply hist_goes_on. left. destruct mic'; exact J. }
  assert (WR : forall j, rw_writer (ch_lock c) = Some j -> exists op mic g, P j = Some (op, mic, g) /\ forall ch, hist_step j ch mic c <> None).
  { intros j J. apply (hi_writer _ _ _ I) in J. destruct (P j) as [[[op' mic'] g']|]; [|discriminate].
    exists op', mic', g'. split; [reflexivity|]. intros ch. apply hist_goes_on. right. destruct mic'; exact J. }
  destruct (rw_writer (ch_lock c)) as [w|] eqn:EW; [exists w; now apply WR|].
  destruct (rw_readers (ch_lock c)) as [|j rs] eqn:ER; [|exists j; apply RD; now left].
  destruct (rw_wait (ch_lock c)) as [|w ws] eqn:WW.
  - (* nobody has the lock or waits for it *)
    exists i, op, mic, g. split; [exact PI|]. intros ch. cbn [m_step hist_machine].
    destruct mic; try (apply hist_goes_on; cbn; auto; fail); cbn; try discriminate.
    + unfold rw_read. rewrite EW, WW. destruct ch; discriminate.
    + unfold rw_write. rewrite EW, ER. discriminate.
  - assert (J : In w (rw_wait (ch_lock c))) by (rewrite WW; now left). apply (hi_waiters _ _ _ I) in J.
    destruct (P w) as [[[op' mic'] g']|] eqn:PW; [|discriminate]. exists w, op', mic', g'. split; [exact PW|]. intros ch.
    destruct mic'; try discriminate. cbn. unfold rw_write. rewrite EW, ER. discriminate.
Qed.

(** A metric by itself. *)
Theorem metric_deadlock_free : forall Sh Op Res Mic V St (O : machine Sh Op Res Mic) sh_new (view : Sh -> V) spec (st_new : St) aview,
  lively_metric O sh_new view spec st_new aview -> forall prog, deadlock_free O sh_new prog.
Proof.
  intros Sh Op Res Mic V St O sh_new view spec st_new aview (lin & inv & rep & OK & _ & LV) prog s c (i & A).
  destruct (object_invariant _ _ _ _ _ _ _ prog s OK) as (g & st & I). cbn zeta in I. change (run O prog s (start_config sh_new)) with c in I.
  destruct (t_cur (c_th c i)) as [[op mic]|] eqn:TC.
  - destruct (LV _ _ _ i (op, mic, g i) I) as (j & op' & mic' & g' & PJ & EN); [now rewrite TC|].
    destruct (t_cur (c_th c j)) as [[op1 mic1]|] eqn:TJ; [|discriminate]. inversion PJ; subst. exists j. split.
    + left. congruence.
    + intros ch. unfold enabled. rewrite TJ. apply EN.
  - exists i. split; [exact A|]. intros ch. unfold enabled. rewrite TC. destruct A as [A|A]; [congruence|exact A].
Qed.

(* ------------------------------------------------------------------ *)
(** ** Dense vecs *)

Theorem dense_deadlock_free : forall Sh Op Res Mic V St (O : machine Sh Op Res Mic) sh_new (view : Sh -> V) spec (st_new : St) aview,
  lively_metric O sh_new view spec st_new aview -> forall card prog, deadlock_free (dense_machine O sh_new card) dv_new prog.
Proof.
  intros Sh Op Res Mic V St O sh_new view spec st_new aview (lin & inv & rep & OK & _ & LV) card prog s c (i & A).
  destruct (object_invariant _ _ _ _ _ _ _ prog s (dense_ok O sh_new card spec st_new lin inv rep OK)) as (g & st & I). cbn zeta in I.
  change (run (dense_machine O sh_new card) prog s (start_config dv_new)) with c in I.
  destruct (t_cur (c_th c i)) as [[op mic]|] eqn:TC.
  2:{ exists i. split; [exact A|]. intros ch. unfold enabled. rewrite TC. destruct A as [A|A]; [congruence|exact A]. }
  assert (GO : (forall ch, dense_step O sh_new card i ch mic (c_sh c) <> None) -> exists j, active prog c j /\ forall ch, enabled (dense_machine O sh_new card) prog ch c j).
  { intros EN. exists i. split; [exact A|]. intros ch. unfold enabled. rewrite TC. apply EN. }
  destruct mic as [h k|h k|h k|h k|h k|h k u|k n m].
  - apply GO. intros ch. cbn [dense_step]. destruct (k <? card); [destruct (d_cells (c_sh c) k)|]; discriminate.
  - destruct (d_cells (c_sh c) k) as [|j|n sh] eqn:CK.
    + apply GO. intros ch. cbn [dense_step]. rewrite CK. discriminate.
    + (* the one that initialises can go on *)
      apply (di_busy _ _ _ _ _ I) in CK. destruct (t_cur (c_th c j)) as [[op' mic']|] eqn:TJ; [|discriminate].
      exists j. split; [left; congruence|]. intros ch. unfold enabled. rewrite TJ. destruct mic'; try discriminate.
    + apply GO. intros ch. cbn [dense_step]. rewrite CK. discriminate.
  - apply GO. discriminate.
  - apply GO. intros ch. cbn [dense_step]. destruct (d_cells (c_sh c) k); discriminate.
  - apply GO. intros ch. cbn [dense_step]. destruct (k <? card); [destruct (d_cells (c_sh c) k)|]; discriminate.
  - apply GO. intros ch. cbn [dense_step]. destruct (d_env (c_sh c) i h) as [[k' n]|]; [destruct (Nat.eqb k' k)|]; discriminate.
  - pose proof (di_at _ _ _ _ _ I i) as AT. cbv beta in AT. rewrite TC in AT. cbn in AT. destruct AT as (h & u & -> & _ & DE).
    destruct (di_refs _ _ _ _ _ I _ _ _ _ DE) as [sh CK]. pose proof (di_cells _ _ _ _ _ I k) as CO. rewrite CK in CO. destruct CO as (x & _ & CI).
    destruct (LV _ _ _ i (u, m, dinner (g i)) CI) as (j & op' & mic' & g' & PJ & EN).
    { unfold dpend_in. cbv beta. rewrite TC. cbn. now rewrite Nat.eqb_refl. }
    unfold dpend_in in PJ. destruct (t_cur (c_th c j)) as [[op1 mic1]|] eqn:TJ; [|discriminate].
    destruct op1 as [| |h1 k1 u1]; try discriminate. destruct mic1 as [| | | | | |k2 n2 m2]; try discriminate. cbn in PJ.
    destruct (Nat.eqb_spec k2 k) as [->|]; [|discriminate]. inversion PJ; subst.
    exists j. split; [left; congruence|]. intros ch. unfold enabled. rewrite TJ. cbn [m_step dense_machine dense_step]. rewrite CK.
    destruct (Nat.eqb n n2); [|discriminate]. specialize (EN ch). destruct (m_step O j ch mic' sh) as [[sh' [m'|r]]|]; congruence.
Qed.

(* ------------------------------------------------------------------ *)
(** ** Sparse vecs *)

Section Sparse.
  Context {K Sh Op Res Mic V St : Type}.
  Variable keqb : K -> K -> bool.
  Hypothesis keqb_eq : forall x y, keqb x y = true <-> x = y.
  Variable shard_of : K -> nat.
  Variable O : machine Sh Op Res Mic.
  Variable sh_new : Sh.
  Variable view : Sh -> V.
  Variable spec : nat -> Op -> St -> option (St * Res).
  Variable st_new : St.
  Variable aview : St -> V.
  Notation M := (sparse_machine keqb shard_of O sh_new view).
  Notation vspec := (vec_spec keqb shard_of spec st_new aview).
  Notation vop := (vec_op K Op).
  Notation vres := (vec_res K Res V).

  (** The handles of a thread. *)
  Definition ahandles (i : nat) (gs : list (@aguard K)) : list nat :=
    map (fun g => let '(_, h, _, _) := g in h) (filter (fun g => let '(i', _, _, _) := g in Nat.eqb i' i) gs).

  Lemma ahandles_drop : forall i h gs, ahandles i (filter (fun g => negb (ag_is i h g)) gs) = filter (fun h' => negb (Nat.eqb h' h)) (ahandles i gs).
  Proof.
    intros i h gs. unfold ahandles. induction gs as [|[[[i' h'] s] ks] gs IH]; cbn; [reflexivity|].
    destruct (Nat.eqb_spec i' i) as [->|]; cbn; [destruct (Nat.eqb h' h); cbn; [exact IH|]|].
    - rewrite Nat.eqb_refl. cbn. now rewrite IH.
    - destruct (Nat.eqb_spec i' i); [contradiction|]. exact IH.
  Qed.
  Lemma ahandles_drop_other : forall i j h gs, i <> j -> ahandles j (filter (fun g => negb (ag_is i h g)) gs) = ahandles j gs.
  Proof.
    intros i j h gs N. unfold ahandles. induction gs as [|[[[i' h'] s] ks] gs IH]; cbn; [reflexivity|].
    destruct (Nat.eqb_spec i' i) as [->|]; cbn.
    - destruct (Nat.eqb_spec i j); [contradiction|]. destruct (Nat.eqb h' h); cbn; [exact IH|].
      destruct (Nat.eqb_spec i j); [contradiction|]. exact IH.
    - destruct (Nat.eqb i' j); cbn; [f_equal|]; exact IH.
  Qed.
  Lemma ag_find_handles : forall i h (a : avec K St), (exists g, ag_find i h a = Some g) <-> In h (ahandles i (a_guards a)).
  Proof.
    intros i h a. unfold ag_find, ahandles. induction (a_guards a) as [|[[[i' h'] s] ks] gs IH]; cbn [find filter].
    - cbn. split; [intros [g G]; discriminate|intros []].
    - unfold ag_is at 1. destruct (Nat.eqb i' i); cbn [andb map In].
      + destruct (Nat.eqb_spec h' h) as [->|N]; [split; [auto|eauto]|]. rewrite IH. split; [auto|intros [X|X]; [contradiction|exact X]].
      + exact IH.
  Qed.

  Lemma handles_snoc : forall done (op : vop) (r : vres), handles (done ++ [(op, r)]) =
    match op, r with
    | SGet h _, RUnit | SOpen h _, RKeys _ => h :: handles done
    | SDrop h, RUnit => filter (fun h' => negb (Nat.eqb h' h)) (handles done)
    | _, _ => handles done
    end.
  Proof. intros done op r. unfold handles. rewrite fold_left_app. now destruct op, r. Qed.

  (** What a call does to the guards. *)
  Lemma spec_handles : forall i op a a' r done, vspec i op a = Some (a', r) -> ahandles i (a_guards a) = handles done ->
    ahandles i (a_guards a') = handles (done ++ [(op, r)]) /\ fits done op r /\ forall j, j <> i -> ahandles j (a_guards a') = ahandles j (a_guards a).
  Proof.
    intros i op a a' r done E H. rewrite handles_snoc.
    assert (HF : forall h, (exists g, ag_find i h a = Some g) <-> In h (handles done)) by (intros h; rewrite <- H; apply ag_find_handles).
    assert (ADD : forall h s ks (b : avec K St), a_guards b = a_guards a ->
      ahandles i (a_guards (with_guard (i, h, s, ks) b)) = h :: ahandles i (a_guards a) /\
      forall j, j <> i -> ahandles j (a_guards (with_guard (i, h, s, ks) b)) = ahandles j (a_guards a)).
    { intros h s ks b B. unfold ahandles. cbn. rewrite B, Nat.eqb_refl. split; [reflexivity|]. intros j N.
      destruct (Nat.eqb_spec i j); [congruence|reflexivity]. }
    assert (NOT : forall h, ag_find i h a = None -> ~ In h (handles done)) by (intros h F X; apply HF in X as [g X]; congruence).
    destruct op as [h k|h k u|h|k|h s]; cbn [vec_spec] in E.
    - destruct (ag_find i h a) as [g|] eqn:F.
      + inversion E; subst. cbn. rewrite <- HF. eauto.
      + specialize (NOT h F). destruct (aget keqb k (a_tab a (shard_of k))); [|destruct (guarded (shard_of k) a); [discriminate|]];
          inversion E; subst; cbn [fits].
        * destruct (ADD h (shard_of k) [k] a eq_refl) as [-> A2]. rewrite H. auto.
        * destruct (ADD h (shard_of k) [k] (with_tab (shard_of k) (a_tab a (shard_of k) ++ [(k, st_new)]) a) eq_refl) as [-> A2]. rewrite H. auto.
    - destruct (ag_find i h a) as [[[[i' h'] s] ks]|]; [|inversion E; subst; cbn; auto].
      destruct (existsb _ _); [|inversion E; subst; cbn; auto].
      destruct (aget keqb k (a_tab a s)); [|discriminate]. destruct (spec i u s0) as [[x' r']|]; [|discriminate]. inversion E; subst. cbn. auto.
    - destruct (ag_find i h a) as [g|] eqn:F; inversion E; subst; cbn [a_guards fits]; [|auto].
      rewrite ahandles_drop, H. split; [reflexivity|]. split; [apply HF; eauto|]. intros j N. apply ahandles_drop_other. congruence.
    - destruct (guarded (shard_of k) a); [discriminate|]. inversion E; subst. cbn. auto.
    - destruct (ag_find i h a) as [g|] eqn:F; inversion E; subst; cbn [fits].
      + rewrite <- HF. eauto.
      + destruct (ADD h s (map fst (a_tab a s)) a eq_refl) as [-> A2]. rewrite H. auto.
  Qed.

  Lemma of_thread_snoc : forall j (log : list (@entry vop vres)) i op r,
    of_thread j (log ++ [(i, op, r)]) = of_thread j log ++ if Nat.eqb i j then [(op, r)] else [].
  Proof. intros j log i op r. unfold of_thread. rewrite filter_app, map_app. cbn. now destruct (Nat.eqb i j). Qed.

  Lemma legal_handles : forall log a, legal vspec av_new log a -> forall i, ahandles i (a_guards a) = handles (of_thread i log).
  Proof.
    intros log. induction log as [|[[i op] r] log IH] using rev_ind; intros a H j.
    - inversion H; subst. reflexivity.
    - apply legal_rev in H as (a1 & H1 & E). specialize (IH _ H1). etransitivity; [|apply (f_equal handles); symmetry; apply of_thread_snoc].
      destruct (spec_handles _ _ _ _ _ _ E (IH i)) as (A1 & _ & A2). destruct (Nat.eqb_spec i j) as [->|N]; [exact A1|].
      rewrite app_nil_r, A2 by congruence. apply IH.
  Qed.

  Lemma legal_fits : forall log a, legal vspec av_new log a -> forall i pre op r post, of_thread i log = pre ++ (op, r) :: post -> fits pre op r.
  Proof.
    intros log. induction log as [|[[i op] r] log IH] using rev_ind; intros a H j pre op' r' post EQ.
    - destruct pre; discriminate.
    - apply legal_rev in H as (a1 & H1 & E). assert (EQ' := eq_trans (eq_sym (of_thread_snoc j log i op r)) EQ). clear EQ. rename EQ' into EQ.
      destruct (Nat.eqb_spec i j) as [->|N]; [|rewrite app_nil_r in EQ; eapply IH; eauto].
      destruct (@exists_last _ ((op', r') :: post)) as (l & x & EL); [discriminate|].
      rewrite EL, app_assoc in EQ. apply app_inj_tail in EQ as [EQ <-]. destruct l as [|y l].
      + cbn in EL. inversion EL; subst. rewrite app_nil_r in EQ. rewrite <- EQ.
        eapply spec_handles; [exact E|]. now apply legal_handles.
      + cbn in EL. inversion EL; subst. eapply IH; [exact H1|exact EQ].
  Qed.

  Lemma history_intro : forall (prog : program vop vres) i done,
    (forall pre op r post, done = pre ++ (op, r) :: post -> prog i pre = Some op /\ fits pre op r) -> history prog i done.
  Proof.
    intros prog i done. induction done as [|[op r] done IH] using rev_ind; intros H; [constructor|].
    destruct (H done op r [] eq_refl) as [H1 H2]. constructor; auto. apply IH. intros pre op' r' post ->.
    apply (H pre op' r' (post ++ [(op, r)])). now rewrite <- app_assoc.
  Qed.

  Hypothesis lively : lively_metric O sh_new view spec st_new aview.

  Theorem sparse_deadlock_free : forall prog, one_guard prog -> deadlock_free M sv_new prog.
  Proof.
    destruct lively as (lin & inv & rep & OK & RV & LV). intros prog ONE s c (i & A).
    destruct (object_invariant_log _ _ _ _ _ _ _ _ _ _ _ _ prog s (sparse_ok keqb keqb_eq shard_of O sh_new view spec st_new aview lin inv rep OK RV))
      as (g & a & log & I & LG & OT). cbn zeta in I, OT.
    destruct (done_asked _ _ _ _ M prog s sv_new) as [DA1 DA2].
    change (run M prog s (start_config sv_new)) with c in I, OT, DA1, DA2.
    assert (HIST : forall j, history prog j (t_done (c_th c j))).
    { intros j. apply history_intro. intros pre op r post EQ. split; [eapply DA1; exact EQ|].
      eapply (legal_fits _ _ LG j pre op r). rewrite OT, EQ, <- app_assoc. reflexivity. }
    assert (GO : forall j op mic, t_cur (c_th c j) = Some (op, mic) -> (forall ch, vec_step keqb shard_of O sh_new view j ch mic (c_sh c) <> None) ->
      exists j, active prog c j /\ forall ch, enabled M prog ch c j).
    { intros j op mic TJ EN. exists j. split; [left; congruence|]. intros ch. unfold enabled. rewrite TJ. apply EN. }
    (* somebody inside a metric *)
    assert (INNER : forall j op s0 n m, t_cur (c_th c j) = Some (op, MIn s0 n m) -> exists j, active prog c j /\ forall ch, enabled M prog ch c j).
    { intros j op s0 n m TJ. pose proof (vi_at _ _ _ _ _ _ I j) as AT. cbv beta in AT. rewrite TJ in AT. cbn in AT.
      destruct AT as (h & k & u & gd & -> & _ & GF & GS & RF).
      apply gfind_in in GF as (GIN & _ & _). unfold ref_of in RF. destruct (find _ (g_refs gd)) as [[k' n']|] eqn:FR; [|discriminate].
      inversion RF; subst n'. apply find_some in FR as [FR KE]. cbn in KE. apply keqb_eq in KE. subst k'.
      destruct (vi_refs _ _ _ _ _ _ I _ _ _ GIN FR) as (e & EI & EK & EN). rewrite GS in EI.
      pose proof (vi_tabs _ _ _ _ _ _ I s0) as TB.
      assert (EX : exists x, inv (e_sh e) (pend_in (fun i => match t_cur (c_th c i) with Some (op, mic) => Some (op, mic, g i) | None => None end) s0 (e_id e)) x).
      { clear - TB EI. induction TB as [|e' p t t' [E1 E2] TB IH]; [destruct EI|]. destruct EI as [->|EI]; [eauto|auto]. }
      destruct EX as [x EX].
      destruct (LV _ _ _ j (u, m, inner (g j)) EX) as (j' & op' & mic' & g' & PJ & EN').
      { unfold pend_in. cbv beta. rewrite TJ, EN. now rewrite !Nat.eqb_refl. }
      unfold pend_in in PJ. destruct (t_cur (c_th c j')) as [[op1 mic1]|] eqn:TJ'; [|discriminate].
      destruct op1 as [|h1 k1 u1| | |]; try discriminate. destruct mic1 as [| | | | | | | | |s1 n1 m1| | | | | | |]; try discriminate.
      destruct (Nat.eqb_spec s1 s0) as [->|]; [|discriminate]. destruct (Nat.eqb_spec n1 (e_id e)) as [->|]; [|discriminate].
      inversion PJ; subst. apply (GO _ _ _ TJ'). intros ch. cbn [vec_step].
      assert (FI : find_id (e_id e) (tab_of (g_shard gd) (c_sh c)) = Some e).
      { unfold find_id. destruct (find _ (tab_of (g_shard gd) (c_sh c))) as [e'|] eqn:FE.
        - apply find_some in FE as [F1 F2]. apply Nat.eqb_eq in F2. f_equal.
          eapply (NoDup_map_inj _ _ e_id); eauto. apply (vi_ids _ _ _ _ _ _ I).
        - eapply find_none in FE; [|exact EI]. cbn in FE. rewrite Nat.eqb_refl in FE. discriminate. }
      rewrite FI. specialize (EN' ch). destruct (m_step O j' ch mic' (e_sh e)) as [[sh' [m'|r]]|]; congruence. }
    (* a thread that waits for the lock of a shard *)
    assert (LOCK : forall s0, (forall ch, rw_read i ch (lock_of s0 (c_sh c)) <> None /\ rw_write i (lock_of s0 (c_sh c)) <> None) \/
      exists j, active prog c j /\ forall ch, enabled M prog ch c j).
    { intros s0. pose proof (vi_locks _ _ _ _ _ _ I s0) as LK.
      destruct (rw_writer (lock_of s0 (c_sh c))) as [w|] eqn:EW.
      - right. apply (li_write _ _ _ LK) in EW. unfold phase_of in EW. destruct (t_cur (c_th c w)) as [[op mic]|] eqn:TW; [|discriminate].
        apply (GO _ _ _ TW). intros ch. destruct mic; cbn in EW; try discriminate; cbn [vec_step]; try discriminate;
          try (destruct (Nat.eqb _ _); discriminate).
        + destruct (find_key _ _ _); discriminate.
        + destruct (find_key _ _ _); discriminate.
      - destruct (rw_readers (lock_of s0 (c_sh c))) as [|j rs] eqn:ER.
        + destruct (rw_wait (lock_of s0 (c_sh c))) as [|w ws] eqn:WW.
          * left. intros ch. unfold rw_read, rw_write. rewrite EW, ER, WW. split; [destruct ch|]; discriminate.
          * right. assert (J : In w (rw_wait (lock_of s0 (c_sh c)))) by (rewrite WW; now left).
            apply (li_wait _ _ _ LK) in J. unfold phase_of in J. destruct (t_cur (c_th c w)) as [[op mic]|] eqn:TW; [|discriminate].
            apply (GO _ _ _ TW). intros ch.
            assert (WR : rw_write w (lock_of s0 (c_sh c)) <> None) by (unfold rw_write; rewrite EW, ER; discriminate).
            destruct mic; cbn in J; try discriminate; try (destruct (Nat.eqb _ _); discriminate); cbn [vec_step];
              (destruct (Nat.eqb_spec (shard_of k) s0) as [<-|]; [|discriminate]);
              (destruct (rw_write w (lock_of (shard_of k) (c_sh c))); [discriminate|congruence]).
        + right. pose proof (li_read _ _ _ LK j) as CN. rewrite ER in CN. cbn [cnt] in CN. rewrite Nat.eqb_refl in CN.
          destruct (is_look (phase_of shard_of s0 (match t_cur (c_th c j) with Some (op, mic) => Some (op, mic, g j) | None => None end))) eqn:LO.
          * (* it has a guard *)
            assert (NG : 0 < nguards (v_guards (c_sh c)) s0 j) by lia.
            assert (HN : handles (of_thread j log) <> []).
            { rewrite <- (legal_handles _ _ LG j). rewrite (vi_gs _ _ _ _ _ _ I). unfold nguards in NG. intros EQ.
              destruct (filter (on_shard s0 j) (v_guards (c_sh c))) as [|gd gs] eqn:FG; [cbn in NG; lia|].
              assert (X : In gd (filter (on_shard s0 j) (v_guards (c_sh c)))) by (rewrite FG; now left).
              apply filter_In in X as [X1 X2]. unfold on_shard in X2. apply andb_prop in X2 as [X2 _].
              assert (Y : In (g_h gd) (ahandles j (map strip (v_guards (c_sh c))))).
              { unfold ahandles. apply in_map_iff. exists (strip gd). split; [reflexivity|]. apply filter_In. split; [now apply in_map|exact X2]. }
              rewrite EQ in Y. destruct Y. }
            rewrite OT in HN. pose proof (vi_at _ _ _ _ _ _ I j) as AT. cbv beta in AT.
            destruct (t_cur (c_th c j)) as [[op mic]|] eqn:TJ.
            -- destruct (g j) as [r|] eqn:GJ.
               ++ destruct mic; cbn in AT; try (exfalso; intuition discriminate); try (destruct AT as (? & _ & AT); discriminate).
                  ** apply (GO _ _ _ TJ). intros ch. cbn [vec_step]. discriminate.
                  ** apply (GO _ _ _ TJ). intros ch. cbn [vec_step]. destruct (find_key _ _ _); discriminate.
                  ** eapply INNER; exact TJ.
                  ** apply (GO _ _ _ TJ). intros ch. cbn [vec_step]. discriminate.
               ++ rewrite app_nil_r in HN. pose proof (ONE j _ (HIST j) HN) as OG. rewrite (DA2 _ _ _ TJ) in OG.
                  destruct mic; cbn in AT; try (destruct AT as [-> _]; contradiction); try (destruct AT as (? & ? & AT); discriminate).
                  ** apply (GO _ _ _ TJ). intros ch. cbn [vec_step]. destruct (find_guard _ _ _); [destruct (ref_of _ _ _)|]; discriminate.
                  ** eapply INNER; exact TJ.
                  ** apply (GO _ _ _ TJ). intros ch. cbn [vec_step]. destruct (find_guard _ _ _); discriminate.
                  ** destruct AT as (k & -> & _). contradiction.
            -- rewrite app_nil_r in HN. pose proof (ONE j _ (HIST j) HN) as OG. exists j.
               assert (PJ : prog j (t_done (c_th c j)) <> None) by (destruct (prog j (t_done (c_th c j))); [discriminate|contradiction]).
               split; [now right|]. intros ch. unfold enabled. rewrite TJ. exact PJ.
          * unfold phase_of in LO. destruct (t_cur (c_th c j)) as [[op mic]|] eqn:TJ; [|discriminate].
            apply (GO _ _ _ TJ). intros ch. destruct mic; cbn in LO; try discriminate; cbn [vec_step]; try discriminate;
              try (destruct (Nat.eqb _ _); discriminate).
            destruct (find_key _ _ _); discriminate. }
    destruct (t_cur (c_th c i)) as [[op mic]|] eqn:TC.
    2:{ exists i. split; [exact A|]. intros ch. unfold enabled. rewrite TC. destruct A as [A|A]; [congruence|exact A]. }
    destruct mic as [h k|h k|h k|h k|h k|h k|h k|h k|h k u|s0 n m|h|k|k|k|s0 r|h s0|h s0].
    - destruct (LOCK (shard_of k)) as [L|L]; [|exact L]. apply (GO _ _ _ TC). intros ch. cbn [vec_step]. destruct (held i h (c_sh c)); [discriminate|].
      destruct (L ch) as [L1 _]. destruct (rw_read _ _ _); [discriminate|congruence].
    - apply (GO _ _ _ TC). intros ch. cbn [vec_step]. destruct (find_key _ _ _); discriminate.
    - apply (GO _ _ _ TC). intros ch. cbn [vec_step]. discriminate.
    - apply (GO _ _ _ TC). intros ch. cbn [vec_step]. discriminate.
    - destruct (LOCK (shard_of k)) as [L|L]; [|exact L]. apply (GO _ _ _ TC). intros ch. cbn [vec_step].
      destruct (L ch) as [_ L1]. destruct (rw_write _ _); [discriminate|congruence].
    - apply (GO _ _ _ TC). intros ch. cbn [vec_step]. destruct (find_key _ _ _); discriminate.
    - apply (GO _ _ _ TC). intros ch. cbn [vec_step]. discriminate.
    - apply (GO _ _ _ TC). intros ch. cbn [vec_step]. destruct (find_key _ _ _); discriminate.
    - apply (GO _ _ _ TC). intros ch. cbn [vec_step]. destruct (find_guard _ _ _); [destruct (ref_of _ _ _)|]; discriminate.
    - eapply INNER; exact TC.
    - apply (GO _ _ _ TC). intros ch. cbn [vec_step]. destruct (find_guard _ _ _); discriminate.
    - apply (GO _ _ _ TC). intros ch. cbn [vec_step]. discriminate.
    - destruct (LOCK (shard_of k)) as [L|L]; [|exact L]. apply (GO _ _ _ TC). intros ch. cbn [vec_step].
      destruct (L ch) as [_ L1]. destruct (rw_write _ _); [discriminate|congruence].
    - apply (GO _ _ _ TC). intros ch. cbn [vec_step]. destruct (find_key _ _ _); discriminate.
    - apply (GO _ _ _ TC). intros ch. cbn [vec_step]. discriminate.
    - destruct (LOCK s0) as [L|L]; [|exact L]. apply (GO _ _ _ TC). intros ch. cbn [vec_step]. destruct (held i h (c_sh c)); [discriminate|].
      destruct (L ch) as [L1 _]. destruct (rw_read _ _ _); [discriminate|congruence].
    - apply (GO _ _ _ TC). intros ch. cbn [vec_step]. discriminate.
  Qed.
End Sparse.

(** Lists of calls that take turns. *)
Lemma takes_turns_one_guard : forall K Op Res V (l : nat -> list (vec_op K Op)), (forall i, takes_turns None (l i) = true) ->
  one_guard (calls (Res := vec_res K Res V) l).
Proof.
  intros K Op Res V l T i done H.
  assert (ST : exists held, takes_turns held (skipn (length done) (l i)) = true /\ handles done = match held with Some h => [h] | None => [] end).
  { induction H as [|done op r H IH PR FT]; [exists None; split; [apply T|reflexivity]|].
    destruct IH as (held & TT & HD). unfold calls in PR. rewrite app_length. cbn [length]. rewrite Nat.add_1_r.
    assert (SK : skipn (length done) (l i) = op :: skipn (S (length done)) (l i)).
    { clear - PR. revert PR. generalize (length done). intros n. generalize (l i). induction n as [|n IH]; intros [|x t] PR; try discriminate.
      - cbn in PR. now inversion PR.
      - cbn in PR. apply (IH _ PR). }
    rewrite SK in TT. rewrite handles_snoc. unfold fits in FT. rewrite HD in *.
    destruct op as [h k|h k u|h|k|h s], held as [h'|]; cbn [takes_turns] in TT; try discriminate.
    - destruct r; try contradiction; exists (Some h); auto.
    - apply andb_prop in TT as [_ TT]. exists (Some h'). destruct r; auto.
    - apply andb_prop in TT as [TE TT]. apply Nat.eqb_eq in TE. subst h'. destruct r; try contradiction.
      + exists None. cbn. now rewrite Nat.eqb_refl.
      + cbn in FT. tauto.
    - exists None. destruct r; auto.
    - destruct r; try contradiction; exists (Some h); auto. }
  destruct ST as (held & TT & ->). intros HN. destruct held as [h|]; [|congruence].
  unfold calls. destruct (skipn (length done) (l i)) as [|op t] eqn:SK; [discriminate|].
  assert (NE : nth_error (l i) (length done) = Some op).
  { clear - SK. revert SK. generalize (length done). intros n. generalize (l i). induction n as [|n IH]; intros [|x u] SK; try discriminate.
    - cbn in *. congruence.
    - cbn in *. auto. }
  rewrite NE. destruct op; cbn in TT; try discriminate; exact I.
Qed.
