(** Gauges that one thread writes and others collect. *)
From Coq Require Import List NArith ZArith Bool Arith Lia.
From Verif Require Import Base FloatModel MetricModel LabelModel LabelSpec ConcModel ConcSpec ConcProofs ConcVecModel ConcVecSpec ConcVecTheorems ConcLabelModel ConcLabelSpec
  ConcCallModel ConcCallSpec ConcCallTheorems ConcDenseModel ConcDenseSpec ConcDenseCallModel ConcDenseCallSpec ConcMomentSpec ConcMoment ConcMomentDense.
Import ListNotations.
Local Open Scope nat_scope.
Local Set Asymmetric Patterns.

Section Alone.
  Context {Op Res St : Type}.
  Variable spec : nat -> Op -> St -> option (St * Res).
  Variable run : Op -> St -> St.
  Variable wr : Op -> bool.
  Hypothesis effect : forall i u x x' r, spec i u x = Some (x', r) -> x' = run u x.
  Hypothesis reads : forall u x, wr u = false -> run u x = x.

  Lemma alone : forall k log x0 x, legal spec x0 log x -> (forall j, j <> k -> writes_in wr j log = []) ->
    x = fold_left (fun v u => run u v) (writes_in wr k log) x0.
  Proof.
    intros k log x0 x LG. induction LG as [s|s i u r s' log s'' E LG IH]; intros O; [reflexivity|].
    assert (S : forall j, writes_in wr j ((i, u, r) :: log) = (if Nat.eqb i j then filter wr [u] else []) ++ writes_in wr j log).
    { intros j. unfold writes_in, of_thread. cbn [filter fst]. destruct (Nat.eqb i j); [|reflexivity]. cbn [map fst snd filter]. now destruct (wr u). }
    assert (O' : forall j, j <> k -> writes_in wr j log = []) by (intros j N; specialize (O j N); rewrite S in O; now apply app_eq_nil in O).
    rewrite S, fold_left_app. apply effect in E. subst s'. rewrite (IH O'). f_equal.
    destruct (Nat.eqb_spec i k) as [->|N].
    - cbn [filter]. destruct (wr u) eqn:W; [reflexivity|]. now apply reads.
    - specialize (O i N). rewrite S, Nat.eqb_refl in O. apply app_eq_nil in O as [O _]. cbn in O |- *. destruct (wr u) eqn:W; [discriminate|]. now apply reads.
  Qed.
End Alone.

Lemma nothing : forall A (p : list A), initial p [] -> p = [].
Proof. intros A p (c & E). symmetry in E. now apply app_eq_nil in E. Qed.

Theorem gauge_alone : forall w (P : call_program igauge_op Z Z), setup_ok w -> calls_shaped (su_fields w) P ->
  forall g, (forall j hd, P j hd <> Some (CDelete g)) ->
  forall s0 s1 i tr rest, call_underway w gauge_code P s0 i = None ->
  finished_calls w gauge_code P (s0 ++ s1) i = finished_calls w gauge_code P s0 i ++ (CCollect, tr) :: rest ->
  forall k, (forall j, j <> k -> writes_begun w gauge_code P gauge_writes g (s0 ++ s1) j = []) ->
  forall l r, result_of CCollect tr = Collected l -> In (g, r) l ->
  exists p, initial (writes_finished w gauge_code P gauge_writes g s0 k) p /\ initial p (writes_begun w gauge_code P gauge_writes g (s0 ++ s1) k) /\
    r = gauge_after p.
Proof.
  intros w P OK SH g KP s0 s1 i tr rest ID LA k O l r RC I.
  destruct (row_moment w gauge_code (pure_spec igauge_eff) 0%Z (fun v => v) P OK SH (igauge_good 0) gauge_writes eq_refl g KP s0 s1 i tr rest ID LA l r RC I)
    as (log & x & x' & LG & RD & WS).
  exists (writes_in gauge_writes k log). destruct (WS k) as [W1 W2]. split; [exact W1|]. split; [exact W2|].
  cbn in RD. unfold pure_spec in RD. cbn in RD. injection RD as _ <-.
  refine (alone (pure_spec igauge_eff) (fun u v => match u with IWrite op => gauge_shared op v | IRead => v end) gauge_writes _ _ k log 0%Z x LG _).
  - intros i' [op|] y y' q E; injection E as <- _; reflexivity.
  - intros [op|] y E; [discriminate|reflexivity].
  - intros j N. apply nothing. rewrite <- (O j N). apply WS.
Qed.

Theorem float_alone : forall w (P : call_program float_op N N), setup_ok w -> calls_shaped (su_fields w) P ->
  forall g, (forall j hd, P j hd <> Some (CDelete g)) ->
  forall s0 s1 i tr rest, call_underway w float_code P s0 i = None ->
  finished_calls w float_code P (s0 ++ s1) i = finished_calls w float_code P s0 i ++ (CCollect, tr) :: rest ->
  forall k, (forall j, j <> k -> writes_begun w float_code P float_writes g (s0 ++ s1) j = []) ->
  forall l r, result_of CCollect tr = Collected l -> In (g, r) l ->
  exists p, initial (writes_finished w float_code P float_writes g s0 k) p /\ initial p (writes_begun w float_code P float_writes g (s0 ++ s1) k) /\
    r = float_after p.
Proof.
  intros w P OK SH g KP s0 s1 i tr rest ID LA k O l r RC I.
  destruct (row_moment w float_code float_spec 0%N (fun v => v) P OK SH (float_good 0) float_writes eq_refl g KP s0 s1 i tr rest ID LA l r RC I)
    as (log & x & x' & LG & RD & WS).
  exists (writes_in float_writes k log). destruct (WS k) as [W1 W2]. split; [exact W1|]. split; [exact W2|].
  cbn in RD. injection RD as _ <-.
  refine (alone float_spec (fun u v => match u with FWrite op => fgauge_shared op v | FRead => v end) float_writes _ _ k log 0%N x LG _).
  - intros i' [op|] y y' q E; injection E as <- _; reflexivity.
  - intros [op|] y E; [discriminate|reflexivity].
  - intros j N. apply nothing. rewrite <- (O j N). apply WS.
Qed.

Theorem dense_gauge_alone : forall (L : lgset) wt (w : dense_setup L) (P : dense_program L igauge_op Z), dense_ok_setup L wt w -> dense_shaped wt w P ->
  forall geq g s0 s1 i tr rest, dense_underway w gauge_code P s0 i = None ->
  dense_finished w gauge_code P (s0 ++ s1) i = dense_finished w gauge_code P s0 i ++ (ECollect, tr) :: rest ->
  forall k, (forall j, j <> k -> dense_writes_begun w gauge_code P geq gauge_writes g (s0 ++ s1) j = []) ->
  forall l r, dense_result_of ECollect tr = DCollected l -> In (g, r) l ->
  exists p, initial (dense_writes_finished w gauge_code P geq gauge_writes g s0 k) p /\
    initial p (dense_writes_begun w gauge_code P geq gauge_writes g (s0 ++ s1) k) /\ r = gauge_after p.
Proof.
  intros L wt w P OK SH geq g s0 s1 i tr rest ID LA k O l r RC I.
  destruct (dense_row_moment wt w gauge_code (pure_spec igauge_eff) 0%Z (fun v => v) P OK SH (igauge_good 0) geq gauge_writes eq_refl s0 s1 i tr rest ID LA l g r RC I)
    as (log & x & x' & LG & RD & WS).
  exists (writes_in gauge_writes k log). destruct (WS k) as [W1 W2]. split; [exact W1|]. split; [exact W2|].
  cbn in RD. unfold pure_spec in RD. cbn in RD. injection RD as _ <-.
  refine (alone (pure_spec igauge_eff) (fun u v => match u with IWrite op => gauge_shared op v | IRead => v end) gauge_writes _ _ k log 0%Z x LG _).
  - intros i' [op|] y y' q E; injection E as <- _; reflexivity.
  - intros [op|] y E; [discriminate|reflexivity].
  - intros j N. apply nothing. rewrite <- (O j N). apply WS.
Qed.

Theorem dense_float_alone : forall (L : lgset) wt (w : dense_setup L) (P : dense_program L float_op N), dense_ok_setup L wt w -> dense_shaped wt w P ->
  forall geq g s0 s1 i tr rest, dense_underway w float_code P s0 i = None ->
  dense_finished w float_code P (s0 ++ s1) i = dense_finished w float_code P s0 i ++ (ECollect, tr) :: rest ->
  forall k, (forall j, j <> k -> dense_writes_begun w float_code P geq float_writes g (s0 ++ s1) j = []) ->
  forall l r, dense_result_of ECollect tr = DCollected l -> In (g, r) l ->
  exists p, initial (dense_writes_finished w float_code P geq float_writes g s0 k) p /\
    initial p (dense_writes_begun w float_code P geq float_writes g (s0 ++ s1) k) /\ r = float_after p.
Proof.
  intros L wt w P OK SH geq g s0 s1 i tr rest ID LA k O l r RC I.
  destruct (dense_row_moment wt w float_code float_spec 0%N (fun v => v) P OK SH (float_good 0) geq float_writes eq_refl s0 s1 i tr rest ID LA l g r RC I)
    as (log & x & x' & LG & RD & WS).
  exists (writes_in float_writes k log). destruct (WS k) as [W1 W2]. split; [exact W1|]. split; [exact W2|].
  cbn in RD. injection RD as _ <-.
  refine (alone float_spec (fun u v => match u with FWrite op => fgauge_shared op v | FRead => v end) float_writes _ _ k log 0%N x LG _).
  - intros i' [op|] y y' q E; injection E as <- _; reflexivity.
  - intros [op|] y E; [discriminate|reflexivity].
  - intros j N. apply nothing. rewrite <- (O j N). apply WS.
Qed.
