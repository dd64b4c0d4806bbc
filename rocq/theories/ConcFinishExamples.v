(** Concrete schedules without end. *)
From Coq Require Import List NArith ZArith Bool Arith Lia.
From Verif Require Import Base FloatModel MetricModel MetricExamples LabelModel LabelSpec ConcModel ConcSpec ConcProofs ConcVecModel ConcVecSpec ConcVecExamples
  ConcLabelModel ConcDenseModel ConcCallModel ConcCallSpec ConcCallTheorems ConcCallExamples ConcDenseCallModel ConcDenseCallSpec ConcDenseCallExamples ConcFinishSpec ConcFinish.
Import ListNotations.
Local Open Scope nat_scope.

(** Three threads in turn; in every round the first takes two steps. *)
Definition ex_for_ever (t : nat) : nat * nat := nth (t mod 4) [(0, 0); (1, 0); (2, 0); (0, 0)] (0, 0).

Lemma ex_fair : fair 3 ex_for_ever.
Proof.
  intros i t L. exists (i + t * 4). split; [lia|]. unfold ex_for_ever. rewrite Nat.mod_add by lia. rewrite Nat.mod_small by lia.
  destruct i as [|[|[|i]]]; [reflexivity..|lia].
Qed.

Lemma in_turn_bounded : forall Op Res V (l : list (list (vec_call Op))) k, forallb (fun c => Nat.leb (length c) k) l = true ->
  bounded_calls (length l) k (in_turn (Res := Res) (V := V) l).
Proof.
  intros Op Res V l k H. split; unfold in_turn.
  - intros i L. now rewrite nth_overflow.
  - intros i made L. apply nth_error_None. destruct (Nat.lt_ge_cases i (length l)) as [LT|GE].
    + rewrite forallb_forall in H. specialize (H (nth i l []) (nth_In _ _ LT)). apply Nat.leb_le in H. lia.
    + rewrite nth_overflow by exact GE. cbn. lia.
Qed.
Lemma dense_in_turn_bounded : forall Op Res (l : list (list (dense_call (derived_lgset Debug) Op))) k, forallb (fun c => Nat.leb (length c) k) l = true ->
  bounded_calls (length l) k (dense_in_turn (Res := Res) l).
Proof.
  intros Op Res l k H. split; unfold dense_in_turn.
  - intros i L. now rewrite nth_overflow.
  - intros i made L. apply nth_error_None. destruct (Nat.lt_ge_cases i (length l)) as [LT|GE].
    + rewrite forallb_forall in H. specialize (H (nth i l []) (nth_In _ _ LT)). apply Nat.leb_le in H. lia.
    + rewrite nth_overflow by exact GE. cbn. lia.
Qed.

(** No exchange fails without a reason under choice 0. *)
Lemma no_spurious : forall Sh Op Res Mic (M : machine Sh Op Res Mic) prog bad s c, (forall mic sh, bad 0 mic sh = false) ->
  (forall ic, In ic s -> snd ic = 0) -> count_steps M prog (fails bad) s c = 0.
Proof.
  intros Sh Op Res Mic M prog bad s. induction s as [|ic s IH]; intros c B H; [reflexivity|]. cbn [count_steps].
  rewrite (IH _ B (fun x I => H x (or_intror I))). unfold fails. rewrite (H ic (or_introl eq_refl)).
  destruct (t_cur (c_th c (fst ic))) as [[op mic]|]; [now rewrite B|reflexivity].
Qed.
Lemma ex_choices : forall t ic, In ic (up_to ex_for_ever t) -> snd ic = 0.
Proof.
  intros t ic I. apply in_map_iff in I as (x & <- & _). unfold ex_for_ever.
  destruct (x mod 4) as [|[|[|[|y]]]]; try reflexivity. destruct y; reflexivity.
Qed.

(** An exchange that fails every time. *)
Definition ex_failing (t : nat) : config N float_op N float_mic :=
  run float_machine (calls (fun _ => [FWrite FInc])) (repeat (0, 1) t) (start_config 0%N).
Lemma ex_never_ends : forall t, 1 <= t -> t_cur (c_th (ex_failing t) 0) <> None.
Proof.
  intros t L. unfold ex_failing.
  assert (H : exists d op, t_cur (c_th (run float_machine (calls (fun _ => [FWrite FInc])) (repeat (0, 1) t) (start_config 0%N)) 0) = Some (op, FLoop d) \/
    exists c, t_cur (c_th (run float_machine (calls (fun _ => [FWrite FInc])) (repeat (0, 1) t) (start_config 0%N)) 0) = Some (op, FExchange d c)).
  { induction t as [|t IH]; [lia|]. destruct t as [|t]; [cbn; eauto|]. destruct IH as (d & op & IH); [lia|].
    change (repeat (0, 1) (S (S t))) with ((0, 1) :: repeat (0, 1) (S t)). rewrite repeat_cons, run_split. exists d, op. cbn [run].
    set (c := run _ _ _ _) in *. unfold step. destruct IH as [E|(x & E)]; rewrite E; cbn [m_step float_machine float_step].
    - right. eexists. cbn [c_th]. rewrite upd_same. reflexivity.
    - rewrite andb_false_r. left. cbn [c_th]. rewrite upd_same. reflexivity. }
  destruct H as (d & op & [->|(c & ->)]); discriminate.
Qed.
