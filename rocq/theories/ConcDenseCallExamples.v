(** Concrete calls by several threads on a dense vec. *)
From Coq Require Import String List NArith ZArith Bool Arith Lia.
From Verif Require Import Base FloatModel MetricModel LabelModel LabelSpec GroupProofs LawProofs MetricExamples ConcModel ConcSpec ConcExamples ConcVecSpec ConcVecExamples ConcTheorems
  ConcDenseModel ConcDenseSpec ConcCallModel ConcCallSpec ConcCallTheorems ConcCallExamples ConcDenseCallModel ConcDenseCallSpec.
Import ListNotations.
Local Open Scope nat_scope.

(** An enum of three values and a fixed set of two. *)
Definition ex_dense_setup : dense_setup (derived_lgset Debug) :=
  {| dn_build := Debug; dn_set := (ex_fixed_set : lg_state (derived_lgset Debug)); dn_cells := 6 |}.

Definition ex_dense_wt : lg_state (derived_lgset Debug) -> lg_group (derived_lgset Debug) -> Prop := well_shaped.

Definition dense_in_turn {Op Res : Type} (l : list (list (dense_call (derived_lgset Debug) Op))) : dense_program (derived_lgset Debug) Op Res :=
  fun i hd => nth_error (nth i l []) (List.length hd).

Definition ex_get_a : lg_group (derived_lgset Debug) := ([([1], [71]); ([3], [97])] : group_val)%N.
Definition ex_put_b : lg_group (derived_lgset Debug) := ([([1], [80]); ([3], [98])] : group_val)%N.
Definition ex_del_a : lg_group (derived_lgset Debug) := ([([1], [68]); ([3], [97])] : group_val)%N.
(** Not in the fixed set. *)
Definition ex_get_c : lg_group (derived_lgset Debug) := ([([1], [71]); ([3], [99])] : group_val)%N.

Notation upd_call g u := (EUpdate (L := derived_lgset Debug) g u).
Notation del_call g := (EDelete (L := derived_lgset Debug) g).

Definition ex_dense_calls : list (list (dense_call (derived_lgset Debug) counter_op)) :=
  [[upd_call ex_get_a KInc; upd_call ex_del_a (KIncBy 10); del_call ex_get_a; upd_call ex_del_a KInc; upd_call ex_put_b KInc];
   [upd_call ex_get_a (KIncBy 2); upd_call ex_get_c KInc; ECount; upd_call ex_del_a KInc; ECount; upd_call ex_del_a KInc];
   [upd_call ex_del_a (KIncBy 100); ECollect; ECount; ECollect]]%N.
Definition ex_dense_program : dense_program (derived_lgset Debug) counter_op N := dense_in_turn ex_dense_calls.
Definition ex_dense_results (s : schedule) (i : nat) :=
  map (fun d => dense_result_of (fst d) (snd d)) (dense_finished ex_dense_setup counter_code ex_dense_program s i).
Definition ex_dense_schedule (n : nat) : schedule := rounds n [(0, 0); (1, 0); (2, 0); (0, 0)].

(** Histograms of two buckets; one observation is out of range. *)
Definition ex_dense_hist_calls : list (list (dense_call (derived_lgset Debug) hist_op)) :=
  [[upd_call ex_get_a (HObserve 0 f_half); upd_call ex_get_a (HObserve 1 f_two)];
   [upd_call ex_get_a (HObserve 2 f_three); upd_call ex_get_a (HObserve 7 f_three); upd_call ex_put_b (HObserve 1 f_two)];
   [upd_call ex_put_b (HObserve 0 f_half); ECollect]].
Definition ex_dense_hist_program : dense_program (derived_lgset Debug) hist_op hist_res := dense_in_turn ex_dense_hist_calls.
Definition ex_dense_hist_results (s : schedule) (i : nat) :=
  map (fun d => dense_result_of (fst d) (snd d)) (dense_finished ex_dense_setup (hist_code 2) ex_dense_hist_program s i).

Lemma dense_never_ran : forall L Sh Op Res Mic V (w : dense_setup L) (m : metric_code Sh Op Res Mic V) P s n i,
  forallb (fun ic => Nat.ltb (fst ic) n) s = true -> n <= i -> dense_finished w m P s i = [] /\ dense_underway w m P s i = None.
Proof.
  intros L Sh Op Res Mic V w m P s n i F LE. unfold dense_finished, dense_underway, dense_finished, dense_at_time.
  rewrite (untouched _ _ _ _ _ _ _ _ n i F LE). split; reflexivity.
Qed.

(** Before and while thread 2 collects; before and while thread 1 counts. *)
Definition ex_dbefore : schedule := firstn 40 (ex_dense_schedule 60).
Definition ex_dduring : schedule := firstn 108 (skipn 40 (ex_dense_schedule 60)).
Definition ex_cbefore : schedule := firstn 36 (ex_dense_schedule 60).
Definition ex_cduring : schedule := firstn 48 (skipn 36 (ex_dense_schedule 60)).
Definition ex_dhbefore : schedule := firstn 56 (ex_dense_schedule 60).
Definition ex_dhduring : schedule := firstn 144 (skipn 56 (ex_dense_schedule 60)).

Ltac vm_refl := match goal with |- ?a = ?b => exact (@eq_refl _ b <: a = b) end.
Ltac vm_conj := intros; repeat match goal with |- _ /\ _ => split end; vm_refl.

(** Two threads collect and count, before and while others update. *)
Definition ex_dorder_calls : list (list (dense_call (derived_lgset Debug) counter_op)) :=
  [[upd_call ex_get_a KInc; upd_call ex_del_a (KIncBy 10); upd_call ex_get_a (KIncBy 2); upd_call ex_put_b KInc; upd_call ex_get_a KInc];
   [ECollect; ECount; upd_call ex_del_a KInc];
   [ECollect; ECount]]%N.
Definition ex_dorder_program : dense_program (derived_lgset Debug) counter_op N := dense_in_turn ex_dorder_calls.
Definition ex_dorder_results (s : schedule) (i : nat) :=
  map (fun d => dense_result_of (fst d) (snd d)) (dense_finished ex_dense_setup counter_code ex_dorder_program s i).
Definition ex_dhorder_calls : list (list (dense_call (derived_lgset Debug) hist_op)) :=
  [[upd_call ex_get_a (HObserve 0 f_half); upd_call ex_get_a (HObserve 1 f_two); upd_call ex_get_a (HObserve 2 f_three)];
   [ECollect; upd_call ex_get_a (HObserve 1 f_two)];
   [ECollect]].
Definition ex_dhorder_program : dense_program (derived_lgset Debug) hist_op hist_res := dense_in_turn ex_dhorder_calls.
Definition ex_dhorder_results (s : schedule) (i : nat) :=
  map (fun d => dense_result_of (fst d) (snd d)) (dense_finished ex_dense_setup (hist_code 2) ex_dhorder_program s i).
Definition ex_dfirst : schedule := repeat (0, 0) 18 ++ repeat (1, 0) 34.
Definition ex_dsecond : schedule := ex_dense_schedule 27.
Definition ex_dthird : schedule := ex_dense_schedule 20.
Definition ex_dhfirst : schedule := repeat (0, 0) 14 ++ repeat (1, 0) 26.
Definition ex_dhsecond : schedule := ex_dense_schedule 30.
