(** Concrete calls by several threads. *)
From Coq Require Import String List NArith ZArith Bool Arith.
From Verif Require Import Base FloatModel MetricModel LabelModel LabelSpec MetricExamples ConcModel ConcSpec ConcExamples ConcVecModel ConcVecSpec ConcVecExamples ConcLabelModel ConcLabelSpec
  ConcLabelExamples ConcCallModel ConcCallSpec ConcCallTheorems ConcTheorems.
Import ListNotations.
Local Open Scope nat_scope.

(** Two interners, one of two strings, and a vec of two shards. *)
Definition ex_setup : setup :=
  {| su_build := Debug; su_fields := ex_lfields; su_loc := ex_loc; su_accepts := ex_accepts; su_strings := ex_interners;
     su_shard_of := fun k => N.to_nat (fst k) mod 2; su_shards := 2 |}.

Definition in_turn {Op Res V : Type} (l : list (list (vec_call Op))) : call_program Op Res V :=
  fun i hd => nth_error (nth i l []) (List.length hd).

Definition ex_ann : group_val := ex_request "/a" "get" "ann" "bob".
Definition ex_bob : group_val := ex_request "/b" "put" "bob" "ann".
(** The interner of users is full after two, so eve is refused. *)
Definition ex_eve : group_val := ex_request "/b" "put" "eve" "ann".

Definition ex_count_calls : list (list (vec_call counter_op)) :=
  [[CUpdate ex_ann KInc; CUpdate ex_bob (KIncBy 10); CUpdate ex_bob KInc; CUpdate ex_ann (KIncBy 4)];
   [CUpdate ex_ann (KIncBy 2); CDelete ex_ann; CUpdate ex_eve KInc; CUpdate ex_bob KInc];
   [CUpdate ex_bob (KIncBy 100); CCollect; CCollect; CCollect]]%N.
Definition ex_count_program : call_program counter_op N N := in_turn ex_count_calls.
Definition ex_call_schedule (n : nat) : schedule := rounds n [(0, 0); (1, 0); (2, 0); (0, 0)].

Definition results_of (s : schedule) (i : nat) :=
  map (fun d => result_of (fst d) (snd d)) (finished_calls ex_setup counter_code ex_count_program s i).

Definition ex_before : schedule := firstn 80 (ex_call_schedule 60).
Definition ex_during : schedule := firstn 100 (skipn 80 (ex_call_schedule 60)).
Definition ex_ann_id : unique := (0%N, [1%N; 0%N; 1%N]).
Definition ex_bob_id : unique := (1%N, [2%N; 1%N; 0%N]).
Definition ex_count_add (u : counter_op) (_ : N) : Z := counter_delta u.

(** Histograms of two buckets; the last observation is out of range. *)
Definition ex_hist_calls : list (list (vec_call hist_op)) :=
  [[CUpdate ex_ann (HObserve 0 f_half); CUpdate ex_ann (HObserve 1 f_two)];
   [CUpdate ex_ann (HObserve 2 f_three); CUpdate ex_ann (HObserve 7 f_three); CUpdate ex_bob (HObserve 1 f_two)];
   [CUpdate ex_bob (HObserve 0 f_half); CCollect]].
Definition ex_hist_program : hist_calls := in_turn ex_hist_calls.
Definition ex_hist_results (s : schedule) (i : nat) :=
  map (fun d => result_of (fst d) (snd d)) (finished_calls ex_setup (hist_code 2) ex_hist_program s i).
Definition ex_hbefore : schedule := firstn 95 (ex_call_schedule 100).
Definition ex_hduring : schedule := firstn 305 (skipn 95 (ex_call_schedule 100)).

Lemma in_turn_in : forall A (l : list (list A)) i n x, nth_error (nth i l []) n = Some x -> exists t, In t l /\ In x t.
Proof.
  intros A l i n x H. destruct (Nat.lt_ge_cases i (List.length l)) as [L|L].
  - exists (nth i l []). split; [now apply nth_In|now apply nth_error_In in H].
  - rewrite nth_overflow in H by exact L. now destruct n.
Qed.

Lemma never_ran : forall Sh Op Res Mic V w (m : metric_code Sh Op Res Mic V) P s n i,
  forallb (fun ic => Nat.ltb (fst ic) n) s = true -> n <= i -> finished_calls w m P s i = [] /\ call_underway w m P s i = None.
Proof.
  intros Sh Op Res Mic V w m P s n i F L. unfold finished_calls, call_underway, underway, made, at_time.
  rewrite (untouched _ _ _ _ _ _ _ _ n i F L). split; reflexivity.
Qed.

(** Always counted under ann first. *)
Definition ex_torn_calls : list (list (vec_call counter_op)) :=
  [[CUpdate ex_ann KInc; CUpdate ex_bob KInc; CUpdate ex_ann KInc; CUpdate ex_bob KInc]; [CCollect]].
Definition ex_torn_program : call_program counter_op N N := in_turn ex_torn_calls.
Definition ex_torn_schedule : schedule := repeat (0, 0) 40 ++ repeat (1, 0) 14 ++ repeat (0, 0) 40 ++ repeat (1, 0) 60.
Definition ex_torn_results (s : schedule) (i : nat) :=
  map (fun d => result_of (fst d) (snd d)) (finished_calls ex_setup counter_code ex_torn_program s i).

(** Two threads collect while one counts; ann is deleted in between. *)
Definition ex_order_calls : list (list (vec_call counter_op)) :=
  [[CUpdate ex_bob (KIncBy 10); CUpdate ex_bob KInc; CUpdate ex_ann (KIncBy 5); CUpdate ex_bob (KIncBy 4); CUpdate ex_bob KInc];
   [CCollect; CDelete ex_ann; CUpdate ex_bob KInc; CUpdate ex_ann KInc]; [CCollect; CCollect; CCollect; CCollect]]%N.
Definition ex_order_program : call_program counter_op N N := in_turn ex_order_calls.
Definition ex_order_results (s : schedule) (i : nat) :=
  map (fun d => result_of (fst d) (snd d)) (finished_calls ex_setup counter_code ex_order_program s i).
Definition ex_first : schedule := firstn 80 (ex_call_schedule 60).
Definition ex_second : schedule := firstn 80 (skipn 80 (ex_call_schedule 60)).
(** The count of ann is collected, then deleted, then begun again. *)
Definition ex_again_schedule : schedule := repeat (0, 0) 80 ++ repeat (2, 0) 28 ++ repeat (1, 0) 150 ++ repeat (2, 0) 28.

Definition ex_horder_calls : list (list (vec_call hist_op)) :=
  [[CUpdate ex_bob (HObserve 0 f_half); CUpdate ex_bob (HObserve 1 f_two); CUpdate ex_bob (HObserve 2 f_three); CUpdate ex_bob (HObserve 1 f_two)];
   [CCollect; CUpdate ex_bob (HObserve 2 f_three)]; [CCollect; CCollect]].
Definition ex_horder_program : hist_calls := in_turn ex_horder_calls.
Definition ex_horder_results (s : schedule) (i : nat) :=
  map (fun d => result_of (fst d) (snd d)) (finished_calls ex_setup (hist_code 2) ex_horder_program s i).
Definition ex_hfirst : schedule := firstn 132 (ex_call_schedule 100).
Definition ex_hsecond : schedule := firstn 110 (skipn 132 (ex_call_schedule 100)).
