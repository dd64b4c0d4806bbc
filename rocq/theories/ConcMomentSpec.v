(** What each thread has written to a metric by some moment. *)
From Coq Require Import List NArith ZArith Bool Arith.
From Verif Require Import Base FloatModel MetricModel LabelModel LabelSpec ConcModel ConcSpec ConcVecModel ConcVecSpec ConcLabelModel ConcLabelSpec
  ConcCallModel ConcCallSpec ConcCallTheorems ConcDenseModel ConcDenseSpec ConcDenseCallModel ConcDenseCallSpec.
Import ListNotations.

Definition initial {A} (a b : list A) : Prop := exists c, b = a ++ c.

(** The writes of thread [j] in a history of one metric; [wr] says which calls write. *)
Definition writes_in {Op Res} (wr : Op -> bool) (j : nat) (log : list (@entry Op Res)) : list Op :=
  filter wr (map fst (of_thread j log)).

(** The writes to the metric of [g] by the calls of thread [j] that have returned, and with the one it is in. *)
Section Sparse.
  Context {Sh Op Res Mic V : Type}.
  Variable w : setup.
  Variable m : metric_code Sh Op Res Mic V.
  Variable P : call_program Op Res V.
  Variable wr : Op -> bool.
  Variable g : group_val.

  Definition may_write (call : vec_call Op) : list Op :=
    match call with CUpdate g' u => if group_eq_dec g' g then filter wr [u] else [] | _ => [] end.
  Definition has_written (d : vec_call Op * trace (label_op + vec_op unique Op) (label_res + vec_res unique Res V)) : list Op :=
    match result_of (fst d) (snd d) with Returned _ => may_write (fst d) | _ => [] end.
  Definition writes_finished (s : schedule) (j : nat) : list Op := flat_map has_written (finished_calls w m P s j).
  Definition writes_begun (s : schedule) (j : nat) : list Op :=
    writes_finished s j ++ match call_underway w m P s j with Some call => may_write call | None => [] end.
End Sparse.

(** The same for dense vecs. *)
Section Dense.
  Context {L : lgset} {Sh Op Res Mic V : Type}.
  Variable w : dense_setup L.
  Variable m : metric_code Sh Op Res Mic V.
  Variable P : dense_program L Op Res.
  Variable geq : forall a b : lg_group L, {a = b} + {a <> b}.
  Variable wr : Op -> bool.
  Variable g : lg_group L.

  Definition dense_may_write (call : dense_call L Op) : list Op :=
    match call with EUpdate g' u => if geq g' g then filter wr [u] else [] | _ => [] end.
  Definition dense_has_written (d : dense_call L Op * trace (look_op L + dense_op Op) (look_res L + dense_res Res)) : list Op :=
    match dense_result_of (fst d) (snd d) with DReturned _ => dense_may_write (fst d) | _ => [] end.
  Definition dense_writes_finished (s : schedule) (j : nat) : list Op := flat_map dense_has_written (dense_finished w m P s j).
  Definition dense_writes_begun (s : schedule) (j : nat) : list Op :=
    dense_writes_finished s j ++ match dense_underway w m P s j with Some call => dense_may_write call | None => [] end.
End Dense.

(** Integer gauges (gauge.rs:59-88): how they are read by a collection, which calls write. *)
Definition gauge_code : metric_code Z igauge_op Z igauge_op Z :=
  {| mc_machine := igauge_machine; mc_new := 0%Z; mc_view := fun v => v; mc_read := IRead |}.
Definition gauge_writes (op : igauge_op) : bool := match op with IWrite _ => true | IRead => false end.

(** Float gauges (gauge.rs:301-360). *)
Definition float_code := {| mc_machine := float_machine; mc_new := 0%N; mc_view := fun v : N => v; mc_read := FRead |}.
Definition float_writes (op : float_op) : bool := match op with FWrite _ => true | FRead => false end.

(** A gauge after the writes [us], one after the other, and the same for float gauges (as bits). *)
Definition gauge_after (us : list igauge_op) : Z :=
  fold_left (fun v u => match u with IWrite op => gauge_shared op v | IRead => v end) us 0%Z.
Definition float_after (us : list float_op) : N :=
  fold_left (fun v u => match u with FWrite op => fgauge_shared op v | FRead => v end) us 0%N.
