(** Client programs that also use label ids issued by other vecs.

    core/src/metric.rs:473 [LabelId<L>] names the type of the label set and not
    the vec, so an id issued by one vec can be handed to any other vec over the
    same type of label set: nothing checks it.  metric.rs:356-386 document that
    this "can panic or cause strange behaviour". *)
From Coq Require Import List NArith.
From Verif Require Import Base LabelModel VecModel.
Import ListNotations.
Local Open Scope N_scope.

Section Foreign.
  Context (bd : build) (L : lgset) (M : Type).
  Variable mdefault : M.
  Variable hash_one : lg_unique L -> N.
  Variable visits : N -> N -> bool.
  Variable grows : table L M -> bool.
  Variable iter_order : table L M -> table L M.

  (** The calls of a client ([vec_op], through ids this vec has issued) and the
      same three calls with any id whatever: metric.rs:360-362 [get_metric],
      384-386 [get_metric_mut], 373-378 [remove_metric]. *)
  Inductive any_op :=
  | Own (op : vec_op L M)
  | AnyAccess (id : label_id L) (f : M -> M * N)
  | AnyAccessMut (id : label_id L) (f : M -> M * N)
  | AnyRemove (id : label_id L).

  Definition any_step (c : client L M) (op : any_op) : outcome (client L M * vec_out L M) :=
    match op with
    | Own op => vec_step bd L M mdefault hash_one visits grows iter_order c op
    | AnyAccess id f =>
      let! p := vec_get_metric bd L M mdefault hash_one visits grows (cl_vec c) id f in
      let (v, r) := (p : metric_vec L M * N) in
      Done (with_vec L M c v, OutValue r)
    | AnyAccessMut id f =>
      let! p := vec_get_metric_mut bd L M mdefault hash_one visits grows (cl_vec c) id f in
      let (v, r) := (p : metric_vec L M * N) in
      Done (with_vec L M c v, OutValue r)
    | AnyRemove id =>
      let! p := vec_remove_metric bd L M visits (cl_vec c) id in
      let (v, r) := (p : metric_vec L M * option M) in
      Done (with_vec L M c v, OutRemoved r)
    end.

  (* metric.rs:332-397, a client *)
  Fixpoint any_run (c : client L M) (ops : list any_op) : outcome (client L M * list (vec_out L M)) :=
    match ops with
    | [] => Done (c, [])
    | op :: rest =>
      let! p := any_step c op in
      let (c', o) := (p : client L M * vec_out L M) in
      let! q := any_run c' rest in
      let (c'', os) := (q : client L M * list (vec_out L M)) in
      Done (c'', o :: os)
    end.
End Foreign.

Arguments Own {L M}.
Arguments AnyAccess {L M}.
Arguments AnyAccessMut {L M}.
Arguments AnyRemove {L M}.
