(** Vocabulary for lookups by several threads. *)
From Coq Require Import List NArith ZArith Bool Arith.
From Verif Require Import Base LabelModel LabelSpec ConcModel ConcLabelModel.
Import ListNotations.

(** The set struct as one thread would find it: every dynamic field with the
    strings its interner has now. *)
Definition current (fields : group_set) (loc : bytes -> nat) (accepts : nat -> list bytes -> bytes -> bool)
    (m : interners) : group_set :=
  map (fun f => if is_dynamic (f_set f)
                then {| f_name := f_name f; f_rename := f_rename f;
                        f_set := SInterner (accepts (loc (f_name f))) (m (loc (f_name f))) |}
                else f) fields.

(** Programs that look up groups of the right type. *)
Definition lookups_shaped (fields : group_set) (prog : program label_op label_res) : Prop :=
  forall i done g, prog i done = Some (LEncode g) -> well_shaped fields g.
