(** What ids of other vecs may and may not disturb. *)
From Coq Require Import List NArith Permutation.
From Verif Require Import Base LabelModel LabelSpec VecModel VecSpec ForeignModel.
Import ListNotations.
Local Open Scope N_scope.

(** Run a program that may use any ids. *)
Definition exec_any {L M} (W : world L M) (c : client L M) (ops : list (any_op L M))
  : outcome (client L M * list (vec_out L M)) :=
  any_run (w_bd W) L M (w_default W) (w_hash W) (w_visits W) (w_grows W) (w_iter W) c ops.

(** The program with the calls through other ids left out. *)
Definition owns {L M} (ops : list (any_op L M)) : list (vec_op L M) :=
  flat_map (fun op => match op with Own op => [op] | _ => [] end) ops.

(** The other ids that a program uses. *)
Definition strangers {L M} (ops : list (any_op L M)) : list (label_id L) :=
  flat_map (fun op => match op with
    | Own _ => []
    | AnyAccess id _ | AnyAccessMut id _ | AnyRemove id => [id]
    end) ops.

(** The groups that a vec takes the id to mean: a sparse vec goes by the id
    proper, a dense one by the position that the id carries in place of its
    hash. *)
Definition taken_for {L} (k : storage) (ls : lg_state L) (id : label_id L) (g : lg_group L) : Prop :=
  match k with
  | KSparse => lg_decode L ls (li_id id) = Done g
  | KDense => lg_decode_dense L ls (li_hash id) = Done g
  end.

Definition disturbed {L} (k : storage) (ls : lg_state L) (ids : list (label_id L)) (g : lg_group L) : Prop :=
  exists id, In id ids /\ taken_for k ls id g.

(** Two outcomes of the same call, for a client that looks only at groups that
    are not in [D]; [gs] are the groups behind the ids issued so far. *)
Definition agree {L M} (D : lg_group L -> Prop) (gs : list (lg_group L)) (op : vec_op L M)
  (o o' : vec_out L M) : Prop :=
  match op with
  | OpLookup _ | OpInitAll => o = o'
  | OpAccess h _ | OpAccessMut h _ | OpRemove h =>
    match nth_error gs h with
    | None => o = o'
    | Some g => ~ D g -> o = o'
    end
  | OpCardinality => exists lo lo' up, o = OutCardinality lo up /\ o' = OutCardinality lo' up
  | OpCollect => exists l l' both more more',
      o = OutSamples l /\ o' = OutSamples l' /\
      Permutation l (both ++ more) /\ Permutation l' (both ++ more') /\
      (forall g m, In (g, m) more \/ In (g, m) more' -> D g)
  end.

(** The one call of the program that cannot be carried out: on a dense vec, an
    access through an id that carries a position beyond the last; on a sparse
    vec, a collection when an id used so far stands for no labels of this set. *)
Definition cannot {L M} (k : storage) (ls : lg_state L) (ids : list (label_id L)) (op : any_op L M) : Prop :=
  match k, op with
  | KDense, (AnyAccess id _ | AnyAccessMut id _) =>
    exists c, lg_cardinality L ls = Some c /\ c <= li_hash id
  | KSparse, Own OpCollect => exists id, In id ids /\ lg_decode L ls (li_id id) = Panic
  | _, _ => False
  end.

(** The two ids say the same to a vec. *)
Definition says_the_same {L} (k : storage) (ls : lg_state L) (id id' : label_id L) : Prop :=
  match k with
  | KSparse => li_id id = li_id id' /\ li_hash id = li_hash id'
  | KDense => exists n g, lg_cardinality L ls = Some n /\ li_hash id < n /\ li_hash id' < n /\
      taken_for KDense ls id g /\ taken_for KDense ls id' g
  end.
