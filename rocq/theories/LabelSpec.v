(** Independent vocabulary for the label properties. *)
From Coq Require Import List NArith ZArith Bool.
From Verif Require Import Base LabelModel.
Import ListNotations.
Local Open Scope N_scope.

(** The values a label set knows, in index order. *)
Definition elements (s : label_set) : list bytes :=
  match s with
  | SStatic e => map v_ident (en_variants e)
  | SFixedSet l => l
  | SInterner _ l => l
  end.

(** [v] is the [i]-th known value. *)
Definition at_position (s : label_set) (i : N) (v : bytes) : Prop :=
  nth_error (elements s) (N.to_nat i) = Some v.

(** Guarantees given by Rust and by the set types: distinct variant
    identifiers, distinct strings, distinct field names. *)
Definition wf_label_set (s : label_set) : Prop := NoDup (elements s).
Definition wf_group_set (s : group_set) : Prop :=
  NoDup (map f_name s) /\ Forall (fun f => wf_label_set (f_set f)) s.

(** A struct value has the fields of the set struct, in declaration order. *)
Definition well_shaped (s : group_set) (g : group_val) : Prop :=
  map fst g = map f_name s.

(** A group all of whose values are known. *)
Definition member (s : group_set) (g : group_val) : Prop :=
  Forall2 (fun f p => fst p = f_name f /\ In (snd p) (elements (f_set f))) s g.

(** Number of combinations of the fixed fields. *)
Definition combinations (s : group_set) : N :=
  fold_right (fun f acc => if is_dynamic (f_set f) then acc
                           else N.of_nat (length (elements (f_set f))) * acc) 1 s.

Definition no_dynamic (s : group_set) : Prop :=
  Forall (fun f => is_dynamic (f_set f) = false) s.

(** Layouts whose fixed part is non-empty and addressable by a usize. *)
Definition sound_set (s : group_set) : Prop :=
  wf_group_set s /\ 0 < combinations s /\ combinations s < W64.

(** A field refuses a value: it does not know it and cannot learn it. *)
Definition refuses (f : field) (v : bytes) : Prop :=
  ~ In v (elements (f_set f)) /\
  match f_set f with
  | SInterner accepts known => accepts known v = false
  | _ => True
  end.

(** The value of the field called [n]. *)
Definition field_value (g : group_val) (n v : bytes) : Prop := In (n, v) g.

(** The tuple of positions of the values of a group, declaration order. *)
Inductive positions : group_set -> group_val -> list N -> Prop :=
| pos_nil : positions [] [] []
| pos_cons : forall f s v g i ps,
    at_position (f_set f) i v -> positions s g ps ->
    positions (f :: s) ((f_name f, v) :: g) (i :: ps).

(** Lexicographic order on tuples. *)
Fixpoint lex_lt (a b : list N) : Prop :=
  match a, b with
  | x :: a', y :: b' => x < y \/ (x = y /\ lex_lt a' b')
  | _, _ => False
  end.

(** An enum is well formed when its identifiers are distinct. *)
Definition wf_enum (e : enum_spec) : Prop := NoDup (map v_ident (en_variants e)).

(* ------------------------------------------------------------------ *)
(** Histories of encode calls on one set: the calls, each with its result. *)
Section History.
  Variable L : lgset.
  Inductive history : lg_state L -> list (lg_group L * option (lg_unique L)) -> lg_state L -> Prop :=
  | hist_nil : forall s, history s [] s
  | hist_cons : forall s g s' r h s'',
      lg_encode L s g = Done (s', r) -> history s' h s'' -> history s ((g, r) :: h) s''.
End History.

(** The contract of [LabelGroupSet] (core/src/label/group.rs:36-55):
    [ok] - well-formed set values; [wt] - groups of the right shape;
    [valid] - ids the set stands behind. *)
Record lawful (L : lgset)
  (ok : lg_state L -> Prop)
  (wt : lg_state L -> lg_group L -> Prop)
  (valid : lg_state L -> lg_unique L -> Prop) : Prop := {
  law_eqb : forall u v, lg_unique_eqb L u v = true <-> u = v;
  (** encode does not panic, keeps the set well formed, and never takes anything back *)
  law_encode : forall s g, ok s -> wt s g -> exists s' r,
    lg_encode L s g = Done (s', r) /\ ok s' /\
    lg_cardinality L s' = lg_cardinality L s /\
    (forall g', wt s g' -> wt s' g') /\
    (forall u, valid s u -> valid s' u /\ lg_decode L s' u = lg_decode L s u
                            /\ lg_encode_dense L s' u = lg_encode_dense L s u) /\
    (forall i c, lg_cardinality L s = Some c -> i < c -> lg_decode_dense L s' i = lg_decode_dense L s i);
  (** an id stands for the labels it was made from *)
  law_encode_some : forall s g s' u, ok s -> wt s g ->
    lg_encode L s g = Done (s', Some u) -> valid s' u /\ lg_decode L s' u = Done g;
  (** a valid id is the id of exactly one group *)
  law_valid : forall s u, ok s -> valid s u -> exists g,
    wt s g /\ lg_decode L s u = Done g /\ lg_encode L s g = Done (s, Some u);
  (** dense positions *)
  law_dense : forall s u c, ok s -> valid s u -> lg_cardinality L s = Some c -> exists i,
    lg_encode_dense L s u = Done (Some i) /\ i < c /\ lg_decode_dense L s i = lg_decode L s u;
  law_dense_onto : forall s i c, ok s -> lg_cardinality L s = Some c -> i < c -> exists u,
    valid s u /\ lg_encode_dense L s u = Done (Some i);
  law_card_bound : forall s c, ok s -> lg_cardinality L s = Some c -> c < W64 }.

(** ** Sets used in examples *)

Definition ex_enum : enum_spec :=
  {| en_rename_all := Snake;
     en_variants := [ {| v_ident := [71]; v_value := None; v_rename := None |};
                      {| v_ident := [80]; v_value := Some 2%Z; v_rename := None |};
                      {| v_ident := [68]; v_value := None; v_rename := Some [100] |} ] |}.

(** struct { op: #[label(fixed)] enum, tenant: #[dynamic_with], zone: #[fixed_with] } *)
Definition ex_set : group_set :=
  [ {| f_name := [1]; f_rename := None; f_set := SStatic ex_enum |};
    {| f_name := [2]; f_rename := None; f_set := SInterner (fun known _ => N.of_nat (length known) <? 2) [] |};
    {| f_name := [3]; f_rename := None; f_set := SFixedSet [[97]; [98]] |} ].

(** struct { op: enum, zone: #[fixed_with] } *)
Definition ex_fixed_set : group_set :=
  [ {| f_name := [1]; f_rename := None; f_set := SStatic ex_enum |};
    {| f_name := [3]; f_rename := None; f_set := SFixedSet [[97]; [98]] |} ].

(** 65 two-valued fields. *)
Definition ex_wide : group_set :=
  map (fun i => {| f_name := [N.of_nat i]; f_rename := None; f_set := SFixedSet [[97]; [98]] |}) (seq 0 65).
Definition ex_wide_low : group_val := map (fun i => ([N.of_nat i], [97])) (seq 0 65).
Definition ex_wide_high : group_val :=
  map (fun i => ([N.of_nat i], if Nat.eqb i 0 then [98] else [97])) (seq 0 65).
