(** Labels: core/src/label/{value,group,impls}.rs and the code generated by
    derive(FixedCardinalityLabel) and derive(LabelGroup). *)
From Coq Require Import List NArith ZArith Bool String.
From Verif Require Import Base.
Import ListNotations.
Local Open Scope N_scope.

(** What a [LabelVisitor] receives (core/src/label/value.rs:101-111):
    [write_int], [write_float] (bit pattern of the f64), [write_str]. *)
Inductive lvalue :=
| LInt (x : Z)
| LFloat (bits : N)
| LStr (s : bytes).

(* ------------------------------------------------------------------ *)
(** ** derive(FixedCardinalityLabel) *)

(** derive/src/value/attr.rs:102-111 *)
Inductive rename_all :=
  UpperCamel | LowerCamel | Snake | Kebab | ShoutySnake | ShoutyKebab | Title | Train.

(** derive/src/value/mod.rs [FixedCardinalityLabelVariant]: identifier,
    explicit integer discriminant, #[label(rename)].  Rust guarantees distinct
    identifiers. *)
Record variant := {
  v_ident : bytes;
  v_value : option Z;
  v_rename : option bytes }.

(** derive/src/value/mod.rs [FixedCardinalityLabel]. *)
Record enum_spec := { en_rename_all : rename_all; en_variants : list variant }.

(** derive/src/value/parse.rs:54: the default of [rename_all] is snake case. *)
Definition default_rename_all : rename_all := Snake.

(** derive/src/value/to_tokens.rs:16, 48-50 [cardinality] *)
Definition enum_cardinality (e : enum_spec) : N := nlen (en_variants e).

(** derive/src/value/to_tokens.rs:17,19,52-56 [encode]: the arms
    [Ident::V0 => 0, Ident::V1 => 1, ...] tried in order.  A value of the enum
    is represented by its variant identifier; [None] is only returned for
    identifiers that are not variants, i.e. for no value of the Rust type. *)
Definition enum_encode (e : enum_spec) (v : bytes) : option N :=
  nfind (fun var => beqb v (v_ident var)) (en_variants e).

(** derive/src/value/to_tokens.rs:18,20,58-63 [decode]: the arms
    [0 => Ident::V0, ...], then [_ => panic!]. *)
Definition enum_decode (e : enum_spec) (i : N) : outcome bytes :=
  match nnth (en_variants e) i with
  | Some var => Done (v_ident var)
  | None => Panic
  end.

Section Heck.
  (** The case conversion of the external crate heck
      (derive/src/value/attr.rs:113-129 [RenameAll::apply]). *)
  Variable heck : rename_all -> bytes -> bytes.

  (** derive/src/value/to_tokens.rs:22-34, 67-73 [LabelValue::visit] *)
  Definition enum_visit (e : enum_spec) (v : bytes) : option lvalue :=
    match find (fun var => beqb v (v_ident var)) (en_variants e) with
    | None => None
    | Some var => Some
        match v_value var with
        | Some int => LInt int
        | None =>
          match v_rename var with
          | Some s => LStr s
          | None => LStr (heck (en_rename_all e) (v_ident var))
          end
        end
    end.
End Heck.

(* ------------------------------------------------------------------ *)
(** ** Label sets *)

(** Implementations of [LabelSet]:
    - [SStatic]: [StaticLabelSet<T>] for a derived enum (value.rs:7-43);
    - [SFixedSet]: [IndexSet] (impls.rs:15-31), [RodeoReader] (impls.rs:60-75),
      [phf::OrderedSet] (impls.rs:96-111): an immutable list of distinct
      strings.  [IndexSet<T>] is modelled for string-like [T] only;
    - [SInterner]: [ThreadedRodeo] (impls.rs:77-94), strings interned so far;
      whether [try_get_or_intern] succeeds on a new string (key space, memory
      limit) may depend on them and on the string in any way.
    [Arc<T>] (impls.rs:120-142) delegates and is not represented. *)
Inductive label_set :=
| SStatic (e : enum_spec)
| SFixedSet (elems : list bytes)
| SInterner (accepts : list bytes -> bytes -> bool) (elems : list bytes).

(** derive/src/label_group/attr.rs:58-71: [Fixed] and [FixedWith] sort as
    Fixed, [DynamicWith] as Dynamic. *)
Definition is_dynamic (s : label_set) : bool :=
  match s with SInterner _ _ => true | _ => false end.

(** [FixedCardinalitySet::cardinality]: value.rs:24-28, impls.rs:5-13, 51-52
    (with value.rs:152-154), 113-118.  Dynamic sets have none
    ([dynamic_cardinality] = None, impls.rs:81-83). *)
Definition set_cardinality (s : label_set) : option N :=
  match s with
  | SStatic e => Some (enum_cardinality e)
  | SFixedSet l => Some (nlen l)
  | SInterner _ _ => None
  end.

(** [LabelSet::encode]: value.rs:36-38; impls.rs:24-26 (get_index_of), 66-68,
    101-103 (get_index), 85-87 (try_get_or_intern).  Returns the set because
    interning mutates it. *)
Definition set_encode (s : label_set) (v : bytes) : label_set * option N :=
  match s with
  | SStatic e => (s, enum_encode e v)
  | SFixedSet l => (s, nfind (beqb v) l)
  | SInterner accepts l =>
    match nfind (beqb v) l with
    | Some i => (s, Some i)
    | None =>
      if accepts l v then (SInterner accepts (l ++ [v]), Some (nlen l))
      else (s, None)
    end
  end.

(** [LabelSet::decode]: value.rs:40-42; impls.rs:28-30, 70-72, 105-107, 89-91:
    out of range panics. *)
Definition set_decode (s : label_set) (i : N) : outcome bytes :=
  match s with
  | SStatic e => enum_decode e i
  | SFixedSet l | SInterner _ l =>
    match nnth l i with Some v => Done v | None => Panic end
  end.

(* ------------------------------------------------------------------ *)
(** ** derive(LabelGroup) *)

(** A field of the user's struct together with the corresponding field of the
    generated set struct (derive/src/label_group/mod.rs [LabelGroupField],
    to_tokens.rs:63-82).  Fields are accessed by name in the generated code, so
    the order in which the set struct stores them is immaterial; we keep them
    in declaration order. *)
Record field := {
  f_name : bytes;
  f_rename : option bytes;
  f_set : label_set }.

(** The generated set struct: its fields in declaration order. *)
Definition group_set := list field.

(** A value of the user's struct: field name and value, declaration order.
    (A value of an enum field is its variant identifier.).
    (derive/src/label_group: the struct the macro is applied to) *)
Definition group_val := list (bytes * bytes).

(** Unique id: the index, and one index per dynamic field
    (derive/src/label_group/to_tokens.rs:166, 180). *)
Definition unique := (N * list N)%type.

Definition key_of (f : field) : N := if is_dynamic (f_set f) then 0 else 1.

(** [slice::sort_by_key] is a stable sort; the key order is Dynamic < Fixed
    (derive/src/label_group/attr.rs:67-71). *)
Fixpoint insert_by_key (f : field) (l : list field) : list field :=
  match l with
  | [] => [f]
  | g :: t => if key_of f <=? key_of g then f :: l else g :: insert_by_key f t
  end.
Fixpoint sort_by_key (l : list field) : list field :=
  match l with
  | [] => []
  | f :: t => insert_by_key f (sort_by_key t)
  end.

(** derive/src/label_group/to_tokens.rs:84-86: [partition_point] of the sorted
    fields and [split_at]. *)
Fixpoint split_dynamic (l : list field) : list field * list field :=
  match l with
  | [] => ([], [])
  | f :: t =>
    if is_dynamic (f_set f) then
      let (d, x) := split_dynamic t in (f :: d, x)
    else ([], l)
  end.

(** to_tokens.rs:58-59, 84-86 *)
Definition dynamics (s : group_set) : list field := fst (split_dynamic (sort_by_key s)).

(** to_tokens.rs:88-91: the fixed fields in reverse order *)
Definition fixed (s : group_set) : list field := rev (snd (split_dynamic (sort_by_key s))).

(** Cardinality of a fixed field (to_tokens.rs:93-105). *)
Definition field_card (f : field) : N :=
  match set_cardinality (f_set f) with Some c => c | None => 0 end.

(** to_tokens.rs:160-165 and 177-179: [cardinality] *)
Definition group_cardinality (s : group_set) : option N :=
  match dynamics s with
  | [] => fold_left (fun acc f =>
            match acc with Some x => checked_mul x (field_card f) | None => None end)
          (fixed s) (Some 1)
  | _ => None
  end.

(** Field access [value.#name]; a missing field cannot happen in Rust. *)
Definition get_field (g : group_val) (f : field) : bytes :=
  match assoc (f_name f) g with Some v => v | None => [] end.

(** to_tokens.rs:281-287: the loop over the fixed fields,
    [index += encode(field)? * mul; mul *= cardinality;].  [Done None] is the
    early return of [?]. *)
Fixpoint encode_fixed (bd : build) (fs : list field) (g : group_val) (index mul : N)
  : outcome (option N) :=
  match fs with
  | [] => Done (Some index)
  | f :: rest =>
    match snd (set_encode (f_set f) (get_field g f)) with
    | None => Done None
    | Some e =>
      let! p := u_mul bd e mul in
      let! index' := u_add bd index p in
      let! mul' := u_mul bd mul (field_card f) in
      encode_fixed bd rest g index' mul'
    end
  end.

(** Replace the set of the field called [n]. *)
(* core/src/label/impls.rs:77-142: interners change behind a shared reference *)
Definition update_set (n : bytes) (s' : label_set) (s : group_set) : group_set :=
  map (fun f => if beqb (f_name f) n
                then {| f_name := f_name f; f_rename := f_rename f; f_set := s' |}
                else f) s.

(** to_tokens.rs:289-292: the dynamic fields in order, each [encode(..)?]. *)
Fixpoint encode_dynamic (ds : list field) (g : group_val) (s : group_set)
  : group_set * option (list N) :=
  match ds with
  | [] => (s, Some [])
  | f :: rest =>
    let (set', r) := set_encode (f_set f) (get_field g f) in
    let s' := update_set (f_name f) set' s in
    match r with
    | None => (s', None)
    | Some i =>
      let (s'', r') := encode_dynamic rest g s' in
      (s'', option_map (cons i) r')
    end
  end.

(** to_tokens.rs:279-293 [LabelGroupSet::encode] *)
Definition group_encode (bd : build) (s : group_set) (g : group_val)
  : outcome (group_set * option unique) :=
  let! r := encode_fixed bd (fixed s) g 0 1 in
  match r with
  | None => Done (s, None)
  | Some index =>
    let (s', r') := encode_dynamic (dynamics s) g s in
    Done (s', option_map (fun ds => (index, ds)) r')
  end.

(** to_tokens.rs:357-361: the [let card = ..; let (index, index1) = ..; let
    field = decode(index1)] chain.  Returns the remaining index and the decoded
    fields. *)
Fixpoint decode_fixed (fs : list field) (index : N) : outcome (N * group_val) :=
  match fs with
  | [] => Done (index, [])
  | f :: rest =>
    let card := field_card f in
    let! q := u_div index card in
    let! r := u_rem index card in
    let! v := set_decode (f_set f) r in
    let! p := decode_fixed rest q in
    let (index', vs) := (p : N * group_val) in
    Done (index', (f_name f, v) :: vs)
  end.

(** to_tokens.rs:365-367; the tuple pattern of line 355 binds one index per
    dynamic field, so a different number cannot happen. *)
Fixpoint decode_dynamic (ds : list field) (is : list N) : outcome group_val :=
  match ds, is with
  | [], _ => Done []
  | f :: rest, i :: is' =>
    let! v := set_decode (f_set f) i in
    let! vs := decode_dynamic rest is' in
    Done ((f_name f, v) :: vs)
  | _ :: _, [] => Panic
  end.

(** to_tokens.rs:353-372 [LabelGroupSet::decode]; the struct literal at
    369-371 collects the local variables by name. *)
Definition group_decode (bd : build) (s : group_set) (u : unique) : outcome group_val :=
  let (index, ds) := u in
  let! p := decode_fixed (fixed s) index in
  let (index', fvals) := (p : N * group_val) in
  let! _ := debug_assert bd (index' =? 0) in
  let! dvals := decode_dynamic (dynamics s) ds in
  Done (map (fun f => (f_name f, get_field (fvals ++ dvals) f)) s).

(** to_tokens.rs:167-169 and 182-184 [encode_dense] *)
Definition group_encode_dense (s : group_set) (u : unique) : option N :=
  match dynamics s with [] => Some (fst u) | _ => None end.

(** to_tokens.rs:170-172 and 185-187 [decode_dense] *)
Definition group_decode_dense (bd : build) (s : group_set) (i : N) : outcome group_val :=
  match dynamics s with [] => group_decode bd s (i, []) | _ => Panic end.

Section Visit.
  Variable heck : rename_all -> bytes -> bytes.

  (** to_tokens.rs:20-28, 35-37 [LabelGroup::visit_values]: declaration order,
      name = rename or field name. *)
  Definition field_label (f : field) : bytes :=
    match f_rename f with Some r => r | None => f_name f end.

  (** The [LabelValue] of a field value: enum (value/to_tokens.rs:67-73) or
      string (impls.rs:33-49). *)
  Definition value_visit (s : label_set) (v : bytes) : lvalue :=
    match s with
    | SStatic e => match enum_visit heck e v with Some x => x | None => LStr [] end
    | _ => LStr v
    end.

  Definition group_visit (s : group_set) (g : group_val) : list (bytes * lvalue) :=
    map (fun f => (field_label f, value_visit (f_set f) (get_field g f))) s.
End Visit.

(* ------------------------------------------------------------------ *)
(** ** The LabelGroupSet trait and its composition *)

(** The trait [LabelGroupSet] (core/src/label/group.rs:36-55).  [lg_state] is
    the set value itself, including interior-mutable interners; [encode] takes
    [&self] but may intern. *)
Record lgset := {
  lg_state : Type;
  lg_group : Type;
  lg_unique : Type;
  lg_unique_eqb : lg_unique -> lg_unique -> bool;
  lg_cardinality : lg_state -> option N;
  lg_encode_dense : lg_state -> lg_unique -> outcome (option N);
  lg_decode_dense : lg_state -> N -> outcome lg_group;
  lg_encode : lg_state -> lg_group -> outcome (lg_state * option lg_unique);
  lg_decode : lg_state -> lg_unique -> outcome lg_group }.

(* the derived [PartialEq] of the unique id, label_group/to_tokens.rs:166-180 *)
Definition unique_eqb (a b : unique) : bool := (fst a =? fst b) && beqb (snd a) (snd b).

(** The set generated by derive(LabelGroup) as a [LabelGroupSet]. *)
(* derive/src/label_group/to_tokens.rs:213-374 *)
Definition derived_lgset (bd : build) : lgset := {|
  lg_state := group_set;
  lg_group := group_val;
  lg_unique := unique;
  lg_unique_eqb := unique_eqb;
  lg_cardinality := group_cardinality;
  lg_encode_dense := fun s u => Done (group_encode_dense s u);
  lg_decode_dense := group_decode_dense bd;
  lg_encode := group_encode bd;
  lg_decode := group_decode bd |}.

(** [StaticLabelSet<T>] as a [LabelGroupSet] (core/src/label/value.rs:45-69). *)
Definition static_lgset : lgset := {|
  lg_state := enum_spec;
  lg_group := bytes;
  lg_unique := N;
  lg_unique_eqb := N.eqb;
  lg_cardinality := fun e => Some (enum_cardinality e);
  lg_encode_dense := fun _ u => Done (Some u);
  lg_decode_dense := enum_decode;
  lg_encode := fun e v => Done (e, enum_encode e v);
  lg_decode := enum_decode |}.

(** [ComposedGroup<A, B>] as a [LabelGroupSet] (core/src/label/group.rs:68-118). *)
Section Composed.
  Variable bd : build.
  Variables A B : lgset.

  Definition composed_state := (lg_state A * lg_state B)%type.
  Definition composed_unique := (lg_unique A * lg_unique B)%type.

  (** group.rs:71-75: [self.0.cardinality().and_then(|x|
      x.checked_mul(self.1.cardinality()?))] *)
  Definition composed_cardinality (s : composed_state) : option N :=
    match lg_cardinality A (fst s) with
    | None => None
    | Some x =>
      match lg_cardinality B (snd s) with
      | None => None
      | Some y => checked_mul x y
      end
    end.

  (** group.rs:77-88 *)
  Definition composed_encode_dense (s : composed_state) (u : composed_unique)
    : outcome (option N) :=
    let mul := 1 in
    let index := 0 in
    let! e1 := lg_encode_dense B (snd s) (snd u) in
    match e1 with
    | None => Done None
    | Some e1 =>
      let! p := u_mul bd e1 mul in
      let! index := u_add bd index p in
      match lg_cardinality B (snd s) with
      | None => Done None
      | Some c1 =>
        let! mul := u_mul bd mul c1 in
        let! e0 := lg_encode_dense A (fst s) (fst u) in
        match e0 with
        | None => Done None
        | Some e0 =>
          let! p := u_mul bd e0 mul in
          let! index := u_add bd index p in
          Done (Some index)
        end
      end
    end.

  (* core/src/label/group.rs:93-99, Option::unwrap *)
  Definition unwrap {X} (o : option X) : outcome X :=
    match o with Some x => Done x | None => Panic end.

  (** group.rs:90-104 *)
  Definition composed_decode_dense (s : composed_state) (value : N)
    : outcome (lg_group A * lg_group B) :=
    let index := value in
    let! c1 := unwrap (lg_cardinality B (snd s)) in
    let! q := u_div index c1 in
    let! index1 := u_rem index c1 in
    let! b := lg_decode_dense B (snd s) index1 in
    let! c0 := unwrap (lg_cardinality A (fst s)) in
    let! q' := u_div q c0 in
    let! index1' := u_rem q c0 in
    let! a := lg_decode_dense A (fst s) index1' in
    let! _ := debug_assert bd (q' =? 0) in
    Done (a, b).

  (** group.rs:108-113 *)
  Definition composed_encode (s : composed_state) (g : lg_group A * lg_group B)
    : outcome (composed_state * option composed_unique) :=
    let! ra := lg_encode A (fst s) (fst g) in
    let (sa, ua) := (ra : lg_state A * option (lg_unique A)) in
    match ua with
    | None => Done ((sa, snd s), None)
    | Some ua =>
      let! rb := lg_encode B (snd s) (snd g) in
      let (sb, ub) := (rb : lg_state B * option (lg_unique B)) in
      match ub with
      | None => Done ((sa, sb), None)
      | Some ub => Done ((sa, sb), Some (ua, ub))
      end
    end.

  (** group.rs:115-117 *)
  Definition composed_decode (s : composed_state) (u : composed_unique)
    : outcome (lg_group A * lg_group B) :=
    let! a := lg_decode A (fst s) (fst u) in
    let! b := lg_decode B (snd s) (snd u) in
    Done (a, b).

  (** group.rs:65-66: derived PartialEq *)
  Definition composed_unique_eqb (u v : composed_unique) : bool :=
    lg_unique_eqb A (fst u) (fst v) && lg_unique_eqb B (snd u) (snd v).

  (** [&'static T] (group.rs:133-157) and [Arc<T>] (group.rs:159-183) delegate
      every method and are not represented. *)
  Definition composed_lgset : lgset := {|
    lg_state := composed_state;
    lg_group := (lg_group A * lg_group B)%type;
    lg_unique := composed_unique;
    lg_unique_eqb := composed_unique_eqb;
    lg_cardinality := composed_cardinality;
    lg_encode_dense := composed_encode_dense;
    lg_decode_dense := composed_decode_dense;
    lg_encode := composed_encode;
    lg_decode := composed_decode |}.
End Composed.
