(** Label lookups by several threads: the [encode] and [decode] generated by
    derive(LabelGroup) (derive/src/label_group/to_tokens.rs:279-293, 353-372)
    over interners that other fields, other threads and outside code use too.

    Fixed sets never change.  An interner is a [ThreadedRodeo]
    (core/src/label/impls.rs:77-94), reached directly or through an [Arc]
    (120-142); each of its calls takes effect at one moment. *)
From Coq Require Import List NArith ZArith Bool Arith.
From Verif Require Import Base LabelModel ConcModel.
Import ListNotations.

(** The strings of every interner, in the order in which they got their keys. *)
Definition interners := nat -> list bytes.

Section Labels.
  Variable bd : build.
  (** The set struct.  What [f_set] says of a dynamic field is only that it is
      dynamic, its strings are in the interner number [loc (f_name f)]; fields
      that share an [Arc] have the same number. *)
  Variable fields : group_set.
  Variable loc : bytes -> nat.
  (** Whether an interner takes a new string, see [SInterner]. *)
  Variable accepts : nat -> list bytes -> bytes -> bool.

  (** [try_get_or_intern]: impls.rs:85-87 *)
  Definition intern (l : nat) (v : bytes) (m : interners) : interners * option N :=
    match set_encode (SInterner (accepts l) (m l)) v with
    | (SInterner _ elems, r) => (upd m l elems, r)
    | (_, r) => (m, r)
    end.

  (** [resolve]: impls.rs:89-91 *)
  Definition resolve (l : nat) (i : N) (m : interners) : outcome bytes :=
    set_decode (SInterner (accepts l) (m l)) i.

  Inductive label_op :=
  | LEncode (g : group_val)               (* LabelGroupSet::encode, to_tokens.rs:279-293 *)
  | LDecode (u : unique)                  (* LabelGroupSet::decode, to_tokens.rs:353-372 *)
  | LIntern (l : nat) (v : bytes).        (* an interner used by itself *)

  Inductive label_res :=
  | LId (r : option unique)
  | LGroup (g : group_val)
  | LKey (r : option N)
  | LPanic.

  Inductive label_mic :=
  | JFixed (g : group_val)                                           (* lines 281-287, nothing shared *)
  | JDynamic (index : N) (ds : list field) (g : group_val) (acc : list N)  (* 289-292, field by field *)
  | JDecode (u : unique)                                             (* 357-361 and the assertion *)
  | JResolve (fvals : group_val) (ds : list field) (is : list N) (acc : group_val) (* 365-367 *)
  | JIntern (l : nat) (v : bytes).

  (* derive/src/label_group/to_tokens.rs:279-293 and 353-372 *)
  Definition label_begin (op : label_op) : label_mic :=
    match op with LEncode g => JFixed g | LDecode u => JDecode u | LIntern l v => JIntern l v end.

  (* derive/src/label_group/to_tokens.rs:279-293 and 353-372 *)
  Definition label_step (i ch : nat) (mic : label_mic) (m : interners)
    : option (interners * (label_mic + label_res)) :=
    Some
    match mic with
    | JFixed g =>
      match encode_fixed bd (fixed fields) g 0 1 with
      | Panic => (m, inr LPanic)
      | Done None => (m, inr (LId None))
      | Done (Some index) => (m, inl (JDynamic index (dynamics fields) g []))
      end
    | JDynamic index [] g acc => (m, inr (LId (Some (index, acc))))
    | JDynamic index (f :: rest) g acc =>
      let (m', r) := intern (loc (f_name f)) (get_field g f) m in
      match r with
      | None => (m', inr (LId None))
      | Some k => (m', inl (JDynamic index rest g (acc ++ [k])))
      end
    | JDecode u =>
      match (let! p := decode_fixed (fixed fields) (fst u) in
             let! _ := debug_assert bd (fst p =? 0)%N in Done (snd p)) with
      | Panic => (m, inr LPanic)
      | Done fvals => (m, inl (JResolve fvals (dynamics fields) (snd u) []))
      end
    | JResolve fvals [] _ acc =>
      (m, inr (LGroup (map (fun f => (f_name f, get_field (fvals ++ acc) f)) fields)))
    | JResolve fvals (f :: rest) (i :: is) acc =>
      match resolve (loc (f_name f)) i m with
      | Panic => (m, inr LPanic)
      | Done v => (m, inl (JResolve fvals rest is (acc ++ [(f_name f, v)])))
      end
    | JResolve _ (_ :: _) [] _ => (m, inr LPanic)
    | JIntern l v => let (m', r) := intern l v m in (m', inr (LKey r))
    end.

  (* derive/src/label_group/to_tokens.rs:279-293 and 353-372 *)
  Definition label_machine : machine interners label_op label_res label_mic :=
    {| m_begin := label_begin; m_step := label_step |}.
End Labels.
