(** Common vocabulary of the model: machine integers, byte strings, panics. *)
From Coq Require Import List NArith ZArith Bool Lia String Ascii.
Import ListNotations.

(** Byte strings.  Rust [&str] / [&[u8]] are modelled as lists of [N]; a
    well-formed byte is below 256, see [wf_bytes]. *)
Definition bytes := list N.

(** Literal byte strings. *)
Definition str (s : string) : bytes := map N_of_ascii (list_ascii_of_string s).

Definition wf_bytes (b : bytes) : Prop := Forall (fun x => (x < 256)%N) b.

Fixpoint beqb (a b : bytes) : bool :=
  match a, b with
  | [], [] => true
  | x :: a', y :: b' => N.eqb x y && beqb a' b'
  | _, _ => false
  end.

(** Result of evaluating Rust code that may panic.  [Panic] stands for an
    unwinding panic; nothing is said about the state afterwards. *)
Inductive outcome (A : Type) : Type :=
| Done (a : A)
| Panic.
Arguments Done {A} a.
Arguments Panic {A}.

Definition obind {A B} (x : outcome A) (f : A -> outcome B) : outcome B :=
  match x with Done a => f a | Panic => Panic end.

Notation "'let!' x ':=' e 'in' k" := (obind e (fun x => k))
  (at level 200, x pattern, e at level 100, k at level 200, right associativity).

(** Build profile: [Debug] has overflow checks and debug assertions,
    [Release] has neither (the cargo default profiles). *)
Inductive build := Debug | Release.

(** u64 / usize on a 64-bit target. *)
Definition W64 : N := 18446744073709551616.

(** Rust's [a + b], [a * b] on usize/u64: overflow panics in debug builds and
    wraps in release builds. *)
Definition u_add (bd : build) (a b : N) : outcome N :=
  match bd with
  | Debug => if (a + b <? W64)%N then Done (a + b)%N else Panic
  | Release => Done ((a + b) mod W64)%N
  end.

Definition u_mul (bd : build) (a b : N) : outcome N :=
  match bd with
  | Debug => if (a * b <? W64)%N then Done (a * b)%N else Panic
  | Release => Done ((a * b) mod W64)%N
  end.

(** Rust's [checked_mul] on usize. *)
Definition checked_mul (a b : N) : option N :=
  if (a * b <? W64)%N then Some (a * b)%N else None.

(** Rust's [a / b] and [a % b] on usize: division by zero panics. *)
Definition u_div (a b : N) : outcome N :=
  if (b =? 0)%N then Panic else Done (a / b)%N.
Definition u_rem (a b : N) : outcome N :=
  if (b =? 0)%N then Panic else Done (a mod b)%N.

(** [debug_assert!(c)]. *)
Definition debug_assert (bd : build) (c : bool) : outcome unit :=
  match bd with
  | Debug => if c then Done tt else Panic
  | Release => Done tt
  end.

(** Atomic [fetch_add]/[fetch_sub] on u64 and i64 wrap in every build. *)
Definition wrap64 (x : N) : N := (x mod W64)%N.

(** Two's complement: the i64 value of a Z, [x as i64] for x : u64, etc. *)
Definition to_i64 (x : Z) : Z :=
  let y := (x mod Z.of_N W64)%Z in
  if (y <? 2 ^ 63)%Z then y else (y - Z.of_N W64)%Z.

(** [x as i64] for [x : u64]. *)
Definition u64_as_i64 (x : N) : Z := to_i64 (Z.of_N x).

(** [x as u64] for [x : i64]. *)
Definition i64_as_u64 (x : Z) : N := Z.to_N (x mod Z.of_N W64).

(** Positions in lists counted with [N] (Rust usize indices). *)
Fixpoint nlen {A} (l : list A) : N :=
  match l with [] => 0%N | _ :: t => N.succ (nlen t) end.

Fixpoint nnth {A} (l : list A) (i : N) : option A :=
  match l with
  | [] => None
  | x :: t => if (i =? 0)%N then Some x else nnth t (N.pred i)
  end.

(** Index of the first element satisfying [p]. *)
Fixpoint nfind {A} (p : A -> bool) (l : list A) : option N :=
  match l with
  | [] => None
  | x :: t => if p x then Some 0%N else option_map N.succ (nfind p t)
  end.

(** Association lists keyed by byte strings (struct fields by name). *)
Fixpoint assoc {V} (k : bytes) (l : list (bytes * V)) : option V :=
  match l with
  | [] => None
  | (k', v) :: t => if beqb k k' then Some v else assoc k t
  end.
