(** Dense metric vecs shared by threads: core/src/metric.rs:244-252, 389-397 and
    449-460.  Generic in the metric [O].

    As in ConcVecModel.v a metric has an identity, given when it is made, and a
    reference is the cell and the identity of the metric that was there: if the
    metric of the cell were replaced, using the reference would be an error. *)
From Coq Require Import List NArith ZArith Bool Arith.
From Verif Require Import Base ConcModel.
Import ListNotations.

Section Dense.
  Context {Sh Op Res Mic : Type}.
  Variable O : machine Sh Op Res Mic.
  (** [M::default()] *)
  Variable sh_new : Sh.
  (** The cardinality: metric.rs:159-163. *)
  Variable card : nat.

  (** [OnceLock<M>]: nothing yet, being initialised by a thread, initialised. *)
  Inductive cell := CEmpty | CBusy (i : nat) | CFull (n : nat) (sh : Sh).

  (** [d_env] are the callers' variables: thread, variable, reference. *)
  Record dvec := { d_cells : nat -> cell; d_next : nat; d_env : nat -> nat -> option (nat * nat) }.
  Definition dv_new : dvec := {| d_cells := fun _ => CEmpty; d_next := 0; d_env := fun _ _ => None |}.

  Inductive dense_op :=
  | DGet (h k : nat)            (* get_metric, metric.rs:247: get_or_init; the reference goes to variable h *)
  | DPeek (h k : nat)           (* value.get() of a collection, metric.rs:451, or of get_cardinality, 392 *)
  | DUse (h k : nat) (u : Op).  (* a call on the metric of cell k through the reference *)

  Inductive dense_res :=
  | DUnit
  | DFound (b : bool)
  | DVal (r : Res)
  | DBad        (* the variable has no value, or not one to cell k: not what the program meant *)
  | DPanic      (* index out of bounds *)
  | DDangling.  (* access to a metric that is gone *)

  Inductive dense_mic :=
  | NGet (h k : nat)              (* get_or_init: get() *)
  | NOnce (h k : nat)             (* get_or_init: Once::call_once *)
  | NInit (h k : nat)             (* the closure and the end of call_once *)
  | NBind (h k : nat)             (* get_or_init: get_unchecked *)
  | NPeek (h k : nat)
  | NUse (h k : nat) (u : Op)
  | NIn (k n : nat) (mic : Mic).

  (* metric.rs:244-252 and 450-460 *)
  Definition dense_begin (op : dense_op) : dense_mic :=
    match op with DGet h k => NGet h k | DPeek h k => NPeek h k | DUse h k u => NUse h k u end.

  (* metric.rs:247, a cell of the boxed slice *)
  Definition set_cell (k : nat) (x : cell) (c : dvec) : dvec :=
    {| d_cells := upd (d_cells c) k x; d_next := d_next c; d_env := d_env c |}.
  (* metric.rs:247, a cell of the boxed slice *)
  Definition fresh_cell (k : nat) (c : dvec) : dvec :=
    {| d_cells := upd (d_cells c) k (CFull (d_next c) sh_new); d_next := S (d_next c); d_env := d_env c |}.
  (* metric.rs:247, the caller keeps the reference *)
  Definition bind (i h k n : nat) (c : dvec) : dvec :=
    {| d_cells := d_cells c; d_next := d_next c; d_env := upd (d_env c) i (upd (d_env c i) h (Some (k, n))) |}.

  (* metric.rs:244-252 and 450-460 *)
  Definition dense_step (i ch : nat) (mic : dense_mic) (c : dvec) : option (dvec * (dense_mic + dense_res)) :=
    match mic with
    | NGet h k =>
      if Nat.ltb k card then
        match d_cells c k with
        | CFull n _ => Some (bind i h k n c, inr DUnit)
        | _ => Some (c, inl (NOnce h k))
        end
      else Some (c, inr DPanic)
    | NOnce h k =>
      match d_cells c k with
      | CEmpty => Some (set_cell k (CBusy i) c, inl (NInit h k))
      | CBusy _ => None
      | CFull _ _ => Some (c, inl (NBind h k))
      end
    | NInit h k => Some (fresh_cell k c, inl (NBind h k))
    | NBind h k =>
      match d_cells c k with
      | CFull n _ => Some (bind i h k n c, inr DUnit)
      | _ => Some (c, inr DDangling)
      end
    | NPeek h k =>
      if Nat.ltb k card then
        match d_cells c k with
        | CFull n _ => Some (bind i h k n c, inr (DFound true))
        | _ => Some (c, inr (DFound false))
        end
      else Some (c, inr DBad)
    | NUse h k u =>
      match d_env c i h with
      | None => Some (c, inr DBad)
      | Some (k', n) => if Nat.eqb k' k then Some (c, inl (NIn k n (m_begin O u))) else Some (c, inr DBad)
      end
    | NIn k n m =>
      match d_cells c k with
      | CFull n' sh =>
        if Nat.eqb n' n then
          match m_step O i ch m sh with
          | None => None
          | Some (sh', inl m') => Some (set_cell k (CFull n sh') c, inl (NIn k n m'))
          | Some (sh', inr r) => Some (set_cell k (CFull n sh') c, inr (DVal r))
          end
        else Some (c, inr DDangling)
      | _ => Some (c, inr DDangling)
      end
    end.

  (* metric.rs:244-252 and 450-460 *)
  Definition dense_machine : machine dvec dense_op dense_res dense_mic :=
    {| m_begin := dense_begin; m_step := dense_step |}.
End Dense.
Arguments cell : clear implicits.
Arguments dvec : clear implicits.
Arguments dense_op : clear implicits.
Arguments dense_res : clear implicits.
Arguments dense_mic : clear implicits.
