(** [std::io::Write] as used by the encoders: only [write_all] is called. *)
From Coq Require Import List NArith Bool.
From Verif Require Import Base.
Import ListNotations.

(** Outcome of a fallible call: [Result<(), E>] with the error value opaque, or
    an unwinding panic. *)
Inductive result := ROk | RErr | RPanic.

(** A writer: the bytes accepted so far, the number of [write_all] calls so far
    and a plan saying how each future call behaves: [None] accepts the whole
    buffer, [Some k] accepts only the first [k] bytes and returns an error.
    Quantifying over the plan quantifies over all deterministic or
    non-deterministic writers.  [Vec<u8>] and text.rs:419-440 [BytesWriter] are
    the plan that never fails. *)
Record writer := { w_out : bytes; w_calls : nat; w_plan : nat -> option nat }.

(** [Write::write_all]; for an empty buffer the std implementation returns
    [Ok] without calling [write]. *)
Definition write_all (b : bytes) (w : writer) : writer * result :=
  match b with
  | [] => (w, ROk)
  | _ =>
    match w_plan w (w_calls w) with
    | None => ({| w_out := w_out w ++ b; w_calls := S (w_calls w); w_plan := w_plan w |}, ROk)
    | Some k => ({| w_out := w_out w ++ firstn k b; w_calls := S (w_calls w); w_plan := w_plan w |}, RErr)
    end
  end.

(** A computation over a state that returns [Result<(), E>]; [bindr] is [?;]:
    the second part runs only after [Ok]. *)
Definition io (S : Type) := S -> S * result.

Definition ret_ok {S} : io S := fun s => (s, ROk).

Definition bindr {S} (a b : io S) : io S :=
  fun s => let (s', r) := a s in match r with ROk => b s' | _ => (s', r) end.

Notation "a ;;? b" := (bindr a b) (at level 61, right associativity).

(** A writer that never fails. *)
Definition good_writer (out : bytes) : writer :=
  {| w_out := out; w_calls := 0; w_plan := fun _ => None |}.
