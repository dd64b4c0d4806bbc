(** Threads in executions of the memory model. *)
From Coq Require Import List NArith ZArith Bool Arith Permutation.
From Verif Require Import Base FloatModel MetricModel ConcModel ConcWeakModel ConcWeakSpec ConcMomentSpec.
Import ListNotations.

Section Threads.
  Context {V Op Res : Type}.
  Variable E : execution V.
  Variable ks : list (wcall Op Res).
  Variable changes : Op -> bool.

  (** [ts] has the calls that change the cell, by thread, each in the order of the program. *)
  Definition threads_of (ts : list (list nat)) : Prop :=
    NoDup (concat ts) /\
    (forall p, In p (concat ts) <-> exists k, nth_error ks p = Some k /\ changes (k_op k) = true) /\
    forall t, In t ts -> ForallOrdPairs (fun p q => forall k k', nth_error ks p = Some k -> nth_error ks q = Some k' -> before E k k') t.

  (** The calls of [seen] made by the thread [t]. *)
  Definition by_thread (t seen : list nat) : list nat := filter (fun q => existsb (Nat.eqb q) t) seen.

  (** [seen] is an initial part of every thread, with the calls before [k] and without those after it. *)
  Definition cut_at (ts : list (list nat)) (k : wcall Op Res) (seen : list nat) : Prop :=
    NoDup seen /\ (forall q, In q seen -> In q (concat ts)) /\ (forall t, In t ts -> initial (by_thread t seen) t) /\
    forall q k', nth_error ks q = Some k' -> In q (concat ts) -> (before E k' k -> In q seen) /\ (before E k k' -> ~ In q seen).
End Threads.
