(** Whole calls made by threads on a dense vec: the methods that take a label
    group (core/src/metric/counter.rs:55-64, gauge.rs:117-142 and 269-294,
    histogram.rs:212-242, core/src/metric.rs:332-355 with 360-378), the
    collection (core/src/metric.rs:450-460) and get_cardinality (metric.rs:389-397).

    As in ConcCallModel.v a call is a script of operations.  The label set of a
    dense vec has a known cardinality and lookups do not change it (proved:
    C68_sets), so that lookups are functions.  A collection is one whose encoder
    does not fail; collecting a vec without cells does nothing and is not
    represented. *)
From Coq Require Import List NArith ZArith Bool Arith.
From Verif Require Import Base LabelModel ConcModel ConcDenseModel ConcCallModel.
Import ListNotations.

(** ** The label set *)
Section Lookups.
  Variable bd : build.
  Variable L : lgset.
  (** The set, and the number of cells: metric.rs:159-163, 271-283 and 285-295. *)
  Variable ls : lg_state L.
  Variable card : nat.

  Inductive look_op :=
  | QLook (g : lg_group L)   (* try_with_labels, metric.rs:341-355 *)
  | QName (k : nat).         (* decode_dense, metric.rs:454 *)
  Inductive look_res :=
  | QId (r : outcome (option nat))
  | QGroup (r : outcome (lg_group L)).

  (** metric.rs:342-354 for a dense vec *)
  Definition look (g : lg_group L) : outcome (option nat) :=
    let! p := lg_encode L ls g in
    match snd p with
    | None => Done None
    | Some id =>
      let! e := lg_encode_dense L ls id in
      match e with
      | None => Panic
      | Some index =>
        let! _ := debug_assert bd (N.ltb index (N.of_nat card)) in
        Done (Some (N.to_nat index))
      end
    end.

  (* metric.rs:341-354 and 454 *)
  Definition look_eff (op : look_op) (_ : unit) : unit * look_res :=
    match op with
    | QLook g => (tt, QId (look g))
    | QName k => (tt, QGroup (lg_decode_dense L ls (N.of_nat k)))
    end.
  (* metric.rs:341-354 and 454 *)
  Definition look_machine : machine unit look_op look_res look_op := atomic_machine look_eff.
End Lookups.
Arguments look_op : clear implicits.
Arguments look_res : clear implicits.
Arguments QLook {L}.
Arguments QName {L}.
Arguments QId {L}.
Arguments QGroup {L}.

(** ** The methods *)
Section Methods.
  Context {L : lgset} {Op Res : Type}.
  Variable card : nat.
  (** How the encoder reads a metric. *)
  Variable read : Op.

  (* counter.rs:57-64 and the like, metric.rs:373-378, 389-397 and 450-460 *)
  Inductive dense_call :=
  | EUpdate (g : lg_group L) (u : Op)   (* get_metric(with_labels(g)).u(): counter.rs:57-64 and the like *)
  | EDelete (g : lg_group L)            (* remove_metric(with_labels(g)): None, metric.rs:375 *)
  | ECollect                            (* metric.rs:450-460 *)
  | ECount.                             (* get_cardinality, metric.rs:391-394 *)

  Inductive dense_state :=
  | XLook (g : lg_group L) (u : Op)     (* with_labels(g) *)
  | XGet (k : nat) (u : Op)             (* get_metric(id), metric.rs:246-249 *)
  | XUse (k : nat) (u : Op)             (* the call through the reference *)
  | XFind (g : lg_group L)              (* with_labels(g) *)
  | XCell (k : nat)                     (* value.get(), metric.rs:451 *)
  | XName (k : nat)                     (* decode_dense(index), metric.rs:454 *)
  | XRead (k : nat)                     (* value.collect_into, metric.rs:452 *)
  | XTally (k : nat)                    (* x.get().is_some(), metric.rs:392 *)
  | XEnd.

  Definition dense_init (c : dense_call) : dense_state :=
    match c with EUpdate g u => XLook g u | EDelete g => XFind g | ECollect => XCell 0 | ECount => XTally 0 end.

  Definition dense_next (st : dense_state) : option (look_op L + dense_op Op) :=
    match st with
    | XLook g _ => Some (inl (QLook g))
    | XGet k _ => Some (inr (DGet 0 k))
    | XUse k u => Some (inr (DUse 0 k u))
    | XFind g => Some (inl (QLook g))
    | XCell k => if Nat.ltb k card then Some (inr (DPeek 0 k)) else None
    | XName k => Some (inl (QName k))
    | XRead k => Some (inr (DUse 0 k read))
    | XTally k => if Nat.ltb k card then Some (inr (DPeek 0 k)) else None
    | XEnd => None
    end.

  (* counter.rs:57-64 and the like, metric.rs:373-378, 389-397 and 450-460 *)
  Definition dense_adv (st : dense_state) (r : look_res L + dense_res Res) : dense_state :=
    match st, r with
    | XLook _ u, inl (QId (Done (Some k))) => XGet k u   (* expect, metric.rs:334 *)
    | XGet k u, inr DUnit => XUse k u
    | XCell k, inr (DFound true) => XName k
    | XCell k, inr (DFound false) => XCell (S k)
    | XName k, inl (QGroup (Done _)) => XRead k
    | XRead k, inr (DVal _) => XCell (S k)
    | XTally k, inr (DFound _) => XTally (S k)
    | _, _ => XEnd
    end.
End Methods.
Arguments dense_call : clear implicits.
Arguments dense_state : clear implicits.
