(** Whole calls made by threads: the methods of a vec that take a label group
    (core/src/metric/counter.rs:55-64, gauge.rs:117-142 and 269-294,
    histogram.rs:212-242, core/src/metric.rs:332-335 with 373-378), the
    collection of a sparse vec (core/src/metric.rs:461-467) and the count of its
    metrics (core/src/metric.rs:389-397 with metric/sparse.rs:111-116).

    A vec is its label set and its metrics: two machines side by side.  A call is
    a script of calls of the two, which a thread makes one after the other.  A
    collection is one whose encoder does not fail. *)
From Coq Require Import List NArith ZArith Bool Arith.
From Verif Require Import Base LabelModel ConcModel ConcVecModel ConcLabelModel.
Import ListNotations.

(** ** Two objects in one *)
Section Both.
  Context {Sh1 Op1 Res1 Mic1 Sh2 Op2 Res2 Mic2 : Type}.
  Variable M1 : machine Sh1 Op1 Res1 Mic1.
  Variable M2 : machine Sh2 Op2 Res2 Mic2.

  (** The struct of metric.rs:118-122: each call goes to one of its fields. *)
  Definition both_begin (op : Op1 + Op2) : Mic1 + Mic2 :=
    match op with inl o => inl (m_begin M1 o) | inr o => inr (m_begin M2 o) end.
  Definition both_step (i ch : nat) (mic : Mic1 + Mic2) (sh : Sh1 * Sh2)
    : option ((Sh1 * Sh2) * ((Mic1 + Mic2) + (Res1 + Res2))) :=
    match mic with
    | inl m =>
      match m_step M1 i ch m (fst sh) with
      | None => None
      | Some (s, inl m') => Some ((s, snd sh), inl (inl m'))
      | Some (s, inr r) => Some ((s, snd sh), inr (inl r))
      end
    | inr m =>
      match m_step M2 i ch m (snd sh) with
      | None => None
      | Some (s, inl m') => Some ((fst sh, s), inl (inr m'))
      | Some (s, inr r) => Some ((fst sh, s), inr (inr r))
      end
    end.
  (* metric.rs:118-122 *)
  Definition both : machine (Sh1 * Sh2) (Op1 + Op2) (Res1 + Res2) (Mic1 + Mic2) :=
    {| m_begin := both_begin; m_step := both_step |}.
End Both.

(** ** Scripts *)
Section Scripts.
  Context {Call St Op Res : Type}.
  (** A method body: its first state, the next operation in a state ([None]: the
      method has returned or panicked), the state after a result. *)
  Variable s_init : Call -> St.
  Variable s_next : St -> option Op.
  Variable s_adv : St -> Res -> St.

  (* the bodies of counter.rs:55-64, gauge.rs:117-142 and 269-294, histogram.rs:212-242, metric.rs:332-378, 389-397 and 461-467, one operation at a time *)
  Definition trace := list (Op * Res).

  (** The calls a thread has finished, with what they did, and the one it is in. *)
  (* the bodies of counter.rs:55-64, gauge.rs:117-142 and 269-294, histogram.rs:212-242, metric.rs:332-378, 389-397 and 461-467, one operation at a time *)
  Record history := { h_done : list (Call * trace); h_cur : option (Call * St * trace) }.

  (* the bodies of counter.rs:55-64, gauge.rs:117-142 and 269-294, histogram.rs:212-242, metric.rs:332-378, 389-397 and 461-467, one operation at a time *)
  Definition after (call : Call) (st : St) (tr : trace) (hd : list (Call * trace)) : history :=
    match s_next st with
    | None => {| h_done := hd ++ [(call, tr)]; h_cur := None |}
    | Some _ => {| h_done := hd; h_cur := Some (call, st, tr) |}
    end.

  (** One operation more; [calls] is what the thread wants to do. *)
  (* the bodies of counter.rs:55-64, gauge.rs:117-142 and 269-294, histogram.rs:212-242, metric.rs:332-378, 389-397 and 461-467, one operation at a time *)
  Definition h_step (calls : list (Call * trace) -> option Call) (h : history) (d : Op * Res) : history :=
    match h_cur h with
    | Some (call, st, tr) => after call (s_adv st (snd d)) (tr ++ [d]) (h_done h)
    | None =>
      match calls (h_done h) with
      | Some call => after call (s_adv (s_init call) (snd d)) [d] (h_done h)
      | None => h
      end
    end.
  (* the bodies of counter.rs:55-64, gauge.rs:117-142 and 269-294, histogram.rs:212-242, metric.rs:332-378, 389-397 and 461-467, one operation at a time *)
  Definition history_of (calls : list (Call * trace) -> option Call) (done : trace) : history :=
    fold_left (h_step calls) done {| h_done := []; h_cur := None |}.

  (** The operations of threads that make calls. *)
  (* the bodies of counter.rs:55-64, gauge.rs:117-142 and 269-294, histogram.rs:212-242, metric.rs:332-378, 389-397 and 461-467, one operation at a time *)
  Definition follow (calls : nat -> list (Call * trace) -> option Call) : program Op Res := fun i done =>
    let h := history_of (calls i) done in
    match h_cur h with
    | Some (_, st, _) => s_next st
    | None => match calls i (h_done h) with Some call => s_next (s_init call) | None => None end
    end.
End Scripts.
Arguments trace : clear implicits.
Arguments history : clear implicits.

(** ** The methods *)
Section Methods.
  Context {Op Res V : Type}.
  (** The number of shards: sparse.rs:35-46. *)
  Variable shards : nat.
  (** How the encoder reads a metric. *)
  Variable read : Op.

  Inductive vec_call :=
  | CUpdate (g : group_val) (u : Op)   (* get_metric(with_labels(g)).u(): counter.rs:57-64 and the like *)
  | CDelete (g : group_val)            (* remove_metric(with_labels(g)) *)
  | CCollect                           (* metric.rs:461-467 *)
  | CCount.                            (* get_cardinality().0, metric.rs:395 *)

  Inductive call_state :=
  | TLook (g : group_val) (u : Op)     (* label_set.encode(label), metric.rs:342 *)
  | TGet (k : unique) (u : Op)         (* get_metric(id), metric.rs:360 *)
  | TUse (k : unique) (u : Op)         (* the call through the guard *)
  | TDrop                              (* the end of the statement *)
  | TFind (g : group_val)              (* label_set.encode(label) *)
  | TRemove (k : unique)               (* remove_metric(id), metric.rs:376 *)
  | TShard (s : nat)                   (* shard.read().iter(), metric.rs:463 *)
  | TKeys (s : nat) (ks : list unique) (* decode(k), or the end of the shard, metric.rs:464 *)
  | TRead (s : nat) (k : unique) (ks : list unique) (* v.collect_into, metric.rs:464 *)
  | TLen (s : nat)                     (* shard.read().len(), sparse.rs:114 *)
  | TClose (s : nat)                   (* the end of the closure, sparse.rs:114 *)
  | TEnd.

  Definition call_init (c : vec_call) : call_state :=
    match c with CUpdate g u => TLook g u | CDelete g => TFind g | CCollect => TShard 0 | CCount => TLen 0 end.

  Definition call_next (st : call_state) : option (label_op + vec_op unique Op) :=
    match st with
    | TLook g _ => Some (inl (LEncode g))
    | TGet k _ => Some (inr (SGet 0 k))
    | TUse k u => Some (inr (SUse 0 k u))
    | TDrop => Some (inr (SDrop 0))
    | TFind g => Some (inl (LEncode g))
    | TRemove k => Some (inr (SRemove k))
    | TShard s => if Nat.ltb s shards then Some (inr (SOpen 0 s)) else None
    | TKeys s [] => Some (inr (SDrop 0))
    | TKeys s (k :: _) => Some (inl (LDecode k))
    | TRead s k _ => Some (inr (SUse 0 k read))
    | TLen s => if Nat.ltb s shards then Some (inr (SOpen 0 s)) else None
    | TClose s => Some (inr (SDrop 0))
    | TEnd => None
    end.

  (** A panic ends the call; the unwinding that drops its guard is left out,
      C64 shows that no call panics while it has one.
      (counter.rs:57-64 and the like, metric.rs:373-378, 389-397 and 461-467: what follows each operation) *)
  Definition call_adv (st : call_state) (r : label_res + vec_res unique Res V) : call_state :=
    match st, r with
    | TLook _ u, inl (LId (Some k)) => TGet k u      (* expect, metric.rs:334 *)
    | TGet k u, inr RUnit => TUse k u
    | TUse k u, inr (RVal _) => TDrop
    | TFind _, inl (LId (Some k)) => TRemove k
    | TShard s, inr (RKeys ks) => TKeys s ks
    | TKeys s [], inr RUnit => TShard (S s)
    | TKeys s (k :: ks), inl (LGroup _) => TRead s k ks
    | TRead s _ ks, inr (RVal _) => TKeys s ks
    | TLen s, inr (RKeys _) => TClose s
    | TClose s, inr RUnit => TLen (S s)
    | _, _ => TEnd
    end.
End Methods.
Arguments vec_call : clear implicits.
Arguments call_state : clear implicits.
