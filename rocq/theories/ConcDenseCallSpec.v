(** Vocabulary for whole calls made by threads on a dense vec. *)
From Coq Require Import List NArith ZArith Bool Arith.
From Verif Require Import Base FloatModel MetricModel LabelModel LabelSpec ConcModel ConcSpec ConcVecSpec ConcDenseModel ConcDenseSpec ConcCallModel ConcCallSpec
  ConcDenseCallModel.
Import ListNotations.

(** A label set of [c] groups that lookups do not change; [wt] are the groups of
    the right type. *)
Definition fixed_label_set (L : lgset) (wt : lg_state L -> lg_group L -> Prop) (ls : lg_state L) (c : N) : Prop :=
  (exists ok valid, lawful L ok wt valid /\ ok ls) /\ lg_cardinality L ls = Some c /\
  forall g, wt ls g -> exists r, lg_encode L ls g = Done (ls, r).

Section Spec.
  Context {L : lgset} {Op Res : Type}.
  Notation event := ((look_op L + dense_op Op) * (look_res L + dense_res Res))%type.
  Notation tr_t := (list event).

  Definition dense_group (call : dense_call L Op) : option (lg_group L) :=
    match call with EUpdate g _ => Some g | EDelete g => Some g | _ => None end.

  (** The groups and the values of a collection, in its order; cells found. *)
  Definition row_groups_of (tr : tr_t) : list (lg_group L) :=
    flat_map (fun d : event => match snd d with inl (QGroup (Done g)) => [g] | _ => [] end) tr.
  Definition row_values_of (tr : tr_t) : list Res :=
    flat_map (fun d : event => match snd d with inr (DVal r) => [r] | _ => [] end) tr.
  Definition cells_found (tr : tr_t) : nat :=
    length (filter (fun d : event => match snd d with inr (DFound true) => true | _ => false end) tr).

  (** What the caller gets. *)
  Inductive dense_result :=
  | DReturned (r : Res)
  | DNotRemoved                                (* remove_metric's None *)
  | DCollected (l : list (lg_group L * Res))
  | DCounted (n : nat)
  | DRefused                                   (* the panic of with_labels *)
  | DFailed.                                   (* any other panic *)

  Definition panics (d : event) : bool :=
    match snd d with
    | inl (QId Panic) | inl (QGroup Panic) | inr DBad | inr DPanic | inr DDangling => true
    | _ => false
    end.

  Definition dense_result_of (call : dense_call L Op) (tr : tr_t) : dense_result :=
    if existsb panics tr then DFailed else
    match call with
    | EUpdate g u =>
      match tr with
      | [(_, inl (QId (Done None)))] => DRefused
      | [(_, inl (QId (Done (Some _)))); (_, inr DUnit); (_, inr (DVal r))] => DReturned r
      | _ => DFailed
      end
    | EDelete g =>
      match tr with
      | [(_, inl (QId (Done None)))] => DRefused
      | [(_, inl (QId (Done (Some _))))] => DNotRemoved
      | _ => DFailed
      end
    | ECollect => DCollected (combine (row_groups_of tr) (row_values_of tr))
    | ECount => DCounted (cells_found tr)
    end.

  (** What a call adds to an amount kept under [g]. *)
  Variable geq : forall a b : lg_group L, {a = b} + {a <> b}.
  Definition dense_adds (add : Op -> Res -> Z) (g : lg_group L) (d : dense_call L Op * tr_t) : Z :=
    match fst d, dense_result_of (fst d) (snd d) with
    | EUpdate g' u, DReturned r => if geq g' g then add u r else 0
    | _, _ => 0
    end%Z.
End Spec.

(** What threads call next, given what they have called. *)
Definition dense_program (L : lgset) (Op Res : Type) : Type :=
  nat -> list (dense_call L Op * trace (look_op L + dense_op Op) (look_res L + dense_res Res)) -> option (dense_call L Op).

(** A dense vec: its label set and its cells. *)
Record dense_setup (L : lgset) := { dn_build : build; dn_set : lg_state L; dn_cells : nat }.
Arguments dn_build {L}.
Arguments dn_set {L}.
Arguments dn_cells {L}.

Definition dense_ok_setup (L : lgset) (wt : lg_state L -> lg_group L -> Prop) (w : dense_setup L) : Prop :=
  fixed_label_set L wt (dn_set w) (N.of_nat (dn_cells w)).

(** Programs that use groups of the right type. *)
Definition dense_shaped {L Op Res} (wt : lg_state L -> lg_group L -> Prop) (w : dense_setup L) (P : dense_program L Op Res) : Prop :=
  forall i h call g, P i h = Some call -> dense_group call = Some g -> wt (dn_set w) g.

(** A group of the set and its position. *)
Definition dense_id {L} (wt : lg_state L -> lg_group L -> Prop) (w : dense_setup L) (g : lg_group L) (k : nat) : Prop :=
  wt (dn_set w) g /\ exists u, lg_encode L (dn_set w) g = Done (dn_set w, Some u) /\ lg_encode_dense L (dn_set w) u = Done (Some (N.of_nat k)).

Section Together.
  Context {L : lgset} {Sh Op Res Mic V : Type}.
  Variable w : dense_setup L.
  Variable m : metric_code Sh Op Res Mic V.
  Variable P : dense_program L Op Res.
  Notation next := (dense_next (dn_cells w) (mc_read m)).

  (** The vec, its threads making calls. *)
  Definition shared_dense := both (look_machine (dn_build w) L (dn_set w) (dn_cells w)) (dense_machine (mc_machine m) (mc_new m) (dn_cells w)).
  Definition dense_at_time (s : schedule) :=
    run shared_dense (follow dense_init next dense_adv P) s (start_config (tt, dv_new)).

  (** The calls thread [i] has finished after schedule [s], with what they did. *)
  Definition dense_finished (s : schedule) (i : nat) :=
    h_done (history_of dense_init next dense_adv (P i) (t_done (c_th (dense_at_time s) i))).
  (** The call it is in. *)
  Definition dense_underway (s : schedule) (i : nat) : option (dense_call L Op) :=
    match h_cur (history_of dense_init next dense_adv (P i) (t_done (c_th (dense_at_time s) i))) with
    | Some (call, _, _) => Some call
    | None => match t_cur (c_th (dense_at_time s) i) with Some _ => P i (dense_finished s i) | None => None end
    end.
  Definition dense_begun (s : schedule) (i : nat) (call : dense_call L Op) : Prop :=
    In call (map fst (dense_finished s i)) \/ dense_underway s i = Some call.
  Definition dense_nobody_busy (s : schedule) : Prop := forall i, dense_underway s i = None.
  Definition dense_metric_at (s : schedule) (k : nat) : option Sh := dense_lookup k (snd (c_sh (dense_at_time s))).

  (** Added to [g] by the finished calls of threads below [n], and with those under way. *)
  Variable geq : forall a b : lg_group L, {a = b} + {a <> b}.
  Definition dense_sum_finished (add : Op -> Res -> Z) (g : lg_group L) (n : nat) (s : schedule) : Z :=
    sum_over (fun i => sum_over (dense_adds geq add g) (dense_finished s i)) (seq 0 n).
  Definition dense_sum_begun (add : Op -> Res -> Z) (most : Op -> Z) (g : lg_group L) (n : nat) (s : schedule) : Z :=
    sum_over (fun i => sum_over (dense_adds geq add g) (dense_finished s i) +
      match dense_underway s i with
      | Some (EUpdate g' u) => if geq g' g then most u else 0
      | _ => 0
      end)%Z (seq 0 n).
End Together.
