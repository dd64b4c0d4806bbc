(** Vocabulary: how much is done in a run, schedules without end. *)
From Coq Require Import List NArith ZArith Bool Arith.
From Verif Require Import Base FloatModel MetricModel LabelModel ConcModel ConcSpec ConcVecModel ConcVecSpec ConcLabelModel ConcDenseModel ConcDenseSpec
  ConcCallModel ConcCallSpec ConcDenseCallModel ConcDenseCallSpec.
Import ListNotations.

Section Steps.
  Context {Sh Op Res Mic : Type}.
  Variable M : machine Sh Op Res Mic.
  Variable prog : program Op Res.

  (** Whether a step does something: not if the thread waits or has nothing to
      do. *)
  Definition works (ic : nat * nat) (c : config Sh Op Res Mic) : bool :=
    match t_cur (c_th c (fst ic)) with
    | None => match prog (fst ic) (t_done (c_th c (fst ic))) with Some _ => true | None => false end
    | Some (_, mic) => match m_step M (fst ic) (snd ic) mic (c_sh c) with Some _ => true | None => false end
    end.
  (** [bad ch mic sh]: the hardware fails an exchange without a reason. *)
  Definition fails (bad : nat -> Mic -> Sh -> bool) (ic : nat * nat) (c : config Sh Op Res Mic) : bool :=
    match t_cur (c_th c (fst ic)) with Some (_, mic) => bad (snd ic) mic (c_sh c) | None => false end.

  Fixpoint count_steps (p : nat * nat -> config Sh Op Res Mic -> bool) (s : schedule) (c : config Sh Op Res Mic) : nat :=
    match s with
    | [] => 0
    | ic :: rest => (if p ic c then 1 else 0) + count_steps p rest (step M prog ic c)
    end.
End Steps.

(** The first [t] steps of a schedule without end. *)
Definition up_to (f : nat -> nat * nat) (t : nat) : schedule := map f (seq 0 t).
(** No thread below [n] is left out for ever. *)
Definition fair (n : nat) (f : nat -> nat * nat) : Prop := forall i t, i < n -> exists t', t <= t' /\ fst (f t') = i.

(** ** Metrics *)

(** A call on a metric is at most [most] steps away from its end, by [rank].
    Every step of it goes on, except that of a failing exchange; what it sets
    the [n] others back it goes on more. *)
Definition ranked {Sh Op Res Mic} (M : machine Sh Op Res Mic) (sh0 : Sh) (bad : nat -> Mic -> Sh -> bool) (n most : nat)
  (rank : Mic -> Sh -> nat) (inv : Sh -> Prop) : Prop :=
  inv sh0 /\ (forall mic sh, inv sh -> rank mic sh <= most) /\
  forall i ch mic sh sh' x, inv sh -> m_step M i ch mic sh = Some (sh', x) -> inv sh' /\
    exists d, (forall other, rank other sh' <= rank other sh + d) /\
      if bad ch mic sh then d = 0
      else match x with inl mic' => rank mic' sh' + n * d < rank mic sh | inr _ => n * d <= rank mic sh end.
Definition brief_metric {Sh Op Res Mic} (O : machine Sh Op Res Mic) (sh_new : Sh) (bad : nat -> Mic -> Sh -> bool) : Prop :=
  forall n, exists most rank inv, ranked O sh_new bad n most rank inv.

(** Spurious failures of compare_exchange_weak, gauge.rs:342-348; counters and
    integer gauges have none. *)
Definition never {Sh Mic : Type} (_ : nat) (_ : Mic) (_ : Sh) : bool := false.
Definition float_spurious (ch : nat) (mic : float_mic) (cell : N) : bool :=
  match mic with FExchange _ current => (cell =? current)%N && negb (Nat.eqb ch 0) | _ => false end.
Definition hist_spurious (ch : nat) (mic : hist_mic) (c : chist) : bool :=
  match mic with HExchange _ current => (h_sum (ch_state c) =? current)%N && negb (Nat.eqb ch 0) | _ => false end.

(** The same in the metrics of a vec. *)
Definition sparse_spurious {K Sh Op Res Mic V} (bad : nat -> Mic -> Sh -> bool) (ch : nat) (mic : vec_mic K Op Res Mic V) (c : svec K Sh) : bool :=
  match mic with
  | MIn s n m => match find_id n (tab_of s c) with Some e => bad ch m (e_sh e) | None => false end
  | _ => false
  end.
Definition dense_spurious {Sh Op Mic} (bad : nat -> Mic -> Sh -> bool) (ch : nat) (mic : dense_mic Op Mic) (c : dvec Sh) : bool :=
  match mic with
  | NIn k n m => match d_cells c k with CFull n' sh => Nat.eqb n' n && bad ch m sh | _ => false end
  | _ => false
  end.
Definition right_spurious {Sh1 Mic1 Sh2 Mic2 : Type} (bad : nat -> Mic2 -> Sh2 -> bool) (ch : nat) (mic : Mic1 + Mic2) (c : Sh1 * Sh2) : bool :=
  match mic with inr m => bad ch m (snd c) | inl _ => false end.

(** ** Whole calls *)

(** Threads [n] and above make no calls, the others at most [k] each. *)
Definition bounded_calls {Call X} (n k : nat) (P : nat -> list (Call * X) -> option Call) : Prop :=
  (forall i, n <= i -> P i [] = None) /\ forall i made, k <= length made -> P i made = None.

Section Sparse.
  Context {Sh Op Res Mic V : Type}.
  Variable w : setup.
  Variable m : metric_code Sh Op Res Mic V.
  Variable P : nat -> list (vec_call Op * trace (label_op + vec_op unique Op) (label_res + vec_res unique Res V)) -> option (vec_call Op).
  Variable bad : nat -> Mic -> Sh -> bool.
  Notation M := (shared_vec (su_build w) (su_fields w) (su_loc w) (su_accepts w) (su_shard_of w) (mc_machine m) (mc_new m) (mc_view m)).
  Notation prog := (calling (su_shards w) (mc_read m) P).

  (** Steps that do something, spurious failures. *)
  Definition sparse_work (s : schedule) : nat :=
    count_steps M prog (works M prog) s (start_config (su_strings w, sv_new)).
  Definition sparse_failures (s : schedule) : nat :=
    count_steps M prog (fails (right_spurious (sparse_spurious bad))) s (start_config (su_strings w, sv_new)).
  (** All threads have made their calls. *)
  Definition sparse_over (s : schedule) : Prop :=
    forall i, call_underway w m P s i = None /\ P i (finished_calls w m P s i) = None.
End Sparse.

Section Dense.
  Context {L : lgset} {Sh Op Res Mic V : Type}.
  Variable w : dense_setup L.
  Variable m : metric_code Sh Op Res Mic V.
  Variable P : dense_program L Op Res.
  Variable bad : nat -> Mic -> Sh -> bool.
  Notation M := (shared_dense w m).
  Notation prog := (follow dense_init (dense_next (dn_cells w) (mc_read m)) dense_adv P).

  Definition dense_work (s : schedule) : nat := count_steps M prog (works M prog) s (start_config (tt, dv_new)).
  Definition dense_failures (s : schedule) : nat :=
    count_steps M prog (fails (right_spurious (dense_spurious bad))) s (start_config (tt, dv_new)).
  Definition dense_over (s : schedule) : Prop :=
    forall i, dense_underway w m P s i = None /\ P i (dense_finished w m P s i) = None.
End Dense.
