(** Linearizability. *)
From Coq Require Import List NArith ZArith Bool Arith.
From Verif Require Import Base FloatModel MetricModel ConcModel.
Import ListNotations.

Section Spec.
  Context {Sh Op Res Mic St : Type}.
  (** What a call does if it is the only one; [None]: it has to wait. *)
  Variable spec : nat -> Op -> St -> option (St * Res).

  Definition entry := (nat * Op * Res)%type.

  (** The calls of the log, one after the other. *)
  Inductive legal : St -> list entry -> St -> Prop :=
  | Legal_nil : forall s, legal s [] s
  | Legal_cons : forall s i op r s' log s'', spec i op s = Some (s', r) ->
      legal s' log s'' -> legal s ((i, op, r) :: log) s''.

  (** The calls of thread [i] in the log. *)
  Definition of_thread (i : nat) (log : list entry) : list (Op * Res) :=
    map (fun e => (snd (fst e), snd e)) (filter (fun e => Nat.eqb (fst (fst e)) i) log).

  (** [log] may be the order in which calls took effect up to [c]: it contains
      the finished calls of each thread with their results in program order,
      followed at most by the one the thread is in. *)
  Definition explains (log : list entry) (c : config Sh Op Res Mic) : Prop :=
    forall i, of_thread i log = t_done (c_th c i) \/
      exists op mic r, t_cur (c_th c i) = Some (op, mic) /\
        of_thread i log = t_done (c_th c i) ++ [(op, r)].

  Definition quiescent (c : config Sh Op Res Mic) : Prop := forall i, t_cur (c_th c i) = None.

  (** For every program there is a log for every schedule, such that logs only
      grow as the schedule goes on (hence a call that ends before another starts
      comes before it), every log is a legal sequential execution and explains
      what happened, and [rep] relates the states when no call is in progress. *)
  Definition linearizable (M : machine Sh Op Res Mic) (sh0 : Sh) (st0 : St) (rep : Sh -> St -> Prop) : Prop :=
    forall prog : program Op Res, exists L : schedule -> list entry,
      (forall s s', exists more, L (s ++ s') = L s ++ more) /\
      forall s, let c := run M prog s (start_config sh0) in
        explains (L s) c /\
        exists st, legal st0 (L s) st /\ (quiescent c -> rep (c_sh c) st).
End Spec.

(** The calls of threads below [n] are all finished. *)
Definition finished {Sh Op Res Mic} (n : nat) (l : nat -> list Op) (c : config Sh Op Res Mic) : Prop :=
  forall i, (i < n)%nat -> t_cur (c_th c i) = None /\ map fst (t_done (c_th c i)) = l i.

(** Sequential histogram: the bucket and the sum in one go. *)
Definition hist_spec (i : nat) (op : hist_op) (h : hist) : option (hist * hist_res) :=
  match op with
  | HObserve b x =>
    match hist_observe b x h with
    | Done h' => Some (h', Some ([], 0%N, 0%N))
    | Panic => Some (h, None)
    end
  | HSample => Some (h, Some (h_buckets h, h_inf h, h_sum h))
  end.

(** Sequential float gauge. *)
Definition float_spec (i : nat) (op : float_op) (g : N) : option (N * N) :=
  match op with
  | FWrite op => Some (fgauge_shared op g, 0%N)
  | FRead => Some (g, g)
  end.

Definition pure_spec {St Op Res} (eff : Op -> St -> St * Res) (i : nat) (op : Op) (s : St) : option (St * Res) :=
  Some (eff op s).

(* ------------------------------------------------------------------ *)
(** ** Sums over calls *)

Local Open Scope Z_scope.

Definition sum_over {A} (f : A -> Z) (l : list A) : Z := fold_right (fun x a => f x + a) 0 l.

(** What all threads below [n] have done, added up. *)
Definition total_done {Sh Op Res Mic} (f : Op -> Z) (n : nat) (c : config Sh Op Res Mic) : Z :=
  sum_over (fun i => sum_over (fun d => f (fst d)) (t_done (c_th c i))) (seq 0 n).

Definition counter_delta (op : counter_op) : Z :=
  match op with KInc => 1 | KIncBy x => Z.of_N x | KRead => 0 end.

(** What reads return. *)
Definition counter_reads (log : list (@entry counter_op N)) : list N :=
  flat_map (fun e => match e with (_, KRead, r) => [r] | _ => [] end) log.

Definition gauge_delta (op : igauge_op) : Z :=
  match op with
  | IWrite GInc => 1 | IWrite (GIncBy x) => x | IWrite GDec => -1 | IWrite (GDecBy x) => - x
  | IWrite (GSet _) | IRead => 0
  end.
Definition is_set (op : igauge_op) : bool := match op with IWrite (GSet _) => true | _ => false end.

(** The calls of a log, without threads and results. *)
Definition ops_of {Op Res} (log : list (@entry Op Res)) : list Op := map (fun e => snd (fst e)) log.

(** The calls after the last set, and the value set (or [v]). *)
Fixpoint since_set (v : Z) (ops : list igauge_op) : Z * list igauge_op :=
  match ops with
  | [] => (v, [])
  | op :: rest =>
    if existsb is_set rest then since_set v rest
    else match op with IWrite (GSet x) => (x, rest) | _ => (v, op :: rest) end
  end.

(** The [n]th call of thread [i] comes before the [m]th call of thread [j]. *)
Definition before {Op Res} (log : list (@entry Op Res)) (i n j m : nat) : Prop :=
  exists a b, log = a ++ b /\ (n < length (of_thread i a))%nat /\ (length (of_thread j a) <= m)%nat.

(** Calls of thread [j] started. *)
Definition started {Sh Op Res Mic} (c : config Sh Op Res Mic) (j : nat) : nat :=
  (length (t_done (c_th c j)) + match t_cur (c_th c j) with Some _ => 1 | None => 0 end)%nat.

(** Observations of a log, in order. *)
Definition observations (log : list (@entry hist_op hist_res)) : list (nat * f64) :=
  flat_map (fun e => match e with (_, HObserve b x, _) => [(b, x)] | _ => [] end) log.

Fixpoint observe_seq (l : list (nat * f64)) (h : hist) : outcome hist :=
  match l with
  | [] => Done h
  | (b, x) :: t => let! h' := hist_observe b x h in observe_seq t h'
  end.

(** What was finished before something else started stays before it. *)
Definition real_time_order {Sh Op Res Mic} (L : schedule -> list (@entry Op Res)) (c : schedule -> config Sh Op Res Mic) : Prop :=
  forall s s' i n j m, (n < length (t_done (c_th (c s) i)))%nat -> (started (c s) j <= m)%nat ->
    before (L (s ++ s')) i n j m.

(** A thread with something to do. *)
Definition active {Sh Op Res Mic} (prog : program Op Res) (c : config Sh Op Res Mic) (i : nat) : Prop :=
  t_cur (c_th c i) <> None \/ prog i (t_done (c_th c i)) <> None.

Definition turns (i : nat) (s : schedule) : nat := length (filter (fun ic => Nat.eqb (fst ic) i) s).

(** Some thread has finished a call between [c] and [c']. *)
Definition more_done {Sh Op Res Mic} (c c' : config Sh Op Res Mic) : Prop :=
  exists j, (length (t_done (c_th c j)) < length (t_done (c_th c' j)))%nat.
