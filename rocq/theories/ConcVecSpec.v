(** What a vec shared by threads should do: a map from keys to the metric's
    abstract states, one list of pairs per shard, and the guards. *)
From Coq Require Import List NArith ZArith Bool Arith.
From Verif Require Import Base FloatModel MetricModel ConcModel ConcSpec ConcProofs ConcVecModel.
Import ListNotations.

Section Spec.
  Context {K Op Res V St : Type}.
  Variable keqb : K -> K -> bool.
  Variable shard_of : K -> nat.
  (** The metric on its own, its first state, and what is seen of a state. *)
  Variable spec : nat -> Op -> St -> option (St * Res).
  Variable st_new : St.
  Variable aview : St -> V.

  (** A guard: thread, handle, shard and the keys that can be used. *)
  Definition aguard := (nat * nat * nat * list K)%type.
  Record avec := { a_tab : nat -> list (K * St); a_guards : list aguard }.
  Definition av_new : avec := {| a_tab := fun _ => []; a_guards := [] |}.

  Definition aget (k : K) (t : list (K * St)) : option St :=
    match find (fun p => keqb (fst p) k) t with Some (_, x) => Some x | None => None end.
  Definition aset (k : K) (x : St) (t : list (K * St)) : list (K * St) :=
    map (fun p => if keqb (fst p) k then (fst p, x) else p) t.
  Definition adel (k : K) (t : list (K * St)) : list (K * St) :=
    filter (fun p => negb (keqb (fst p) k)) t.

  Definition ag_is (i h : nat) (g : aguard) : bool :=
    let '(i', h', _, _) := g in Nat.eqb i' i && Nat.eqb h' h.
  Definition ag_find (i h : nat) (a : avec) : option aguard := find (ag_is i h) (a_guards a).
  (** Is there a guard on shard [s]? *)
  Definition guarded (s : nat) (a : avec) : bool :=
    existsb (fun g : aguard => let '(_, _, s', _) := g in Nat.eqb s' s) (a_guards a).

  Definition with_tab (s : nat) (t : list (K * St)) (a : avec) : avec :=
    {| a_tab := upd (a_tab a) s t; a_guards := a_guards a |}.
  Definition with_guard (g : aguard) (a : avec) : avec :=
    {| a_tab := a_tab a; a_guards := g :: a_guards a |}.

  (** [None]: has to wait. *)
  Definition vec_spec (i : nat) (op : vec_op K Op) (a : avec) : option (avec * vec_res K Res V) :=
    match op with
    | SGet h k =>
      let s := shard_of k in
      match ag_find i h a with
      | Some _ => Some (a, RBad)
      | None =>
        match aget k (a_tab a s) with
        | Some _ => Some (with_guard (i, h, s, [k]) a, RUnit)
        | None =>
          (* a new metric is made only while nobody has a guard on its shard *)
          if guarded s a then None
          else Some (with_guard (i, h, s, [k]) (with_tab s (a_tab a s ++ [(k, st_new)]) a), RUnit)
        end
      end
    | SUse h k u =>
      match ag_find i h a with
      | None => Some (a, RBad)
      | Some (_, _, s, ks) =>
        if existsb (fun k' => keqb k' k) ks then
          match aget k (a_tab a s) with
          | None => None
          | Some x =>
            match spec i u x with
            | None => None
            | Some (x', r) => Some (with_tab s (aset k x' (a_tab a s)) a, RVal r)
            end
          end
        else Some (a, RBad)
      end
    | SDrop h =>
      match ag_find i h a with
      | None => Some (a, RBad)
      | Some _ => Some ({| a_tab := a_tab a; a_guards := filter (fun g => negb (ag_is i h g)) (a_guards a) |}, RUnit)
      end
    | SRemove k =>
      let s := shard_of k in
      (* nothing is removed while anybody has a guard on the shard *)
      if guarded s a then None
      else Some (with_tab s (adel k (a_tab a s)) a,
                 RRemoved (match aget k (a_tab a s) with Some x => Some (aview x) | None => None end))
    | SOpen h s =>
      match ag_find i h a with
      | Some _ => Some (a, RBad)
      | None => Some (with_guard (i, h, s, map fst (a_tab a s)) a, RKeys (map fst (a_tab a s)))
      end
    end.

  (** *** The history of one key *)

  (** Is there a metric for [k] after these calls? *)
  Definition present (k : K) (log : list (@entry (vec_op K Op) (vec_res K Res V))) : bool :=
    fold_left (fun b e => match e with
      | (_, SGet _ k', RUnit) => keqb k' k || b
      | (_, SRemove k', _) => negb (keqb k' k) && b
      | _ => b
      end) log false.

  (** The calls on the metric of [k] since it was made. *)
  Definition life (k : K) (log : list (@entry (vec_op K Op) (vec_res K Res V))) : list (@entry Op Res) :=
    fold_left (fun l e => match e with
      | (i, SUse _ k' u, RVal r) => if keqb k' k then l ++ [(i, u, r)] else l
      | (_, SRemove k', _) => if keqb k' k then [] else l
      | _ => l
      end) log [].

  (** An amount kept by a metric: what a call adds to it, what a removal takes away. *)
  Definition vec_flow (add : Op -> Res -> Z) (amount : V -> Z) (k : K) (d : vec_op K Op * vec_res K Res V) : Z :=
    match d with
    | (SUse _ k' u, RVal r) => if keqb k' k then add u r else 0
    | (SRemove k', RRemoved (Some v)) => if keqb k' k then - amount v else 0
    | _ => 0
    end%Z.
End Spec.
Arguments avec : clear implicits.

(** *** What a thread sees of its own guards *)
Section Handles.
  Context {K Op Res V : Type}.
  Variable keqb : K -> K -> bool.

  (** The keys that can be used through guard [h]; the guards are those of one thread. *)
  Definition guard_keys (h : nat) (gs : list (nat * list K)) : option (list K) :=
    match find (fun p => Nat.eqb (fst p) h) gs with Some (_, ks) => Some ks | None => None end.

  Definition guards_after (gs : list (nat * list K)) (d : vec_op K Op * vec_res K Res V) : list (nat * list K) :=
    match d with
    | (SGet h k, RUnit) => (h, [k]) :: gs
    | (SOpen h _, RKeys ks) => (h, ks) :: gs
    | (SDrop h, _) => filter (fun p => negb (Nat.eqb (fst p) h)) gs
    | _ => gs
    end.

  (** The result of a call fits the guards the thread has. *)
  Definition returns (gs : list (nat * list K)) (d : vec_op K Op * vec_res K Res V) : Prop :=
    match fst d with
    | SGet h k => snd d = match guard_keys h gs with Some _ => RBad | None => RUnit end
    | SUse h k u =>
      match guard_keys h gs with
      | Some ks => if existsb (fun k' => keqb k' k) ks then exists r, snd d = RVal r else snd d = RBad
      | None => snd d = RBad
      end
    | SDrop h => snd d = match guard_keys h gs with Some _ => RUnit | None => RBad end
    | SRemove k => exists v, snd d = RRemoved v
    | SOpen h s => match guard_keys h gs with Some _ => snd d = RBad | None => exists ks, snd d = RKeys ks end
    end.
  Fixpoint returns_all (gs : list (nat * list K)) (l : list (vec_op K Op * vec_res K Res V)) : Prop :=
    match l with
    | [] => True
    | d :: t => returns gs d /\ returns_all (guards_after gs d) t
    end.
End Handles.

(** The metric of a key. *)
Definition vec_lookup {K Sh} (keqb : K -> K -> bool) (shard_of : K -> nat) (k : K) (c : svec K Sh) : option Sh :=
  match find_key keqb k (tab_of (shard_of k) c) with Some e => Some (e_sh e) | None => None end.

(** What all threads below [n] have done, added up, results included. *)
Definition total_flow {Sh Op Res Mic} (f : Op * Res -> Z) (n : nat) (c : config Sh Op Res Mic) : Z :=
  sum_over (fun i => sum_over f (t_done (c_th c i))) (seq 0 n).

(** A metric that is linearizable by itself. *)
Definition good_metric {Sh Op Res Mic V St} (O : machine Sh Op Res Mic) (sh_new : Sh) (view : Sh -> V)
  (spec : nat -> Op -> St -> option (St * Res)) (st_new : St) (aview : St -> V) : Prop :=
  exists lin inv rep, object_ok O spec lin inv sh_new st_new rep /\ forall sh st, rep sh st -> view sh = aview st.

(** Vecs of counters and of histograms with [n] buckets. *)
Definition counter_vec {K} (keqb : K -> K -> bool) (shard_of : K -> nat) :=
  sparse_machine (V := N) keqb shard_of counter_machine 0%N (fun v => v).
Definition hist_view (h : hist) : list N * N * N := (h_buckets h, h_inf h, h_sum h).
Definition hist_vec {K} (n : nat) (keqb : K -> K -> bool) (shard_of : K -> nat) :=
  sparse_machine keqb shard_of hist_machine {| ch_lock := rw_free; ch_state := hist_new n |} (fun c => hist_view (ch_state c)).

(** Observations counted by a histogram. *)
Definition hist_count (v : list N * N * N) : Z :=
  (sum_over Z.of_N (fst (fst v)) + Z.of_N (snd (fst v)))%Z.
Definition hist_added (op : hist_op) (r : hist_res) : Z :=
  match op, r with HObserve _ _, Some _ => 1 | _, _ => 0 end%Z.
