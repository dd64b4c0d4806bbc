(** What a metric vec should be: a finite map from label groups to metrics. *)
From Coq Require Import List NArith Bool Permutation.
From Verif Require Import Base LabelModel LabelSpec VecModel.
Import ListNotations.
Local Open Scope N_scope.

Inductive storage := KDense | KSparse.

Section Spec.
  Context {L : lgset} {M : Type}.
  Variable mdefault : M.
  (** Equality of label groups. *)
  Variable geqb : lg_group L -> lg_group L -> bool.
  (** Groups of the right shape for the set. *)
  Variable wt : lg_state L -> lg_group L -> Prop.

  Let G := lg_group L.

  (** The label set, the map, and the groups behind the ids issued so far. *)
  Record astate := {
    a_set : lg_state L;
    a_map : G -> option M;
    a_groups : list G }.

  Definition current (a : astate) (g : G) : M :=
    match a_map a g with Some m => m | None => mdefault end.

  (** [mp'] is [mp] with [g] bound to [x]. *)
  Definition bound (mp : G -> option M) (g : G) (x : option M) (mp' : G -> option M) : Prop :=
    mp' g = x /\ forall g', g' <> g -> mp' g' = mp g'.

  (** The group belongs to the label set. *)
  Definition known (s : lg_state L) (g : G) : Prop :=
    wt s g /\ exists s' u, lg_encode L s g = Done (s', Some u).

  Inductive spec_step (k : storage) (a : astate) : vec_op L M -> vec_out L M -> astate -> Prop :=
  | sp_lookup_some : forall g s' u,
      lg_encode L (a_set a) g = Done (s', Some u) ->
      spec_step k a (OpLookup g) (OutLookup (Some (map (geqb g) (a_groups a))))
        {| a_set := s'; a_map := a_map a; a_groups := a_groups a ++ [g] |}
  | sp_lookup_none : forall g s',
      lg_encode L (a_set a) g = Done (s', None) ->
      spec_step k a (OpLookup g) (OutLookup None)
        {| a_set := s'; a_map := a_map a; a_groups := a_groups a |}
  | sp_access : forall h f g m' r mp',
      nth_error (a_groups a) h = Some g -> f (current a g) = (m', r) ->
      bound (a_map a) g (Some m') mp' ->
      spec_step k a (OpAccess h f) (OutValue r)
        {| a_set := a_set a; a_map := mp'; a_groups := a_groups a |}
  | sp_access_mut : forall h f g m' r mp',
      nth_error (a_groups a) h = Some g -> f (current a g) = (m', r) ->
      bound (a_map a) g (Some m') mp' ->
      spec_step k a (OpAccessMut h f) (OutValue r)
        {| a_set := a_set a; a_map := mp'; a_groups := a_groups a |}
  | sp_remove_sparse : forall h g mp',
      k = KSparse -> nth_error (a_groups a) h = Some g ->
      bound (a_map a) g None mp' ->
      spec_step k a (OpRemove h) (OutRemoved (a_map a g))
        {| a_set := a_set a; a_map := mp'; a_groups := a_groups a |}
  | sp_remove_dense : forall h g,
      k = KDense -> nth_error (a_groups a) h = Some g ->
      spec_step k a (OpRemove h) (OutRemoved None) a
  | sp_init_sparse : k = KSparse -> spec_step k a OpInitAll OutUnit a
  | sp_init_dense : forall mp', k = KDense ->
      (forall g m, a_map a g = Some m -> mp' g = Some m) ->
      (forall g, a_map a g = None -> known (a_set a) g -> mp' g = Some mdefault) ->
      (forall g, a_map a g = None -> ~ known (a_set a) g -> mp' g = None) ->
      spec_step k a OpInitAll OutUnit
        {| a_set := a_set a; a_map := mp'; a_groups := a_groups a |}
  | sp_cardinality : forall gs,
      NoDup gs -> (forall g, In g gs <-> a_map a g <> None) ->
      (forall c, lg_cardinality L (a_set a) = Some c -> N.of_nat (length gs) <= c) ->
      spec_step k a OpCardinality (OutCardinality (N.of_nat (length gs)) (lg_cardinality L (a_set a))) a
  | sp_collect : forall l,
      NoDup (map fst l) -> (forall g m, In (g, m) l <-> a_map a g = Some m) ->
      spec_step k a OpCollect (OutSamples l) a
  | sp_no_handle : forall op,
      match op with
      | OpAccess h _ | OpAccessMut h _ | OpRemove h => nth_error (a_groups a) h = None
      | _ => False
      end -> spec_step k a op OutNoHandle a.

  Inductive spec_run (k : storage) : astate -> list (vec_op L M) -> list (vec_out L M) -> astate -> Prop :=
  | sr_nil : forall a, spec_run k a [] [] a
  | sr_cons : forall a op o a' ops os a'',
      spec_step k a op o a' -> spec_run k a' ops os a'' -> spec_run k a (op :: ops) (o :: os) a''.

  (** Every group looked up has the right shape (what the Rust types ensure). *)
  Definition typed_ops (s : lg_state L) (ops : list (vec_op L M)) : Prop :=
    forall g, In (OpLookup g) ops -> wt s g.

  (** The empty map. *)
  Definition empty_astate (s : lg_state L) : astate :=
    {| a_set := s; a_map := fun _ => None; a_groups := [] |}.
End Spec.

(** Outputs that a client cannot tell apart: samples up to order. *)
Definition same_out {L M} (o o' : vec_out L M) : Prop :=
  match o, o' with
  | OutSamples l, OutSamples l' => Permutation l l'
  | _, _ => o = o'
  end.


(* ------------------------------------------------------------------ *)
(** ** Programs and runs *)

(** Everything a metric vec is parametric in: the build profile, the default
    metric, the hash function, the behaviour of the hash table and equality of
    label groups. *)
Record world (L : lgset) (M : Type) := {
  w_bd : build;
  w_default : M;
  w_hash : lg_unique L -> N;
  w_visits : N -> N -> bool;
  w_grows : table L M -> bool;
  w_iter : table L M -> table L M;
  w_geqb : lg_group L -> lg_group L -> bool }.
Arguments w_bd {L M}.
Arguments w_default {L M}.
Arguments w_hash {L M}.
Arguments w_visits {L M}.
Arguments w_grows {L M}.
Arguments w_iter {L M}.
Arguments w_geqb {L M}.

(** The contract of hashbrown's table: a search looks at the entries stored
    under the searched hash, iteration visits every entry once. *)
Record world_ok {L M} (W : world L M) : Prop := {
  wo_visits : forall h, w_visits W h h = true;
  wo_iter : forall t, Permutation (w_iter W t) t;
  wo_geqb : forall a b, w_geqb W a b = true <-> a = b }.

Definition storage_of {L M} (v : metric_vec L M) : storage :=
  match mv_metrics v with Dense _ => KDense | Sparse _ => KSparse end.

(** A vec built by one of the constructors, with [p] threads available. *)
Definition constructed {L M} (W : world L M) (p : N) (ls : lg_state L) (v : metric_vec L M) : Prop :=
  1 <= p /\ p * 4 <= 2 ^ 63 /\
  (vec_new (w_bd W) L M p ls = Done v \/ vec_new_dense L M ls = Done v \/
   vec_new_sparse (w_bd W) L M p ls = Done v).

Definition start {L M} (v : metric_vec L M) : client L M := {| cl_vec := v; cl_ids := [] |}.

(** Run a client program on a vec from the given client state. *)
Definition exec {L M} (W : world L M) (c : client L M) (ops : list (vec_op L M))
  : outcome (client L M * list (vec_out L M)) :=
  vec_run (w_bd W) L M (w_default W) (w_hash W) (w_visits W) (w_grows W) (w_iter W) c ops.

(** The groups behind the ids issued by a run, oldest first. *)
Fixpoint issued {L M} (ops : list (vec_op L M)) (os : list (vec_out L M)) : list (lg_group L) :=
  match ops, os with
  | OpLookup g :: ops', OutLookup (Some _) :: os' => g :: issued ops' os'
  | _ :: ops', _ :: os' => issued ops' os'
  | _, _ => []
  end.

(** Accesses may be made through shared or exclusive references. *)
Inductive same_op {L M} : vec_op L M -> vec_op L M -> Prop :=
| so_refl : forall op, same_op op op
| so_shared_mut : forall h f, same_op (OpAccess h f) (OpAccessMut h f)
| so_mut_shared : forall h f, same_op (OpAccessMut h f) (OpAccess h f).

(** No removal and no bulk initialisation. *)
Definition plain_op {L M} (op : vec_op L M) : Prop :=
  match op with OpRemove _ | OpInitAll => False | _ => True end.

(** Which labels hold a metric after a run without bulk initialisation: those
    accessed and, on sparse storage, not removed since.  [ids] are the groups
    behind the ids issued before the run, [lv] the labels live before it. *)
Fixpoint live_after {L M} (k : storage) (ids : list (lg_group L)) (lv : lg_group L -> Prop)
  (ops : list (vec_op L M)) (os : list (vec_out L M)) : lg_group L -> Prop :=
  match ops, os with
  | op :: ops', o :: os' =>
    live_after k (ids ++ issued [op] [o])
      (match op with
       | OpAccess h _ | OpAccessMut h _ => fun g => lv g \/ nth_error ids h = Some g
       | OpRemove h => fun g => lv g /\ (k = KSparse -> nth_error ids h <> Some g)
       | _ => lv
       end) ops' os'
  | _, _ => lv
  end.

(** ** A world used in examples *)

Fixpoint group_val_eqb (a b : group_val) : bool :=
  match a, b with
  | [], [] => true
  | (n, x) :: a', (m, y) :: b' => beqb n m && beqb x y && group_val_eqb a' b'
  | _, _ => false
  end.

(** Counters as numbers, a table that always rehashes, compares only the high
    bits of the hash and iterates backwards. *)
Definition ex_hash (u : unique) : N :=
  (fst u * 1234567891234567 + fold_left N.add (snd u) 7) mod 2 ^ 64.

Definition ex_world : world (derived_lgset Debug) N := {|
  w_bd := Debug;
  w_default := 0;
  w_hash := ex_hash : lg_unique (derived_lgset Debug) -> N;
  w_visits := fun h h' => (h / 2 ^ 60 =? h' / 2 ^ 60);
  w_grows := fun _ => true;
  w_iter := fun t => rev t;
  w_geqb := group_val_eqb : lg_group (derived_lgset Debug) -> lg_group (derived_lgset Debug) -> bool |}.

Definition ex_add (n : N) : N -> N * N := fun m => (m + n, m).

Definition ex_group (a b c : N) : group_val := [([1], [a]); ([2], [b]); ([3], [c])].

Definition ex_lookup (g : group_val) : vec_op (derived_lgset Debug) N := @OpLookup (derived_lgset Debug) N g.

Definition ex_program : list (vec_op (derived_lgset Debug) N) :=
  [ ex_lookup (ex_group 80 120 98); ex_lookup (ex_group 68 121 97); ex_lookup (ex_group 68 122 97);
    ex_lookup (ex_group 80 120 98); OpAccess 0 (ex_add 3); OpAccessMut 1 (ex_add 4); OpAccess 2 (ex_add 5);
    OpCardinality; OpRemove 1; OpCollect ].

Definition ex_fixed_program : list (vec_op (derived_lgset Debug) N) :=
  [ ex_lookup [([1], [68]); ([3], [97])]; ex_lookup [([1], [80]); ([3], [98])];
    OpAccess 0 (ex_add 3); OpAccess 1 (ex_add 4); OpAccess 0 (ex_add 0); OpCardinality; OpCollect ].

Definition ex_samples (l : list (group_val * N)) : vec_out (derived_lgset Debug) N :=
  @OutSamples (derived_lgset Debug) N l.

Definition ex_done (r : outcome (metric_vec (derived_lgset Debug) N)) : metric_vec (derived_lgset Debug) N :=
  match r with Done v => v | Panic => {| mv_metrics := Dense []; mv_set := ([] : lg_state (derived_lgset Debug)) |} end.
Definition ex_end (r : outcome (client (derived_lgset Debug) N * list (vec_out (derived_lgset Debug) N))) :=
  match r with Done p => p | Panic => (start (ex_done Panic), []) end.
(** Default (sparse and dense) vecs, and a sparse vec on the fixed set. *)
Definition ex_vec := ex_done (vec_new Debug (derived_lgset Debug) N 3 ex_set).
Definition ex_dense_vec := ex_done (vec_new Debug (derived_lgset Debug) N 3 ex_fixed_set).
Definition ex_sparse_vec := ex_done (vec_new_sparse Debug (derived_lgset Debug) N 3 ex_fixed_set).
