(** From calls on a metric vec to the lines of a scrape. *)
From Coq Require Import String List NArith ZArith Bool.
From Verif Require Import Base Writer NameModel NameSpec LabelModel LabelSpec VecModel VecSpec FloatModel EncoderModel TextModel TextSpec MetricModel CallModel.
Import ListNotations.
Local Open Scope N_scope.

Section Calls.
  Context {L : lgset} {M : Type}.
  Variable geqb : lg_group L -> lg_group L -> bool.

  (** The metric of the group [g] after the calls, if there is one: what its
      updates make of the default metric, or of the metric it had. *)
  Definition call_effect (k : storage) (default : M) (g : lg_group L) (st : option M) (c : call L M) : option M :=
    match c with
    | Update _ h f =>
      if geqb h g then
        match f (match st with Some m => m | None => default end) with Done m => Some m | Panic => st end
      else st
    | Delete h =>
      match k with
      | KSparse => if geqb h g then None else st
      | KDense => st
      end
    end.
  Definition after (k : storage) (default : M) (calls : list (call L M)) (g : lg_group L) : option M :=
    fold_left (call_effect k default g) calls None.

  Definition call_group (c : call L M) : lg_group L := match c with Update _ g _ | Delete g => g end.
End Calls.

(** The amounts given for a group. *)
Definition given {A} (g : group_val) (l : list (group_val * A)) : list A :=
  map snd (filter (fun p => group_val_eqb (fst p) g) l).

(** What a scrape says about a family: a TYPE line and then, for each group in
    [gs], the lines about it; [lines] says which these are. *)
Definition family_lines (name : bytes) (k : kind) (lines : group_val -> list item -> Prop)
    (gs : list group_val) (items : list item) : Prop :=
  exists parts, items = Type_ name (kind_word k) :: concat parts /\ Forall2 lines gs parts.

(** Scraping [G] in the text format gives an exposition with such lines about
    the family [name], one block for each of [groups] and no other. *)
Definition reported (float_text : f64 -> bytes) (bd : build) (G : group) (w : writer) (name : bytes) (k : kind)
    (groups : list group_val) (lines_of : group_val -> list item -> Prop) : Prop :=
  exists st out items before lines behind gs,
    collect_group (text_encoder float_text bd) G (text_new w) = (st, ROk) /\ w_out (te_writer st) = w_out w ++ out /\
    parse out = Some items /\ filter meaningful items = before ++ lines ++ behind /\
    NoDup gs /\ (forall g, In g gs <-> In g groups) /\ family_lines name k lines_of gs lines.

(** ** The calls of one kind of vec *)

(** Increments by the given amounts, through shared or exclusive references. *)
Definition counts {L} (bd : build) (p : lg_group L * N) (c : call L N) : Prop :=
  c = counter_vec_inc_by (fst p) (snd p) \/ c = counter_vec_inc_by_mut bd (fst p) (snd p) \/
  snd p = 1 /\ (c = counter_vec_inc (fst p) \/ c = counter_vec_inc_mut bd (fst p)).

(** What a gauge call does to an unbounded integer. *)
Definition on_integer (z : Z) (op : gauge_op) : Z :=
  match op with
  | GInc => z + 1
  | GIncBy x => z + x
  | GDec => z - 1
  | GDecBy x => z - x
  | GSet x => x
  end%Z.

(** What a float gauge call does to a float; [f_add] and [f_sub] round to the
    nearest. *)
Definition on_float (x : f64) (op : fgauge_op) : f64 :=
  match op with
  | FInc => f_add x (f_of_Z 1)
  | FIncBy y => f_add x y
  | FDec => f_sub x (f_of_Z 1)
  | FDecBy y => f_sub x y
  | FSet y => y
  end.

(** Observations of the given values: directly, as durations, or as the time
    passed since an instant, none if that lies ahead. *)
Definition observes {L} (sv : std_version) (ts : list f64) (p : lg_group L * f64) (c : call L hist) : Prop :=
  c = histogram_vec_observe sv ts (fst p) (snd p) \/
  (exists d, snd p = as_secs_f64 d /\ c = histogram_vec_observe_duration sv ts (fst p) d) \/
  (exists start now d, d_nanos d < 10 ^ 9 /\ d_secs d * 10 ^ 9 + d_nanos d = now - start /\
     snd p = as_secs_f64 d /\ c = histogram_vec_observe_since sv ts (fst p) start now).
