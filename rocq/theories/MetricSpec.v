(** What metrics have to do.  Of the model only the types of timer calls and
    instants are used. *)
From Coq Require Import String List NArith ZArith Bool.
From Verif Require Import Base NameModel NameSpec LabelModel FloatModel EncoderModel TextSpec MetricModel.
Import ListNotations.
Local Open Scope N_scope.

(* ------------------------------------------------------------------ *)
(** ** Thresholds *)

(** Each threshold is less than its successor. *)
Definition ascending (ts : list f64) : Prop :=
  forall i a b, nth_error ts i = Some a -> nth_error ts (S i) = Some b -> f_lt a b = true.

(** All finite, and any earlier one less than any later one: what histogram
    buckets should be. *)
Definition f_is_finite (x : f64) : bool := negb (f_is_nan x) && negb (f_is_infinite x).
Definition well_formed (ts : list f64) : Prop :=
  (forall t, In t ts -> f_is_finite t = true) /\
  forall i j a b, (i < j)%nat -> nth_error ts i = Some a -> nth_error ts j = Some b -> f_lt a b = true.

Definition no_nan (xs : list f64) : Prop := forall x, In x xs -> f_is_nan x = false.

(** The first threshold that is at least [x] is the one at [k]. *)
Definition first_fit (ts : list f64) (x : f64) (k : nat) : Prop :=
  (exists t, nth_error ts k = Some t /\ f_le x t = true) /\
  forall j t, (j < k)%nat -> nth_error ts j = Some t -> f_le x t = false.
Definition fits_nowhere (ts : list f64) (x : f64) : Prop :=
  forall t, In t ts -> f_le x t = false.

(** [l'] is [l] with one more (modulo 2^64) at [k] and the rest unchanged. *)
Definition one_more (k : nat) (l l' : list N) : Prop :=
  length l' = length l /\
  (exists c, nth_error l k = Some c /\ nth_error l' k = Some ((c + 1) mod W64)) /\
  forall j, j <> k -> nth_error l' j = nth_error l j.

(* ------------------------------------------------------------------ *)
(** ** Observations *)

(** Number of observations that are at most [t]. *)
Definition count_le (xs : list f64) (t : f64) : N := nlen (filter (fun x => f_le x t) xs).
(** The sum in the order of observation, starting from 0.0. *)
Definition float_sum (xs : list f64) : f64 := fold_left f_add xs 0.

Section Lines.
  Variable float_text : f64 -> bytes.
  (** The lines of the histogram of observations [xs]. *)
  Definition observed_lines (nss : list bytes) (base : bytes) (ls : labels)
      (ts xs : list f64) (items : list item) : Prop :=
    exists buckets i_inf i_sum i_count,
      items = buckets ++ [i_inf; i_sum; i_count] /\
      Forall2 (fun t i => int_sample float_text (full_name nss base [str "bucket"])
                            (ls ++ [(str "le", LFloat t)]) (Z.of_N (count_le xs t)) i) ts buckets /\
      int_sample float_text (full_name nss base [str "bucket"])
        (ls ++ [(str "le", LFloat f_infinity)]) (Z.of_nat (length xs)) i_inf /\
      float_sample float_text (full_name nss base [str "sum"]) ls (float_sum xs) i_sum /\
      int_sample float_text (full_name nss base [str "count"]) ls (Z.of_nat (length xs)) i_count.
End Lines.

(* ------------------------------------------------------------------ *)
(** ** Timers *)

Section TimerSpec.
  Variable T : Type.
  Notation op := (timer_op T).

  (** The timers started, in order, with target and starting time. *)
  Definition starts (ops : list op) : list (T * instant) :=
    flat_map (fun o => match o with TStart _ t now => [(t, now)] | _ => [] end) ops.

  Definition ends (i : nat) (o : op) : Prop :=
    match o with
    | TStart _ _ _ => False
    | TForget _ j _ | TObserve _ j _ _ | TDrop _ j _ => j = i
    end.

  (** The call makes timer [i] record, the clock reading [now]. *)
  Definition records (i : nat) (now : instant) (o : op) : Prop :=
    match o with
    | TObserve _ j n _ | TDrop _ j n => j = i /\ n = now
    | _ => False
    end.

  (** What ownership guarantees: a timer is ended after it was started, and
      once. *)
  Definition proper (ops : list op) : Prop :=
    forall pre o post i, ops = pre ++ o :: post -> ends i o ->
      (i < length (starts pre))%nat /\ ~ exists o', In o' pre /\ ends i o'.

  (** One recording: timer, target, starting time, clock reading. *)
  Definition recording := (nat * T * instant * instant)%type.

  (** [rs] lists the recordings of [ops] in order. *)
  Inductive recordings (all : list op) : list op -> list recording -> Prop :=
  | Rec_nil : recordings all [] []
  | Rec_skip : forall o rest rs, (forall i now, ~ records i now o) ->
      recordings all rest rs -> recordings all (o :: rest) rs
  | Rec_cons : forall o rest rs i now t s, records i now o ->
      nth_error (starts all) i = Some (t, s) ->
      recordings all rest rs -> recordings all (o :: rest) ((i, t, s, now) :: rs).

  (** Making the recordings [rs], one after the other. *)
  Variable W : Type.
  Variable observe_since : T -> instant -> instant -> W -> outcome (W * duration).
  Fixpoint record_all (rs : list recording) (w : W) : outcome W :=
    match rs with
    | [] => Done w
    | (_, t, s, now) :: rest => let! wd := observe_since t s now w in record_all rest (fst wd)
    end.
End TimerSpec.
