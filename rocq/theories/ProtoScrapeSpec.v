(** What the reader of a whole protobuf scrape sees, and how it compares with a
    text scrape. *)
From Coq Require Import String List NArith ZArith Bool Permutation.
From Verif Require Import Base FloatModel TextSpec ProtoSpec ProtoEndSpec.
Import ListNotations.
Local Open Scope N_scope.

(** Every message has a name of its own. *)
Definition families_once (ps : list pfamily) : Prop :=
  (forall p, In p ps -> pf_name p <> None) /\
  (forall i j p q, nth_error ps i = Some p -> nth_error ps j = Some q -> i <> j -> pf_name p <> pf_name q).

(** No two metrics of a message have the same labels; their order does not
    matter. *)
Definition metrics_once (ps : list pfamily) : Prop :=
  forall p i j m m', In p ps -> nth_error (pf_metrics p) i = Some m -> nth_error (pf_metrics p) j = Some m' -> i <> j ->
    ~ Permutation (pm_labels m) (pm_labels m').

(** Every metric has each label once, with a name and a value. *)
Definition metric_labels_once (ps : list pfamily) : Prop :=
  forall p m, In p ps -> In m (pf_metrics p) ->
    NoDup (map lp_name (pm_labels m)) /\ Forall (fun l => lp_name l <> None /\ lp_value l <> None) (pm_labels m).

(** A message has metrics, and each has the one value its type asks for. *)
Definition values_typed (ps : list pfamily) : Prop :=
  forall p, In p ps -> pf_metrics p <> [] /\
    ((pf_type p = Some 0 /\ forall m, In m (pf_metrics p) -> pm_gauge m = None /\ exists x, pm_counter m = Some (Some x)) \/
     (pf_type p = Some 1 /\ forall m, In m (pf_metrics p) -> pm_counter m = None /\ exists x, pm_gauge m = Some (Some x))).

(* ------------------------------------------------------------------ *)
(** ** Both formats *)

(** Texts of the same label value: integers may be written in more than one way. *)
Definition same_value (t u : bytes) : Prop := t = u \/ exists z, read_int t = Some z /\ read_int u = Some z.
Definition same_labels (ts : list (bytes * bytes)) (ls : list label_pair) : Prop :=
  Forall2 (fun t l => lp_name l = Some (fst t) /\ exists u, lp_value l = Some u /\ same_value (snd t) u) ts ls.

(** A sample line and a metric of a message of type [k] with the same labels and
    value. *)
Definition same_sample (float_text : f64 -> bytes) (n : bytes) (k : N) (i : item) (m : pmetric) : Prop :=
  exists ts v, i = Sample n ts v None /\ same_labels ts (pm_labels m) /\
    if k =? 0 then pm_gauge m = None /\ exists z x, read_int v = Some z /\ pm_counter m = Some (Some x) /\ int_double z x
    else pm_counter m = None /\ exists x, pm_gauge m = Some (Some x) /\
           ((exists z, read_int v = Some z /\ int_double z x) \/ v = float_text x).

Definition sample_line (i : item) : bool := match i with Sample _ _ _ _ => true | _ => false end.

(** The sample lines of the text fall into blocks, one for each message in
    order, with a line for each of its metrics in order. *)
Definition samples_agree (float_text : f64 -> bytes) (items : list item) (ps : list pfamily) : Prop :=
  exists blocks, filter sample_line items = concat blocks /\
    Forall2 (fun p b => b <> [] /\ exists n k, pf_name p = Some n /\ pf_type p = Some k /\
               Forall2 (same_sample float_text n k) b (pf_metrics p)) ps blocks.

(** The HELP and TYPE lines for the name of a message say what it says. *)
Definition headers_agree (items : list item) (ps : list pfamily) : Prop :=
  forall p n, In p ps -> pf_name p = Some n ->
    (forall h, In (Help n h) items <-> pf_help p = Some h) /\
    (forall t, In (Type_ n t) items <-> (pf_type p = Some 0 /\ t = str "counter" \/ pf_type p = Some 1 /\ t = str "gauge")).
