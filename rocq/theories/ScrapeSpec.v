(** Names, labels and series of a whole scrape, as its reader sees them. *)
From Coq Require Import String List NArith ZArith Bool Permutation.
From Verif Require Import Base NameModel NameSpec LabelModel LabelSpec FloatModel EncoderModel TextSpec DeriveModel.
Import ListNotations.

(* ------------------------------------------------------------------ *)
(** ** Labels of a derived group *)

Section Visits.
  Variable heck : rename_all -> bytes -> bytes.

  (** What a variant of an enum is shown as: its discriminant, its new name or
      its converted name. *)
  Inductive variant_shown (e : enum_spec) : bytes -> lvalue -> Prop :=
  | VS_value : forall v z, In v (en_variants e) -> v_value v = Some z -> variant_shown e (v_ident v) (LInt z)
  | VS_rename : forall v s, In v (en_variants e) -> v_value v = None -> v_rename v = Some s ->
      variant_shown e (v_ident v) (LStr s)
  | VS_case : forall v, In v (en_variants e) -> v_value v = None -> v_rename v = None ->
      variant_shown e (v_ident v) (LStr (heck (en_rename_all e) (v_ident v))).

  Inductive value_shown : label_set -> bytes -> lvalue -> Prop :=
  | VS_enum : forall e v x, variant_shown e v x -> value_shown (SStatic e) v x
  | VS_set : forall l v, value_shown (SFixedSet l) v (LStr v)
  | VS_interner : forall c l v, value_shown (SInterner c l) v (LStr v).

  (** A group is shown field by field in declaration order, under the new name
      of the field if there is one. *)
  Inductive group_shown : group_set -> group_val -> labels -> Prop :=
  | GS_nil : group_shown [] [] []
  | GS_renamed : forall f s n v g x ls, f_rename f = Some n -> value_shown (f_set f) v x -> group_shown s g ls ->
      group_shown (f :: s) ((f_name f, v) :: g) ((n, x) :: ls)
  | GS_named : forall f s v g x ls, f_rename f = None -> value_shown (f_set f) v x -> group_shown s g ls ->
      group_shown (f :: s) ((f_name f, v) :: g) ((f_name f, x) :: ls).
End Visits.

(** The set struct generated for a label group: one field per field, with a
    dynamic set where asked for. *)
Definition set_for (f : lfield) (s : field) : Prop :=
  f_name s = lf_name f /\ f_rename s = lb_rename (lf_attrs f) /\
  (is_dynamic (f_set s) = true <-> exists p, lb_kind (lf_attrs f) = LDynamicWith p).

(** The variants of each enum of a set are shown by different texts. *)
Definition enums_apart (heck : rename_all -> bytes -> bytes) (s : group_set) : Prop :=
  forall f e u v x y t, In f s -> f_set f = SStatic e -> u <> v ->
    variant_shown heck e u x -> variant_shown heck e v y ->
    ~ (label_shows (fun _ => []) x t /\ label_shows (fun _ => []) y t).

(* ------------------------------------------------------------------ *)
(** ** Series *)

(** Two sample lines of the same series: the order of labels does not matter. *)
Definition same_series (i j : item) : Prop :=
  match i, j with
  | Sample n1 ls1 _ _, Sample n2 ls2 _ _ => n1 = n2 /\ Permutation ls1 ls2
  | _, _ => False
  end.

Definition no_repeated_series (items : list item) : Prop :=
  forall i j x y, nth_error items i = Some x -> nth_error items j = Some y -> i <> j -> ~ same_series x y.

(** Every sample line has each label once. *)
Definition labels_once (items : list item) : Prop :=
  forall n ls v t, In (Sample n ls v t) items -> NoDup (map fst ls).

(** At most one HELP and one TYPE line per name. *)
Definition same_header (i j : item) : Prop :=
  match i, j with
  | Help n1 _, Help n2 _ => n1 = n2
  | Type_ n1 _, Type_ n2 _ => n1 = n2
  | _, _ => False
  end.
Definition headers_once (items : list item) : Prop :=
  forall i j x y, nth_error items i = Some x -> nth_error items j = Some y -> i <> j -> ~ same_header x y.

Section Apart.
  Variable float_text : f64 -> bytes.

  (** Two label values never shown by the same text. *)
  Definition values_apart (a b : lvalue) : Prop :=
    forall t, label_shows float_text a t -> label_shows float_text b t -> False.

  (** Label lists never shown as the same set of labels. *)
  Definition labels_apart (a b : labels) : Prop :=
    forall ts us, labels_show float_text a ts -> labels_show float_text b us -> ~ Permutation ts us.

  (** A float formatter that does its job on finite numbers: different texts for
      different numbers, and none of the words for the others. *)
  Definition finite (x : f64) : Prop :=
    (x < 2 ^ 64)%N /\ match f_decode x with SpecFloat.S754_nan | SpecFloat.S754_infinity _ => False | _ => True end.
  Definition faithful : Prop :=
    (forall x y, finite x -> finite y -> float_text x = float_text y -> x = y) /\
    (forall x, finite x -> ~ In (float_text x) [str "NaN"; str "+Inf"; str "-Inf"]).

  (** The bounds of a histogram, with the implicit last one, are shown by
      different texts. *)
  Definition bounds_apart (m : metric) : Prop :=
    match m with
    | MHistogram ts _ _ _ =>
      forall i j x y, nth_error (ts ++ [f_infinity]) i = Some x -> nth_error (ts ++ [f_infinity]) j = Some y ->
        i <> j -> values_apart (LFloat x) (LFloat y)
    | _ => True
    end.

  (** The samples of a family: kinds as announced, labels distinct within a
      sample and different between samples, and no label [le] on a histogram. *)
  Definition sample_ok (k : kind) (p : labels * metric) : Prop :=
    metric_kind (snd p) = k /\ NoDup (map fst (fst p)) /\ bounds_apart (snd p) /\
    (k = KHistogram -> ~ In (str "le") (map fst (fst p))).
  Fixpoint family_ok (f : family) : Prop :=
    match f with
    | FamMetric m => bounds_apart m
    | FamVec k (Done l) =>
      Forall (sample_ok k) l /\
      forall i j p q, nth_error l i = Some p -> nth_error l j = Some q -> i <> j -> labels_apart (fst p) (fst q)
    | FamVec _ Panic => True
    | FamSome f => family_ok f
    | FamNone => True
    end.
End Apart.

(** ** Families of a group *)

(** All metric families of a group: full names in the order of collection. *)
Fixpoint named_families (nss : list bytes) (g : group) : list (bytes * family) :=
  match g with
  | GStruct fs => named_fields nss fs
  | GComposed a b => named_families nss a ++ named_families nss b
  | GNamespace ns g => named_families (nss ++ [ns]) g
  | GSome g => named_families nss g
  | GNone => []
  end
with named_fields (nss : list bytes) (fs : gfields) : list (bytes * family) :=
  match fs with
  | FieldsNil => []
  | FieldMetric name rename _ f rest =>
    (full_name nss (match rename with Some r => r | None => name end) [], f) :: named_fields nss rest
  | FieldGroup g rest => named_families nss g ++ named_fields nss rest
  | FieldNamespace ns g rest => named_families (nss ++ [ns]) g ++ named_fields nss rest
  end.

Fixpoint family_kind (f : family) : option kind :=
  match f with
  | FamMetric m => Some (metric_kind m)
  | FamVec k _ => Some k
  | FamSome f => family_kind f
  | FamNone => None
  end.

(** The names of sample lines that a family uses. *)
Definition reserved (p : bytes * family) : list bytes :=
  match family_kind (snd p) with
  | None => []
  | Some KHistogram => [fst p ++ str "_bucket"; fst p ++ str "_sum"; fst p ++ str "_count"]
  | Some _ => [fst p]
  end.

(** No families that clash by name alone. *)
Definition names_apart (g : group) : Prop :=
  NoDup (map fst (named_families [] g)) /\ NoDup (flat_map reserved (named_families [] g)).

(** No family is called like a line of a histogram. *)
Definition histogram_suffixes : list bytes := [str "bucket"; str "sum"; str "count"].
Definition suffixes_free (fams : list (bytes * family)) : Prop :=
  forall p q, In p fams -> In q fams -> family_kind (snd p) = Some KHistogram ->
    forall k w, family_kind (snd q) = Some k -> k <> KHistogram -> In w histogram_suffixes ->
      fst q <> fst p ++ str "_" ++ w.

(** A struct without subgroups and its metric names. *)
Fixpoint flat (fs : gfields) : Prop :=
  match fs with
  | FieldsNil => True
  | FieldMetric _ _ _ _ rest => flat rest
  | _ => False
  end.
Fixpoint field_names (fs : gfields) : list bytes :=
  match fs with
  | FieldsNil => []
  | FieldMetric name rename _ _ rest => match rename with Some r => r | None => name end :: field_names rest
  | FieldGroup _ rest | FieldNamespace _ _ rest => field_names rest
  end.
