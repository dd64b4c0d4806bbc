(** What a user of the derive macros has in mind: attributes as a bag of
    arguments, names and series that are told apart. *)
From Coq Require Import String List NArith ZArith Bool.
From Verif Require Import Base NameModel NameSpec LabelModel LabelSpec EncoderModel TextSpec DeriveModel.
Import ListNotations.

(* ------------------------------------------------------------------ *)
(** ** Arguments of attributes *)

(** All arguments of the [#[key(...)]] attributes of an item, in order. *)
Fixpoint arguments (key : string) (l : list attribute) : list meta :=
  match l with
  | [] => []
  | a :: rest =>
    (if beqb (at_path a) (str key) then match at_body a with AList ms _ => ms | _ => [] end else [])
    ++ arguments key rest
  end.

(** Such attributes have a list of arguments. *)
Definition list_only (key : string) (l : list attribute) : Prop :=
  forall a, In a l -> at_path a = str key -> exists ms t, at_body a = AList ms t.

(** [name], [name = "s"], [name = path], [name = anything] *)
Definition plain (name : string) : meta := {| mt_path := str name; mt_arg := MNone |}.
Definition equals (name : string) (v : tok) : meta := {| mt_path := str name; mt_arg := MEq v |}.
Definition given_path (name : string) (p : bytes) (ms : list meta) : Prop :=
  In (equals name (TIdent p)) ms \/ In (equals name (TPath p)) ms.

(** How many arguments have one of these names. *)
Definition times (names : list string) (ms : list meta) : nat :=
  length (filter (fun m => existsb (fun n => beqb (mt_path m) (str n)) names) ms).

(** *** Label group fields *)

Inductive label_argument : meta -> Prop :=
| LA_fixed : label_argument (plain "fixed")
| LA_fixed_with : forall p, label_argument (equals "fixed_with" (TIdent p))
| LA_fixed_with' : forall p, label_argument (equals "fixed_with" (TPath p))
| LA_dynamic_with : forall p, label_argument (equals "dynamic_with" (TIdent p))
| LA_dynamic_with' : forall p, label_argument (equals "dynamic_with" (TPath p))
| LA_default : label_argument (plain "default")
| LA_rename : forall s, label_argument (equals "rename" (TStr s)).

Definition label_attrs_ok (l : list attribute) : Prop :=
  let ms := arguments "label" l in
  list_only "label" l /\ Forall label_argument ms /\
  times ["fixed"; "fixed_with"; "dynamic_with"]%string ms <= 1 /\
  times ["default"]%string ms <= 1 /\ times ["rename"]%string ms <= 1.

Definition label_attrs_mean (l : list attribute) (r : label_attrs) : Prop :=
  let ms := arguments "label" l in
  (forall p, lb_kind r = LFixedWith p <-> given_path "fixed_with" p ms) /\
  (forall p, lb_kind r = LDynamicWith p <-> given_path "dynamic_with" p ms) /\
  (lb_default r = true <-> In (plain "default") ms \/ lb_kind r = LFixed) /\
  (forall s, lb_rename r = Some s <-> In (equals "rename" (TStr s)) ms).

(** *** Metric group fields *)

Inductive metric_argument : meta -> Prop :=
| MA_rename : forall s, metric_argument (equals "rename" (TStr s))
| MA_namespace : forall s, metric_argument (equals "namespace" (TStr s))
| MA_flatten : metric_argument (plain "flatten")
| MA_init : forall e, metric_argument (equals "init" e)
| MA_metadata : forall e, metric_argument (equals "metadata" e)
| MA_label_set : forall e, metric_argument (equals "label_set" e).

(** The texts of the doc comments, in order. *)
Fixpoint doc_texts (l : list attribute) : list bytes :=
  match l with
  | [] => []
  | a :: rest =>
    (if beqb (at_path a) (str "doc") then match at_body a with AValue (TStr s) => [s] | _ => [] end else [])
    ++ doc_texts rest
  end.

Definition metric_attrs_ok (l : list attribute) : Prop :=
  let ms := arguments "metric" l in
  list_only "metric" l /\
  (forall a, In a l -> at_path a = str "doc" -> exists s, at_body a = AValue (TStr s)) /\
  Forall metric_argument ms /\
  times ["rename"; "namespace"; "flatten"]%string ms <= 1 /\
  times ["init"]%string ms <= 1 /\ times ["metadata"]%string ms <= 1 /\ times ["label_set"]%string ms <= 1 /\
  (times ["init"]%string ms = 0 \/ times ["metadata"; "label_set"]%string ms = 0).

Definition metric_attrs_mean (l : list attribute) (r : metric_attrs) : Prop :=
  let ms := arguments "metric" l in
  (forall s, mf_kind r = KMetric (Some s) <-> In (equals "rename" (TStr s)) ms) /\
  (forall s, mf_kind r = KGroup (Some s) <-> In (equals "namespace" (TStr s)) ms) /\
  (mf_kind r = KGroup None <-> In (plain "flatten") ms) /\
  mf_docs r = (match doc_texts l with [] => None | ds => Some (concat ds) end) /\
  (forall e, mf_init r = Some (IRaw e) <-> In (equals "init" e) ms) /\
  (forall e, (exists ls, mf_init r = Some (IMetric (Some e) ls)) <-> In (equals "metadata" e) ms) /\
  (forall e, (exists md, mf_init r = Some (IMetric md (Some e))) <-> In (equals "label_set" e) ms) /\
  mf_init r <> Some (IMetric None None).

(** *** Enums *)

Definition case_names : list (string * rename_all) :=
  [("UpperCamelCase", UpperCamel); ("lowerCamelCase", LowerCamel); ("snake_case", Snake);
   ("kebab-case", Kebab); ("SHOUTY_SNAKE_CASE", ShoutySnake); ("SHOUTY-KEBAB-CASE", ShoutyKebab);
   ("Title Case", Title); ("Train-Case", Train)]%string.

Inductive enum_argument : meta -> Prop :=
| EA_crate : forall p, enum_argument (equals "crate" (TIdent p))
| EA_crate' : forall p, enum_argument (equals "crate" (TPath p))
| EA_rename_all : forall n r, In (n, r) case_names -> enum_argument (equals "rename_all" (TStr (str n)))
| EA_singleton : forall s, enum_argument (equals "singleton" (TStr s)).

Definition no_trailing_comma (key : string) (l : list attribute) : Prop :=
  forall a ms, In a l -> at_path a = str key -> at_body a <> AList ms true.

Definition enum_attrs_ok (l : list attribute) : Prop :=
  let ms := arguments "label" l in
  list_only "label" l /\ no_trailing_comma "label" l /\ Forall enum_argument ms /\
  times ["crate"]%string ms <= 1 /\ times ["rename_all"]%string ms <= 1 /\ times ["singleton"]%string ms <= 1 /\
  (forall s, In (equals "singleton" (TStr s)) ms -> valid_label_name s).

Definition variant_ok (v : variant_input) : Prop :=
  let ms := arguments "label" (vi_attrs v) in
  list_only "label" (vi_attrs v) /\
  Forall (fun m => exists s, m = equals "rename" (TStr s)) ms /\ length ms <= 1 /\
  vi_unit v = true /\ vi_disc v <> DOther.

Definition variant_means (v : variant_input) (r : variant) : Prop :=
  v_ident r = vi_ident v /\
  (forall z, v_value r = Some z <-> vi_disc v = DInt z) /\
  (forall s, v_rename r = Some s <-> In (equals "rename" (TStr s)) (arguments "label" (vi_attrs v))).

Definition enum_means (l : list attribute) (vs : list variant_input) (e : enum_spec) (singleton : option bytes) : Prop :=
  let ms := arguments "label" l in
  (forall n r, In (n, r) case_names -> In (equals "rename_all" (TStr (str n))) ms -> en_rename_all e = r) /\
  (times ["rename_all"]%string ms = 0 -> en_rename_all e = Snake) /\
  (forall s, singleton = Some s <-> In (equals "singleton" (TStr s)) ms) /\
  Forall2 variant_means vs (en_variants e).

(** *** Structs *)

Inductive label_container_argument : meta -> Prop :=
| LCA_crate : forall p, label_container_argument (equals "crate" (TIdent p))
| LCA_crate' : forall p, label_container_argument (equals "crate" (TPath p))
| LCA_set : forall s, label_container_argument (equals "set" (TIdent s)).

Definition label_container_ok (l : list attribute) : Prop :=
  let ms := arguments "label" l in
  list_only "label" l /\ Forall label_container_argument ms /\
  times ["crate"]%string ms <= 1 /\ times ["set"]%string ms = 1.

Inductive metric_container_argument : meta -> Prop :=
| MCA_crate : forall p, metric_container_argument (equals "crate" (TIdent p))
| MCA_crate' : forall p, metric_container_argument (equals "crate" (TPath p))
| MCA_new : forall args, metric_container_argument {| mt_path := str "new"; mt_arg := MParen args |}.

Definition metric_container_ok (l : list attribute) : Prop :=
  let ms := arguments "metric" l in
  list_only "metric" l /\ Forall metric_container_argument ms /\
  times ["crate"]%string ms <= 1 /\ times ["new"]%string ms <= 1.

(** The name a field is shown under. *)
Definition shown_as (key : string) (f : field_input) (n : bytes) : Prop :=
  let ms := arguments key (fi_attrs f) in
  In (equals "rename" (TStr n)) ms \/ (times ["rename"]%string ms = 0 /\ n = fi_name f).

(** A field of a metric group that is a group itself. *)
Definition is_subgroup (f : field_input) : bool :=
  negb (Nat.eqb (times ["namespace"; "flatten"]%string (arguments "metric" (fi_attrs f))) 0).

(** Names that are valid and whose constants are identifiers and distinct. *)
Definition names_ok (valid : bytes -> Prop) (shouty : bytes -> bytes) (ident_ok : bytes -> bool) (names : list bytes) : Prop :=
  Forall valid names /\ Forall (fun n => ident_ok (shouty n) = true) names /\ NoDup (map shouty names).

(* ------------------------------------------------------------------ *)
(** ** Constructors *)

(** A field that [new] takes as an argument; a field with a dynamic set. *)
Definition wanted (f : lfield) : bool := negb (lb_default (lf_attrs f)).
Definition dynamic_field (f : lfield) : bool :=
  match lb_kind (lf_attrs f) with LDynamicWith _ => true | _ => false end.

(** The arguments of [new]: the dynamic fields that are wanted, then the others
    that are wanted, each in declaration order. *)
Definition new_parameters (l : list lfield) : list lfield :=
  filter (fun f => wanted f && dynamic_field f) l ++ filter (fun f => wanted f && negb (dynamic_field f)) l.

(** What a user expects as the value of a metric field after [new]. *)
Definition initialised_by (ms : list meta) (i : initialiser) : Prop :=
  match i with
  | InitExpr e => In (equals "init" e) ms
  | InitLabelSetMetadata ls md =>
    In (equals "label_set" ls) ms /\ (forall e, md = Some e <-> In (equals "metadata" e) ms)
  | InitMetadata md =>
    times ["label_set"]%string ms = 0 /\ exists e, md = Some e /\ In (equals "metadata" e) ms
  | InitDefault => times ["init"; "metadata"; "label_set"]%string ms = 0
  end.

(** The whole struct: one initialiser per field, in order. *)
Definition struct_initialised (fs : list field_input) (r : list (bytes * initialiser)) : Prop :=
  Forall2 (fun f x => fst x = fi_name f /\ initialised_by (arguments "metric" (fi_attrs f)) (snd x)) fs r.

(* ------------------------------------------------------------------ *)
(** ** The struct as a group of metrics *)

(** The help of a field, if it is documented. *)
Definition field_help (f : field_input) : list bytes :=
  match doc_texts (fi_attrs f) with [] => [] | ds => [concat ds] end.

(** A field is a metric under its own or its new name, a group in a namespace or
    a group that is taken over as it is. *)
Inductive struct_shown : list (field_input * content) -> gfields -> Prop :=
| SS_nil : struct_shown [] FieldsNil
| SS_renamed : forall f s fam rest r, In (equals "rename" (TStr s)) (arguments "metric" (fi_attrs f)) -> struct_shown rest r ->
    struct_shown ((f, CFamily fam) :: rest) (FieldMetric (fi_name f) (Some s) (field_help f) fam r)
| SS_metric : forall f fam rest r, times ["rename"; "namespace"; "flatten"]%string (arguments "metric" (fi_attrs f)) = 0 ->
    struct_shown rest r ->
    struct_shown ((f, CFamily fam) :: rest) (FieldMetric (fi_name f) None (field_help f) fam r)
| SS_namespace : forall f ns g rest r, In (equals "namespace" (TStr ns)) (arguments "metric" (fi_attrs f)) -> struct_shown rest r ->
    struct_shown ((f, CGroup g) :: rest) (FieldNamespace ns g r)
| SS_flatten : forall f g rest r, In (plain "flatten") (arguments "metric" (fi_attrs f)) -> struct_shown rest r ->
    struct_shown ((f, CGroup g) :: rest) (FieldGroup g r).

(** The label of a variant of a singleton enum. *)
Inductive variant_label (heck : rename_all -> bytes -> bytes) (attrs : list attribute) (v : variant_input) : lvalue -> Prop :=
| VL_number : forall z, vi_disc v = DInt z -> variant_label heck attrs v (LInt z)
| VL_renamed : forall s, vi_disc v = DNone -> In (equals "rename" (TStr s)) (arguments "label" (vi_attrs v)) ->
    variant_label heck attrs v (LStr s)
| VL_snake : vi_disc v = DNone -> arguments "label" (vi_attrs v) = [] -> times ["rename_all"]%string (arguments "label" attrs) = 0 ->
    variant_label heck attrs v (LStr (heck Snake (vi_ident v)))
| VL_case : forall n r, vi_disc v = DNone -> arguments "label" (vi_attrs v) = [] -> In (n, r) case_names ->
    In (equals "rename_all" (TStr (str n))) (arguments "label" attrs) ->
    variant_label heck attrs v (LStr (heck r (vi_ident v))).
