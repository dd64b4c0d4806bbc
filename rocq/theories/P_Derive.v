(** Properties C57 and C61: what the derive macros accept and what their
    attributes mean; generated constructors. *)
From Coq Require Import String List NArith ZArith Bool Permutation.
From Verif Require Import Base NameModel NameSpec LabelModel LabelSpec EncoderModel
  DeriveModel DeriveSpec DeriveProofs DeriveMetricProofs DeriveNewProofs DeriveGroupProofs DeriveStructProofs DeriveExamples.
Import ListNotations.

(** C57: attributes are read as a bag of arguments.  Those of a label group
    field are accepted exactly when each is known, well formed and given at most
    once (at most one of fixed, fixed_with, dynamic_with), and mean what they
    say. *)
Theorem C57_label_attributes : forall l,
  ((exists r, label_field_attrs l = Some r) <-> label_attrs_ok l) /\
  (forall r, label_field_attrs l = Some r -> label_attrs_mean l r).
Proof. exact label_attrs_exact. Qed.
Print Assumptions C57_label_attributes.

(** The same for a metric group field; doc comments are joined in order, and
    [init] excludes [metadata] and [label_set]. *)
Theorem C57_metric_attributes : forall l,
  ((exists r, metric_field_attrs l = Some r) <-> metric_attrs_ok l) /\
  (forall r, metric_field_attrs l = Some r -> metric_attrs_mean l r).
Proof. exact metric_attrs_exact. Qed.
Print Assumptions C57_metric_attributes.

(** Enums: which are accepted, and the variants, case conversion and singleton
    name that come out. *)
Theorem C57_enums : forall (F : Type) attrs (d : data F),
  ((exists r, derive_enum attrs d = Some r) <->
   enum_attrs_ok attrs /\ exists vs, d = DataEnum vs /\ Forall variant_ok vs) /\
  (forall e n vs, derive_enum attrs d = Some (e, n) -> d = DataEnum vs -> enum_means attrs vs e n).
Proof. exact enum_exact. Qed.
Print Assumptions C57_enums.

(** Structs: a label group is accepted exactly when it names its set once, its
    fields are in order, and the names it shows are valid and have distinct
    constants. *)
Theorem C57_label_groups : forall shouty ident_ok attrs d,
  ((exists l, derive_label_group shouty ident_ok attrs d = Some l) <->
   label_container_ok attrs /\ exists fs names, d = DataStruct fs /\
     Forall (fun f => label_attrs_ok (fi_attrs f)) fs /\
     Forall2 (shown_as "label") fs names /\ names_ok valid_label_name shouty ident_ok names) /\
  (forall l fs, derive_label_group shouty ident_ok attrs d = Some l -> d = DataStruct fs ->
     Forall2 (fun f r => lf_name r = fi_name f /\ label_attrs_mean (fi_attrs f) (lf_attrs r)) fs l /\
     Forall2 (shown_as "label") fs (map lfield_label l)).
Proof. exact label_group_exact. Qed.
Print Assumptions C57_label_groups.

Theorem C57_metric_groups : forall shouty ident_ok attrs d,
  ((exists r, derive_metric_group shouty ident_ok attrs d = Some r) <->
   metric_container_ok attrs /\ exists fs names, d = DataStruct fs /\
     Forall (fun f => metric_attrs_ok (fi_attrs f)) fs /\
     Forall2 (shown_as "metric") (filter (fun f => negb (is_subgroup f)) fs) names /\
     names_ok valid_metric_name shouty ident_ok names) /\
  (forall l new fs, derive_metric_group shouty ident_ok attrs d = Some (l, new) -> d = DataStruct fs ->
     Forall2 (fun f r => mg_name r = fi_name f /\ metric_attrs_mean (fi_attrs f) (mg_attrs r)) fs l /\
     Forall2 (shown_as "metric") (filter (fun f => negb (is_subgroup f)) fs) (mfield_names l) /\
     forall args, new = Some args <-> In {| mt_path := str "new"; mt_arg := MParen args |} (arguments "metric" attrs)).
Proof. exact metric_group_exact. Qed.
Print Assumptions C57_metric_groups.

(** What the struct is as a group of metrics: metrics under their names with their
    help, groups in their namespaces. *)
Theorem C57_struct_as_group : forall shouty ident_ok attrs fs l new,
  derive_metric_group shouty ident_ok attrs (DataStruct fs) = Some (l, new) ->
  forall cs, length cs = length fs -> forall g, struct_of (combine l cs) = Some g <-> struct_shown (combine fs cs) g.
Proof. exact struct_of_exact. Qed.
Print Assumptions C57_struct_as_group.

Example C57_label_case :
  derive_label_group ex_shouty ex_ident ex_label_attrs (DataStruct ex_label_struct) = Some ex_lfields.
Proof. vm_compute. reflexivity. Qed.
Example C57_metric_case : exists l,
  derive_metric_group ex_shouty ex_ident ex_metric_attrs (DataStruct ex_metric_struct) = Some (l, Some [str "routes: Routes"]) /\
  map (fun f => mf_docs (mg_attrs f)) l = [Some (str " requests served"); None; None; None; None] /\
  map (fun f => mf_kind (mg_attrs f)) l =
    [KMetric (Some (str "requests_total")); KMetric None; KMetric None; KGroup (Some (str "db")); KGroup None].
Proof. eexists. split; [vm_compute; reflexivity|split; vm_compute; reflexivity]. Qed.
Example C57_group_case : exists l new,
  derive_metric_group ex_shouty ex_ident ex_metric_attrs (DataStruct ex_metric_struct) = Some (l, new) /\
  struct_of (combine l ex_contents) =
    Some (FieldMetric (str "requests") (Some (str "requests_total")) [str " requests served"] ex_family
         (FieldMetric (str "latency") None [] (FamSome ex_family) (FieldMetric (str "up") None [] ex_family
         (FieldNamespace (str "db") GNone (FieldGroup (GSome GNone) FieldsNil))))).
Proof. eexists. eexists. split; vm_compute; reflexivity. Qed.
Example C57_enum_case :
  derive_enum ex_op_attrs (@DataEnum field_input ex_op_variants) =
  Some ({| en_rename_all := Kebab;
           en_variants := [ {| v_ident := str "Get"; v_value := None; v_rename := None |};
                            {| v_ident := str "PutObject"; v_value := None; v_rename := Some (str "put") |};
                            {| v_ident := str "Del"; v_value := Some 7%Z; v_rename := None |} ] |}, Some (str "op")).
Proof. vm_compute. reflexivity. Qed.

(** Rejected: an argument given twice, also across attributes; a trailing comma
    on an enum, but not on a field; two names with the same constant. *)
Example C57_rejected :
  label_field_attrs [attr "label" [plain "default"]; attr "label" [plain "default"]] = None /\
  label_field_attrs [attr "label" [plain "fixed"; equals "fixed_with" (TIdent (str "S"))]] = None /\
  derive_enum [attr_comma "label" [equals "singleton" (TStr (str "op"))]] (@DataEnum field_input ex_op_variants) = None /\
  label_field_attrs [attr_comma "label" [plain "default"]] <> None /\
  derive_label_group ex_shouty ex_ident ex_label_attrs
    (DataStruct [{| fi_name := str "a"; fi_attrs := [] |};
                 {| fi_name := str "b"; fi_attrs := [attr "label" [equals "rename" (TStr (str "A"))]] |}]) = None.
Proof. split; [|split; [|split; [|split]]]; vm_compute; congruence. Qed.

(** C61: [new] of a label set struct takes the fields without default, the
    dynamic ones first, and puts every argument into its own field; the other
    fields get their defaults. *)
Theorem C61_new_arguments : forall l, new_args l = map lf_name (new_parameters l).
Proof. exact new_arguments. Qed.
Print Assumptions C61_new_arguments.

Theorem C61_set_new : forall V (static_new : V) path_default l args, NoDup (map lf_name l) ->
  ((exists r, set_new V static_new path_default l args = Some r) <-> length args = length (new_parameters l)) /\
  (forall r, set_new V static_new path_default l args = Some r ->
     Permutation (map fst r) (map lf_name l) /\
     forall f, In f l -> exists v, In (lf_name f, v) r /\
       if wanted f then exists k, nth_error (new_parameters l) k = Some f /\ nth_error args k = Some v
       else v = match lb_kind (lf_attrs f) with LFixed => static_new | LFixedWith p | LDynamicWith p => path_default p end).
Proof. exact set_new_exact. Qed.
Print Assumptions C61_set_new.

(** A field without default has a path to show as the type of the argument. *)
Theorem C61_fixed_is_default : forall l r, label_field_attrs l = Some r -> lb_default r = false -> lb_kind r <> LFixed.
Proof. exact fixed_is_default. Qed.
Print Assumptions C61_fixed_is_default.

(** [new] of a metric group: what initialises each field, in order. *)
Theorem C61_struct_new : forall shouty ident_ok attrs fs l new,
  derive_metric_group shouty ident_ok attrs (DataStruct fs) = Some (l, new) ->
  forall r, struct_new l = r <-> struct_initialised fs r.
Proof. exact struct_init_exact. Qed.
Print Assumptions C61_struct_new.

Example C61_nonvacuous : NoDup (map lf_name ex_lfields).
Proof. vm_compute. repeat constructor; cbn; intuition discriminate. Qed.
Example C61_case : new_args ex_lfields = [str "user"; str "path"] /\
  set_new bytes (str "static") (fun p => str "default " ++ p) ex_lfields [str "U"; str "P"] =
  Some [(str "user", str "U"); (str "agent", str "default lasso::Rodeo"); (str "path", str "P"); (str "op", str "static")].
Proof. split; vm_compute; reflexivity. Qed.
Example C61_struct_case : exists l n,
  derive_metric_group ex_shouty ex_ident ex_metric_attrs (DataStruct ex_metric_struct) = Some (l, n) /\
  struct_new l =
    [ (str "requests", InitLabelSetMetadata (TExpr (str "RequestSet::new(routes)")) None);
      (str "latency", InitMetadata (Some (TExpr (str "Thresholds::new()"))));
      (str "up", InitDefault);
      (str "db", InitExpr (TExpr (str "Db::new()")));
      (str "process", InitDefault) ].
Proof. eexists. eexists. split; vm_compute; reflexivity. Qed.
