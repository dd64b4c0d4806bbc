(** Inputs to the derive macros used in examples. *)
From Coq Require Import String List NArith ZArith Bool.
From Verif Require Import Base NameModel LabelModel EncoderModel DeriveModel DeriveSpec.
Import ListNotations.

Definition attr (key : string) (ms : list meta) : attribute := {| at_path := str key; at_body := AList ms false |}.
Definition attr_comma (key : string) (ms : list meta) : attribute := {| at_path := str key; at_body := AList ms true |}.
Definition doc (s : string) : attribute := {| at_path := str "doc"; at_body := AValue (TStr (str s)) |}.

(** ASCII upper case; good enough for the names below. *)
Definition ex_shouty (n : bytes) : bytes := map (fun b => if N.leb 97 b && N.leb b 122 then N.sub b 32 else b) n.
Definition ex_ident (n : bytes) : bool := match n with [] => false | _ => true end.

(** #[derive(LabelGroup)] #[label(set = RequestSet)] struct Request {
      #[label(fixed_with = Routes, rename = "route")] path: &str,
      op: Op,
      #[label(dynamic_with = ThreadedRodeo)] user: &str,
      #[label(dynamic_with = lasso::Rodeo, default,)] agent: &str } *)
Definition ex_label_struct : list field_input :=
  [ {| fi_name := str "path";
       fi_attrs := [attr "label" [equals "fixed_with" (TIdent (str "Routes"))];
                    doc "the route"; attr "label" [equals "rename" (TStr (str "route"))]] |};
    {| fi_name := str "op"; fi_attrs := [] |};
    {| fi_name := str "user"; fi_attrs := [attr "label" [equals "dynamic_with" (TIdent (str "ThreadedRodeo"))]] |};
    {| fi_name := str "agent"; fi_attrs := [attr_comma "label" [equals "dynamic_with" (TPath (str "lasso::Rodeo")); plain "default"]] |} ].
Definition ex_label_attrs : list attribute := [attr "label" [equals "set" (TIdent (str "RequestSet"))]].

Definition ex_lfields : list lfield :=
  [ {| lf_name := str "path";
       lf_attrs := {| lb_kind := LFixedWith (str "Routes"); lb_default := false; lb_rename := Some (str "route") |} |};
    {| lf_name := str "op"; lf_attrs := {| lb_kind := LFixed; lb_default := true; lb_rename := None |} |};
    {| lf_name := str "user";
       lf_attrs := {| lb_kind := LDynamicWith (str "ThreadedRodeo"); lb_default := false; lb_rename := None |} |};
    {| lf_name := str "agent";
       lf_attrs := {| lb_kind := LDynamicWith (str "lasso::Rodeo"); lb_default := true; lb_rename := None |} |} ].

(** #[derive(MetricGroup)] #[metric(new(routes: Routes))] struct Metrics {
      /// requests
      /// served
      #[metric(rename = "requests_total", label_set = RequestSet::new(routes))] requests: CounterVec<RequestSet>,
      #[metric(metadata = Thresholds::new())] latency: Histogram<3>,
      up: Gauge,
      #[metric(namespace = "db", init = Db::new())] db: Db,
      #[metric(flatten)] process: Process } *)
Definition ex_metric_struct : list field_input :=
  [ {| fi_name := str "requests";
       fi_attrs := [doc " requests"; doc " served";
                    attr "metric" [equals "rename" (TStr (str "requests_total"));
                                   equals "label_set" (TExpr (str "RequestSet::new(routes)"))]] |};
    {| fi_name := str "latency"; fi_attrs := [attr "metric" [equals "metadata" (TExpr (str "Thresholds::new()"))]] |};
    {| fi_name := str "up"; fi_attrs := [] |};
    {| fi_name := str "db"; fi_attrs := [attr "metric" [equals "namespace" (TStr (str "db")); equals "init" (TExpr (str "Db::new()"))]] |};
    {| fi_name := str "process"; fi_attrs := [attr "metric" [plain "flatten"]] |} ].
Definition ex_metric_attrs : list attribute :=
  [attr "metric" [{| mt_path := str "new"; mt_arg := MParen [str "routes: Routes"] |}]].

(** #[derive(FixedCardinalityLabel)] #[label(rename_all = "kebab-case", singleton = "op")]
    enum Op { Get, #[label(rename = "put")] PutObject, Del = 7 } *)
Definition ex_op_attrs : list attribute :=
  [attr "label" [equals "rename_all" (TStr (str "kebab-case")); equals "singleton" (TStr (str "op"))]].
Definition ex_op_variants : list variant_input :=
  [ {| vi_ident := str "Get"; vi_attrs := []; vi_unit := true; vi_disc := DNone |};
    {| vi_ident := str "PutObject"; vi_attrs := [attr "label" [equals "rename" (TStr (str "put"))]]; vi_unit := true; vi_disc := DNone |};
    {| vi_ident := str "Del"; vi_attrs := []; vi_unit := true; vi_disc := DInt 7 |} ].

(** Contents for the fields of [ex_metric_struct]. *)
Definition ex_family : family := FamNone.
Definition ex_contents : list content := [CFamily ex_family; CFamily (FamSome ex_family); CFamily ex_family; CGroup GNone; CGroup (GSome GNone)].
