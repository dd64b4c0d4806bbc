(** The derive macros: derive/src/{value,label_group,metric_group}/*.rs - what
    they make of attributes, which programs they reject, and the generated
    constructors.  The generated encode/decode/visit/collect functions are in
    LabelModel.v and EncoderModel.v. *)
From Coq Require Import String List NArith ZArith Bool.
From Verif Require Import Base NameModel LabelModel EncoderModel.
Import ListNotations.
Local Open Scope N_scope.

(* ------------------------------------------------------------------ *)
(** ** Macro input

    Syntax as syn hands it over.  [None] as the result of a function of this
    file is a [syn::Error], i.e. a compile error in the user's program. *)

(** The right-hand side of [name = ...]: a string literal, an identifier, a
    longer path, or any other expression (given by its text).
    (syn, as used by derive/src/value/attr.rs, label_group/attr.rs and metric_group/attr.rs) *)
Inductive tok :=
| TStr (s : bytes)
| TIdent (s : bytes)
| TPath (s : bytes)
| TExpr (s : bytes).

(** [parse::<LitStr>()], [parse::<Ident>()], [parse::<Path>()]; [parse::<Expr>()]
    accepts everything.  Anything else leaves an error or unread tokens, which
    is an error too.
    (syn, as used by derive/src/value/attr.rs, label_group/attr.rs and metric_group/attr.rs) *)
Definition as_str (t : tok) : option bytes := match t with TStr s => Some s | _ => None end.
(* syn, as used by derive/src/value/attr.rs, label_group/attr.rs and metric_group/attr.rs *)
Definition as_ident (t : tok) : option bytes := match t with TIdent s => Some s | _ => None end.
(* syn, as used by derive/src/value/attr.rs, label_group/attr.rs and metric_group/attr.rs *)
Definition as_path (t : tok) : option bytes :=
  match t with TIdent s | TPath s => Some s | _ => None end.

(** One element of [#[label(...)]]: [path], [path = value] or [path(...)], where
    the parenthesised part is only used for the arguments of [new].
    (syn, as used by derive/src/value/attr.rs, label_group/attr.rs and metric_group/attr.rs) *)
Inductive marg := MNone | MEq (v : tok) | MParen (args : list bytes).
(* syn, as used by derive/src/value/attr.rs, label_group/attr.rs and metric_group/attr.rs *)
Record meta := { mt_path : bytes; mt_arg : marg }.

(** [meta.value()?.parse()?] *)
(* syn, as used by derive/src/value/attr.rs, label_group/attr.rs and metric_group/attr.rs *)
Definition value_of {A} (as_ : tok -> option A) (m : meta) : option A :=
  match mt_arg m with MEq v => as_ v | _ => None end.
(** A flag: anything following it is not consumed and makes
    [parse_nested_meta] fail.
    (syn, as used by derive/src/value/attr.rs, label_group/attr.rs and metric_group/attr.rs) *)
Definition flag (m : meta) : option unit :=
  match mt_arg m with MNone => Some tt | _ => None end.

(** [#[path]], [#[path(...)]] (with or without a comma after the last element),
    [#[path = value]].
    (syn, as used by derive/src/value/attr.rs, label_group/attr.rs and metric_group/attr.rs) *)
Inductive abody := APath | AList (items : list meta) (trailing_comma : bool) | AValue (v : tok).
(* syn, as used by derive/src/value/attr.rs, label_group/attr.rs and metric_group/attr.rs *)
Record attribute := { at_path : bytes; at_body : abody }.

(* syn, as used by derive/src/value/attr.rs, label_group/attr.rs and metric_group/attr.rs *)
Definition is (n : string) (p : bytes) : bool := beqb p (str n).

(** [slot.replace(value).is_some()] is an error. *)
(* syn, as used by derive/src/value/attr.rs, label_group/attr.rs and metric_group/attr.rs *)
Definition put_once {A} (slot : option A) (v : option A) : option (option A) :=
  match v with
  | None => None
  | Some x => match slot with None => Some (Some x) | Some _ => None end
  end.

(** [parse_nested_meta(|meta| ...)]: the closure on each element in turn; a
    trailing comma is accepted.
    (syn, as used by derive/src/value/attr.rs, label_group/attr.rs and metric_group/attr.rs) *)
Fixpoint nested {A} (step : meta -> A -> option A) (l : list meta) (a : A) : option A :=
  match l with
  | [] => Some a
  | m :: rest => match step m a with None => None | Some a' => nested step rest a' end
  end.

(** The loops [for attr in attrs { if attr.path().is_ident(KEY) {
    attr.meta.require_list()?.parse_nested_meta(...)? } }]
    (value/attr.rs:82-95, label_group/attr.rs:18-38, 79-120,
    metric_group/attr.rs:20-46); other attributes are ignored. *)
Fixpoint list_attrs {A} (key : string) (step : meta -> A -> option A) (l : list attribute) (a : A) : option A :=
  match l with
  | [] => Some a
  | x :: rest =>
    if is key (at_path x) then
      match at_body x with
      | AList items _ =>
        match nested step items a with None => None | Some a' => list_attrs key step rest a' end
      | _ => None
      end
    else list_attrs key step rest a
  end.

(* ------------------------------------------------------------------ *)
(** ** derive(FixedCardinalityLabel) *)

(** value/attr.rs:131-146 *)
Definition parse_rename_all (s : bytes) : option rename_all :=
  if is "UpperCamelCase" s then Some UpperCamel
  else if is "lowerCamelCase" s then Some LowerCamel
  else if is "snake_case" s then Some Snake
  else if is "kebab-case" s then Some Kebab
  else if is "SHOUTY_SNAKE_CASE" s then Some ShoutySnake
  else if is "SHOUTY-KEBAB-CASE" s then Some ShoutyKebab
  else if is "Title Case" s then Some Title
  else if is "Train-Case" s then Some Train
  else None.

(** value/attr.rs:10-16 *)
Record enum_args := {
  ea_crate : option bytes;
  ea_rename_all : option rename_all;
  ea_singleton : option bytes }.

(** value/attr.rs:32-72, one round of the loop *)
Definition enum_step (m : meta) (a : enum_args) : option enum_args :=
  if is "crate" (mt_path m) then
    option_map (fun c => {| ea_crate := c; ea_rename_all := ea_rename_all a; ea_singleton := ea_singleton a |})
      (put_once (ea_crate a) (value_of as_path m))
  else if is "rename_all" (mt_path m) then
    option_map (fun r => {| ea_crate := ea_crate a; ea_rename_all := r; ea_singleton := ea_singleton a |})
      (put_once (ea_rename_all a)
         (match value_of as_str m with None => None | Some s => parse_rename_all s end))
  else if is "singleton" (mt_path m) then
    option_map (fun s => {| ea_crate := ea_crate a; ea_rename_all := ea_rename_all a; ea_singleton := s |})
      (put_once (ea_singleton a) (value_of as_str m))
  else None.

(** value/attr.rs:19-72 [ContainerAttrs::parse_attrs].  This parser is written by
    hand: after a comma it wants another argument, so that a trailing comma is
    an error. *)
Fixpoint enum_attrs (l : list attribute) (a : enum_args) : option enum_args :=
  match l with
  | [] => Some a
  | x :: rest =>
    if is "label" (at_path x) then
      match at_body x with
      | AList items trailing =>
        match nested enum_step items a with
        | None => None
        | Some a' => if trailing then None else enum_attrs rest a'
        end
      | _ => None
      end
    else enum_attrs rest a
  end.

(** value/attr.rs:74-97 [VariantAttrs::parse_attrs] *)
Definition variant_step (m : meta) (r : option bytes) : option (option bytes) :=
  if is "rename" (mt_path m) then put_once r (value_of as_str m) else None.
Definition variant_attrs (l : list attribute) : option (option bytes) :=
  list_attrs "label" variant_step l None.

(** A variant as syn gives it: identifier, attributes, whether it carries
    values, and its discriminant.  [DInt] is an integer literal; a negative
    number is an operator applied to one, hence [DOther]. *)
Inductive discriminant := DNone | DInt (z : Z) | DOther.
Record variant_input := {
  vi_ident : bytes;
  vi_attrs : list attribute;
  vi_unit : bool;
  vi_disc : discriminant }.

(** value/parse.rs:10-38 [TryFrom<Variant>] *)
Definition variant_of (v : variant_input) : option variant :=
  match variant_attrs (vi_attrs v) with
  | None => None
  | Some rename =>
    if negb (vi_unit v) then None
    else match vi_disc v with
         | DNone => Some {| v_ident := vi_ident v; v_value := None; v_rename := rename |}
         | DInt z => Some {| v_ident := vi_ident v; v_value := Some z; v_rename := rename |}
         | DOther => None
         end
  end.

(** [collect::<Result<Vec<_>, _>>()] *)
(* derive/src/value/parse.rs, label_group/parse.rs and metric_group/parse.rs *)
Fixpoint collect_all {A B} (f : A -> option B) (l : list A) : option (list B) :=
  match l with
  | [] => Some []
  | x :: rest =>
    match f x with
    | None => None
    | Some y => option_map (cons y) (collect_all f rest)
    end
  end.

(** The derived item: enum, struct with named fields, or something else. *)
(* derive/src/value/parse.rs, label_group/parse.rs and metric_group/parse.rs *)
Inductive data (F : Type) :=
| DataEnum (vs : list variant_input)
| DataStruct (fs : list F)
| DataOther.
Arguments DataEnum {F}.
Arguments DataStruct {F}.
Arguments DataOther {F}.

(** value/parse.rs:40-74 [TryFrom<DeriveInput>], together with what rustc checks
    of the generated code: for a singleton, the name ([const NAME],
    to_tokens.rs:36-45, is evaluated at compile time).  Result: the enum and the
    singleton name. *)
Definition derive_enum {F} (attrs : list attribute) (d : data F) : option (enum_spec * option bytes) :=
  match enum_attrs attrs {| ea_crate := None; ea_rename_all := None; ea_singleton := None |} with
  | None => None
  | Some a =>
    match d with
    | DataEnum vs =>
      match collect_all variant_of vs with
      | None => None
      | Some variants =>
        let e := {| en_rename_all := match ea_rename_all a with Some r => r | None => default_rename_all end;
                    en_variants := variants |} in
        match ea_singleton a with
        | None => Some (e, None)
        | Some n =>
          match label_name_from_str n with
          | Done n' => Some (e, Some n')
          | Panic => None
          end
        end
      end
    | _ => None
    end
  end.

(** to_tokens.rs:36-45 [LabelGroup::visit_values] of a singleton enum *)
Definition singleton_visit (heck : rename_all -> bytes -> bytes) (e : enum_spec) (name : bytes) (v : bytes)
  : list (bytes * lvalue) :=
  [(name, value_visit heck (SStatic e) v)].

(* ------------------------------------------------------------------ *)
(** ** derive(LabelGroup) *)

(** label_group/attr.rs:50-55 *)
Inductive lkind := LFixed | LFixedWith (path : bytes) | LDynamicWith (path : bytes).

(** label_group/attr.rs:75-77, the three local variables *)
Record label_args := {
  la_kind : option lkind;
  la_default : option unit;
  la_rename : option bytes }.

(** label_group/attr.rs:81-118, the closure *)
Definition label_step (m : meta) (a : label_args) : option label_args :=
  let kind k := option_map (fun k' => {| la_kind := k'; la_default := la_default a; la_rename := la_rename a |})
                  (put_once (la_kind a) k) in
  if is "fixed" (mt_path m) then kind (option_map (fun _ => LFixed) (flag m))
  else if is "fixed_with" (mt_path m) then kind (option_map LFixedWith (value_of as_path m))
  else if is "dynamic_with" (mt_path m) then kind (option_map LDynamicWith (value_of as_path m))
  else if is "default" (mt_path m) then
    option_map (fun d => {| la_kind := la_kind a; la_default := d; la_rename := la_rename a |})
      (put_once (la_default a) (flag m))
  else if is "rename" (mt_path m) then
    option_map (fun r => {| la_kind := la_kind a; la_default := la_default a; la_rename := r |})
      (put_once (la_rename a) (value_of as_str m))
  else None.

(** label_group/attr.rs:43-48 *)
Record label_attrs := {
  lb_kind : lkind;
  lb_default : bool;
  lb_rename : option bytes }.

(** label_group/attr.rs:73-136 [LabelGroupFieldAttrs::parse_attrs] *)
Definition label_field_attrs (l : list attribute) : option label_attrs :=
  match list_attrs "label" label_step l {| la_kind := None; la_default := None; la_rename := None |} with
  | None => None
  | Some a =>
    let kind := match la_kind a with Some k => k | None => LFixed end in
    let default := match la_default a with Some _ => true | None => false end in
    Some {| lb_kind := kind;
            lb_default := default || match kind with LFixed => true | _ => false end;
            lb_rename := la_rename a |}
  end.

(** label_group/attr.rs:9-40 [ContainerAttrs] *)
Record label_container := { lc_crate : option bytes; lc_set : option bytes }.
Definition label_container_step (m : meta) (a : label_container) : option label_container :=
  if is "crate" (mt_path m) then
    option_map (fun c => {| lc_crate := c; lc_set := lc_set a |}) (put_once (lc_crate a) (value_of as_path m))
  else if is "set" (mt_path m) then
    option_map (fun s => {| lc_crate := lc_crate a; lc_set := s |}) (put_once (lc_set a) (value_of as_ident m))
  else None.

(** A struct field: name and attributes (its type is not needed). *)
Record field_input := { fi_name : bytes; fi_attrs : list attribute }.

(** label_group/mod.rs:17-26 [LabelGroupField] *)
Record lfield := { lf_name : bytes; lf_attrs : label_attrs }.

(** label_group/parse.rs:8-20 *)
Definition lfield_of (f : field_input) : option lfield :=
  option_map (fun a => {| lf_name := fi_name f; lf_attrs := a |}) (label_field_attrs (fi_attrs f)).

(** The name a field is shown under: to_tokens.rs:22 *)
Definition lfield_label (f : lfield) : bytes :=
  match lb_rename (lf_attrs f) with Some r => r | None => lf_name f end.

(** [const A: ..; const B: ..;] in one block: rustc rejects a name used twice. *)
Fixpoint distinct (l : list bytes) : bool :=
  match l with
  | [] => true
  | x :: rest => negb (existsb (beqb x) rest) && distinct rest
  end.

Section Rustc.
  (** heck's [to_shouty_snake_case]; whether [format_ident!] takes a string as an
      identifier (it panics otherwise). *)
  Variable shouty : bytes -> bytes.
  Variable ident_ok : bytes -> bool.

  (** The declarations [const #ident: &LabelName = LabelName::from_str(#name)]
      (label_group/to_tokens.rs:20-28): the identifiers have to be identifiers
      and distinct, and the names pass the check at compile time. *)
  Definition label_consts (names : list bytes) : bool :=
    forallb ident_ok (map shouty names) && distinct (map shouty names) &&
    forallb (fun n => match label_name_from_str n with Done _ => true | Panic => false end) names.

  (** label_group/parse.rs:22-66 [TryFrom<DeriveInput>] and the checks of rustc:
      the fields of the struct. *)
  Definition derive_label_group (attrs : list attribute) (d : data field_input) : option (list lfield) :=
    match list_attrs "label" label_container_step attrs {| lc_crate := None; lc_set := None |} with
    | None => None
    | Some a =>
      match lc_set a with
      | None => None
      | Some _ =>
        match d with
        | DataStruct fs =>
          match collect_all lfield_of fs with
          | None => None
          | Some l => if label_consts (map lfield_label l) then Some l else None
          end
        | _ => None
        end
      end
    end.

  (** The same for metric names (metric_group/to_tokens.rs:55-66). *)
  Definition metric_consts (names : list bytes) : bool :=
    forallb ident_ok (map shouty names) && distinct (map shouty names) &&
    forallb (fun n => match metric_name_from_str n with Done _ => true | Panic => false end) names.
End Rustc.

(** label_group/attr.rs:57-71, to_tokens.rs:58-59: stable sort by the key
    Dynamic < Fixed. *)
Definition lkey (f : lfield) : N :=
  match lb_kind (lf_attrs f) with LDynamicWith _ => 0 | _ => 1 end.
Fixpoint linsert (f : lfield) (l : list lfield) : list lfield :=
  match l with
  | [] => [f]
  | g :: t => if lkey f <=? lkey g then f :: l else g :: linsert f t
  end.
Fixpoint lsort (l : list lfield) : list lfield :=
  match l with
  | [] => []
  | f :: t => linsert f (lsort t)
  end.

(** The generated [new] (to_tokens.rs:107-158): one argument, called like the
    field, per field without default, in sorted order; a field initialiser per
    field.  When every field has a default there are no arguments and the same
    body also is [Default::default]. *)
Definition new_args (l : list lfield) : list bytes :=
  map lf_name (filter (fun f => negb (lb_default (lf_attrs f))) (lsort l)).

Section New.
  (** Values of label sets; what [StaticLabelSet::new()] and
      [<Path as Default>::default()] give. *)
  Variable V : Type.
  Variable static_new : V.
  Variable path_default : bytes -> V.

  (** Positional arguments; [None]: wrong number, a type error. *)
  (* derive/src/label_group/to_tokens.rs:126-158 *)
  Fixpoint bind_args (names : list bytes) (args : list V) : option (list (bytes * V)) :=
    match names, args with
    | [], [] => Some []
    | n :: names', v :: args' => option_map (cons (n, v)) (bind_args names' args')
    | _, _ => None
    end.

  (** to_tokens.rs:107-122: the initialiser of one field *)
  Definition init_field (env : list (bytes * V)) (f : lfield) : option V :=
    if lb_default (lf_attrs f) then
      Some match lb_kind (lf_attrs f) with
           | LFixed => static_new
           | LFixedWith p | LDynamicWith p => path_default p
           end
    else assoc (lf_name f) env.

  (** [SetStruct::new(args)]: the fields of the new set, in sorted order. *)
  Definition set_new (l : list lfield) (args : list V) : option (list (bytes * V)) :=
    match bind_args (new_args l) args with
    | None => None
    | Some env => collect_all (fun f => option_map (pair (lf_name f)) (init_field env f)) (lsort l)
    end.
End New.

(* ------------------------------------------------------------------ *)
(** ** derive(MetricGroup) *)

(** metric_group/attr.rs:57-70 *)
Inductive mkind := KMetric (rename : option bytes) | KGroup (namespace : option bytes).
Inductive minit := IRaw (e : tok) | IMetric (metadata label_set : option tok).

(** metric_group/attr.rs:74-76 *)
Record metric_args := {
  ma_kind : option mkind;
  ma_docs : option bytes;
  ma_init : option minit }.

(** metric_group/attr.rs:80-161, the closure.  [parse::<Expr>()] takes
    anything. *)
Definition metric_step (m : meta) (a : metric_args) : option metric_args :=
  let kind k := option_map (fun k' => {| ma_kind := k'; ma_docs := ma_docs a; ma_init := ma_init a |})
                  (put_once (ma_kind a) k) in
  let init i := Some {| ma_kind := ma_kind a; ma_docs := ma_docs a; ma_init := Some i |} in
  if is "rename" (mt_path m) then kind (option_map (fun s => KMetric (Some s)) (value_of as_str m))
  else if is "namespace" (mt_path m) then kind (option_map (fun s => KGroup (Some s)) (value_of as_str m))
  else if is "flatten" (mt_path m) then kind (option_map (fun _ => KGroup None) (flag m))
  else if is "init" (mt_path m) then
    match value_of Some m with
    | None => None
    | Some e => match ma_init a with None => init (IRaw e) | Some _ => None end
    end
  else if is "metadata" (mt_path m) then
    match match ma_init a with None => IMetric None None | Some i => i end with
    | IMetric None ls =>
      match value_of Some m with None => None | Some e => init (IMetric (Some e) ls) end
    | IMetric (Some _) _ => None
    | IRaw _ => None
    end
  else if is "label_set" (mt_path m) then
    match match ma_init a with None => IMetric None None | Some i => i end with
    | IMetric md None =>
      match value_of Some m with None => None | Some e => init (IMetric md (Some e)) end
    | IMetric _ (Some _) => None
    | IRaw _ => None
    end
  else None.

(** metric_group/attr.rs:73-180 [MetricGroupFieldAttrs::parse_attrs], the loop.
    A doc attribute is [#[doc = "..."]] (which is what a doc comment becomes);
    every other form is an error. *)
Fixpoint metric_attr_loop (l : list attribute) (a : metric_args) : option metric_args :=
  match l with
  | [] => Some a
  | x :: rest =>
    if is "metric" (at_path x) then
      match at_body x with
      | AList items _ =>
        match nested metric_step items a with None => None | Some a' => metric_attr_loop rest a' end
      | _ => None
      end
    else if is "doc" (at_path x) then
      match at_body x with
      | AValue (TStr s) =>
        let docs := match ma_docs a with Some d => d ++ s | None => s end in
        metric_attr_loop rest {| ma_kind := ma_kind a; ma_docs := Some docs; ma_init := ma_init a |}
      | _ => None
      end
    else metric_attr_loop rest a
  end.

(* derive/src/metric_group/attr.rs:73-180 *)
Record metric_attrs := {
  mf_kind : mkind;
  mf_docs : option bytes;
  mf_init : option minit }.

(* derive/src/metric_group/attr.rs:73-180 *)
Definition metric_field_attrs (l : list attribute) : option metric_attrs :=
  match metric_attr_loop l {| ma_kind := None; ma_docs := None; ma_init := None |} with
  | None => None
  | Some a => Some {| mf_kind := match ma_kind a with Some k => k | None => KMetric None end;
                      mf_docs := ma_docs a;
                      mf_init := ma_init a |}
  end.

(** metric_group/mod.rs:18-24 [MetricGroupField] *)
Record mfield := { mg_name : bytes; mg_attrs : metric_attrs }.
Definition mfield_of (f : field_input) : option mfield :=
  option_map (fun a => {| mg_name := fi_name f; mg_attrs := a |}) (metric_field_attrs (fi_attrs f)).

(** metric_group/attr.rs:9-47 [ContainerAttrs] *)
Record metric_container := { mc_crate : option bytes; mc_new : option (list bytes) }.
Definition metric_container_step (m : meta) (a : metric_container) : option metric_container :=
  if is "crate" (mt_path m) then
    option_map (fun c => {| mc_crate := c; mc_new := mc_new a |}) (put_once (mc_crate a) (value_of as_path m))
  else if is "new" (mt_path m) then
    option_map (fun n => {| mc_crate := mc_crate a; mc_new := n |})
      (put_once (mc_new a) (match mt_arg m with MParen args => Some args | _ => None end))
  else None.

(** to_tokens.rs:55: the names of the metric fields *)
Fixpoint mfield_names (l : list mfield) : list bytes :=
  match l with
  | [] => []
  | f :: rest =>
    match mf_kind (mg_attrs f) with
    | KMetric rename => metric_field_name (mg_name f) rename :: mfield_names rest
    | KGroup _ => mfield_names rest
    end
  end.

(** metric_group/parse.rs:22-60 [TryFrom<DeriveInput>] and the checks of rustc.
    Result: the fields, and the arguments of [new] if it is wanted. *)
Definition derive_metric_group (shouty : bytes -> bytes) (ident_ok : bytes -> bool)
    (attrs : list attribute) (d : data field_input) : option (list mfield * option (list bytes)) :=
  match list_attrs "metric" metric_container_step attrs {| mc_crate := None; mc_new := None |} with
  | None => None
  | Some a =>
    match d with
    | DataStruct fs =>
      match collect_all mfield_of fs with
      | None => None
      | Some l => if metric_consts shouty ident_ok (mfield_names l) then Some (l, mc_new a) else None
      end
    | _ => None
    end
  end.

(** The value of the struct as a [MetricGroup] (to_tokens.rs:51-93): each field
    with its contents, a family or a group; [None] for a content of the wrong
    type, which rustc rejects.  [field_docs] of EncoderModel.v concatenates the
    doc strings, which has happened here already. *)
Inductive content := CFamily (f : family) | CGroup (g : group).
Fixpoint struct_of (l : list (mfield * content)) : option gfields :=
  match l with
  | [] => Some FieldsNil
  | (f, c) :: rest =>
    match struct_of rest with
    | None => None
    | Some r =>
      match mf_kind (mg_attrs f), c with
      | KMetric rename, CFamily fam =>
        Some (FieldMetric (mg_name f) rename
                (match mf_docs (mg_attrs f) with Some d => [d] | None => [] end) fam r)
      | KGroup None, CGroup g => Some (FieldGroup g r)
      | KGroup (Some ns), CGroup g => Some (FieldNamespace ns g r)
      | _, _ => None
      end
    end
  end.

(** The generated [new] (to_tokens.rs:96-124): what initialises a field. *)
Inductive initialiser :=
| InitExpr (e : tok)
| InitLabelSetMetadata (ls : tok) (md : option tok)
| InitMetadata (md : option tok)
| InitDefault.
Definition field_init (f : mfield) : initialiser :=
  match mf_init (mg_attrs f) with
  | Some (IRaw e) => InitExpr e
  | Some (IMetric md (Some ls)) => InitLabelSetMetadata ls md
  | Some (IMetric md None) => InitMetadata md
  | None => InitDefault
  end.
(* derive/src/metric_group/to_tokens.rs:117-123 *)
Definition struct_new (l : list mfield) : list (bytes * initialiser) :=
  map (fun f => (mg_name f, field_init f)) l.
