(** What the documentation promises about names: regular expressions over
    bytes and plain concatenation. *)
From Coq Require Import List NArith String Ascii.
From Verif Require Import Base NameModel.
Import ListNotations.
Local Open Scope N_scope.

(** Regular expressions over byte classes given as inclusive ranges. *)
Inductive regex :=
| RClass (ranges : list (ascii * ascii))
| RSeq (a b : regex)
| RStar (a : regex).

Inductive matches : regex -> bytes -> Prop :=
| MClass : forall rs lo hi b,
    In (lo, hi) rs -> N_of_ascii lo <= b <= N_of_ascii hi -> matches (RClass rs) [b]
| MSeq : forall r1 r2 x y, matches r1 x -> matches r2 y -> matches (RSeq r1 r2) (x ++ y)
| MStar0 : forall r, matches (RStar r) []
| MStarS : forall r x y, matches r x -> matches (RStar r) y -> matches (RStar r) (x ++ y).

(** [a-zA-Z_:][a-zA-Z0-9_:]*  (core/src/metric/name.rs:59) *)
Definition metric_name_regex : regex :=
  RSeq (RClass [("a","z"); ("A","Z"); ("_","_"); (":",":")]%char)
       (RStar (RClass [("a","z"); ("A","Z"); ("0","9"); ("_","_"); (":",":")]%char)).

(** [a-zA-Z_][a-zA-Z0-9_]*  (core/src/label/name.rs:3) *)
Definition label_name_regex : regex :=
  RSeq (RClass [("a","z"); ("A","Z"); ("_","_")]%char)
       (RStar (RClass [("a","z"); ("A","Z"); ("0","9"); ("_","_")]%char)).

Definition valid_metric_name (b : bytes) : Prop := matches metric_name_regex b.
Definition valid_label_name (b : bytes) : Prop := matches label_name_regex b.

(** The full name a user expects: namespaces joined by underscores, outermost
    first, then the base name, then an underscore and the suffix word. *)
Fixpoint join_underscore (parts : list bytes) : bytes :=
  match parts with
  | [] => []
  | [p] => p
  | p :: rest => p ++ str "_" ++ join_underscore rest
  end.

Definition full_name (namespaces : list bytes) (base : bytes) (suffix_words : list bytes) : bytes :=
  join_underscore (namespaces ++ [base] ++ suffix_words).

(** [a-zA-Z0-9_:-], the characters the fallible constructor lets through. *)
Definition lenient_class : regex :=
  RClass [("a","z"); ("A","Z"); ("0","9"); ("_","_"); (":",":"); ("-","-")]%char.

(** [try_from_str] accepts exactly the names that become valid once '-' is read
    as '_'. *)
Definition dash_to_underscore (n : bytes) : bytes := map (fun b => if b =? 45 then 95 else b) n.


(** Reading a name tree: namespaces from the outside in, base name, suffixes
    from the inside out. *)
Fixpoint namespaces_of (n : mname) : list bytes :=
  match n with
  | NBase _ => []
  | NNamespace ns i => ns :: namespaces_of i
  | NSuffix i _ => namespaces_of i
  end.
Fixpoint base_of (n : mname) : bytes :=
  match n with NBase b => b | NNamespace _ i => base_of i | NSuffix i _ => base_of i end.
Definition suffix_word (s : suffix) : bytes :=
  match s with
  | Total => str "total" | Count => str "count" | Sum => str "sum" | Bucket => str "bucket"
  end.
Fixpoint suffixes_of (n : mname) : list bytes :=
  match n with
  | NBase _ => []
  | NNamespace _ i => suffixes_of i
  | NSuffix i s => suffixes_of i ++ [suffix_word s]
  end.

(** Names a program can build with the infallible functions: [from_str],
    [in_namespace] or [WithNamespace::new], [with_suffix]. *)
Inductive built : mname -> Prop :=
| B_base : forall s b, metric_name_from_str s = Done b -> built (NBase b)
| B_ns : forall n ns m, built n -> in_namespace ns n = Done m -> built m
| B_suffix : forall n s, built n -> built (NSuffix n s).
