(** Running the events of a collection on an arbitrary encoder. *)
From Coq Require Import String List NArith Bool.
From Verif Require Import Base Writer NameModel EncoderModel TextModel TextSpec ProtoModel.
Import ListNotations.

(** The name under namespaces given from the outside in. *)
Definition name_of (nss : list bytes) (base : bytes) : mname :=
  fold_right NNamespace (NBase base) nss.

Definition do_event {S} (e : encoder S) (ev : event) : io S :=
  match ev with
  | EvHelp nss base h => e_help e (name_of nss base) h
  | EvType nss base k => e_type e k (name_of nss base)
  | EvSample nss base ls m => e_collect e m ls (name_of nss base)
  | EvPanic => fun s => (s, RPanic)
  end.

(** In order, stopping at the first error. *)
Fixpoint do_events {S} (e : encoder S) (evs : list event) (s : S) : S * result :=
  match evs with
  | [] => (s, ROk)
  | ev :: rest =>
    match do_event e ev s with
    | (s', ROk) => do_events e rest s'
    | (s', r) => (s', r)
    end
  end.

(** ** Writers *)

(** A writer that never fails. *)
Definition reliable (w : writer) : Prop := forall k, w_plan w k = None.

(** A writer that, once it has failed, accepts nothing any more. *)
Definition sticky (w : writer) : Prop :=
  forall i k, w_plan w i = Some k -> forall j, (i < j)%nat -> w_plan w j = Some O.

(** Some call so far has failed. *)
Definition failed (w : writer) : Prop :=
  exists i k, (i < w_calls w)%nat /\ w_plan w i = Some k.

(** A writer that has not been used. *)
Definition unused (w : writer) : Prop := w_out w = [] /\ w_calls w = O.

(** ** Repeated scrapes *)

(** Collect each group into one [BufferedTextEncoder], calling [finish] after
    each; the result and the bytes of each collection. *)
Fixpoint scrapes (ryu : N -> bytes) (bd : build) (s : text_enc) (gs : list group)
  : list (result * outcome bytes) :=
  match gs with
  | [] => []
  | g :: rest =>
    let (s1, r) := collect_group (buffered_encoder ryu bd) g s in
    let (s2, out) := buffered_finish s1 in
    (r, out) :: scrapes ryu bd s2 rest
  end.

(** Collect each group into one protobuf encoder, calling [flush] after each,
    as long as everything succeeds; the writer's own [flush] succeeds. *)
Fixpoint proto_scrapes (ryu : N -> bytes) (bd : build) (gs : list group) (s : proto_enc)
  : proto_enc * result :=
  match gs with
  | [] => (s, ROk)
  | g :: rest =>
    (collect_group (proto_encoder ryu bd) g ;;? proto_flush bd ROk ;;? proto_scrapes ryu bd rest) s
  end.
