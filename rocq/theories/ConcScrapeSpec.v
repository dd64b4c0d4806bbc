(** Lines of a family in the text of a scrape. *)
From Coq Require Import String List NArith ZArith Bool.
From Verif Require Import Base Writer NameModel NameSpec LabelModel FloatModel EncoderModel TextModel TextSpec EncoderSpec.
Import ListNotations.

(** A scrape: the group scraped, the events before those of a family of interest
    and those after, the writer. *)
Record scrape := { sc_group : group; sc_before : list event; sc_behind : list event; sc_writer : writer }.

(** The scrape is of a group with the family [F] under the name [base] in the
    namespaces [nss]; the rest of it can be written and the writer does not fail. *)
Definition scrape_of (nss : list bytes) (base : bytes) (F : family) (sc : scrape) : Prop :=
  group_events [] (sc_group sc) (sc_before sc ++ family_events nss base F ++ sc_behind sc) /\
  Forall event_ok (sc_before sc ++ sc_behind sc) /\ Forall valid_metric_name (base :: nss) /\ reliable (sc_writer sc).

(** It gives an exposition in the text format; after what this says about the
    events before and ahead of what it says about those behind, there are the
    [lines]. *)
Definition scrape_shows (float_text : f64 -> bytes) (bd : build) (sc : scrape) (lines : list item) : Prop :=
  exists st out items before behind,
    collect_group (text_encoder float_text bd) (sc_group sc) (text_new (sc_writer sc)) = (st, ROk) /\
    w_out (te_writer st) = w_out (sc_writer sc) ++ out /\
    parse out = Some items /\ filter meaningful items = before ++ lines ++ behind /\
    exposes float_text (sc_before sc) before /\ exposes float_text (sc_behind sc) behind.

(** The lines are a TYPE line and then, for each of [gs], the lines about it. *)
Definition family_text {G} (name : bytes) (k : kind) (about : G -> list item -> Prop) (gs : list G) (lines : list item) : Prop :=
  exists parts, lines = Type_ name (kind_word k) :: concat parts /\ Forall2 about gs parts.

(** Every series of the first text is in the second, its value at least what it
    was, save for the names [but]. *)
Definition series_grow (but : list bytes) (first second : list item) : Prop :=
  forall n ls v, In (Sample n ls v None) first -> exists v', In (Sample n ls v' None) second /\
    (~ In n but -> exists z z', read_int v = Some z /\ read_int v' = Some z' /\ (z <= z')%Z).
