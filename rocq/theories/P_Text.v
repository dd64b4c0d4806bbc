(** Properties C19, C36-C43 and the encoder half of C17: metric groups and the
    text format.  [ryu] is the float formatter, of which only [float_text_ok]
    is assumed. *)
From Coq Require Import String List NArith ZArith Bool Lia.
From Verif Require Import Base Writer NameModel NameSpec NameProofs LabelModel LabelSpec VecModel VecSpec VecTheorems FloatModel
  EncoderModel FamilyModel TextModel TextSpec EncoderSpec EncoderProofs TextProofs TextParseProofs TextTheorems
  TextExamples TextExampleProofs.
Import ListNotations.
Local Open Scope N_scope.

(** C43: collecting a group does exactly its events, in order, stopping at the
    first error, for any encoder; every group has exactly one list of events. *)
Theorem C43_group_traversal : forall g evs, group_events [] g evs ->
  forall S (e : encoder S) s, collect_group e g s = do_events e evs s.
Proof. exact collect_group_events. Qed.
Print Assumptions C43_group_traversal.

Theorem C43_events_unique : forall g nss, exists evs, group_events nss g evs /\
  forall evs', group_events nss g evs' -> evs' = evs.
Proof. exact group_events_functional. Qed.
Print Assumptions C43_events_unique.

Example C43_nonvacuous : group_events [] ex_tree ex_events.
Proof. exact ex_tree_events. Qed.

(** A namespace given to the derive that is not a valid name panics, at every
    collection rather than at compile time. *)
Theorem C43_bad_namespace : forall S (e : encoder S) ns g s, ~ valid_metric_name ns ->
  collect_group e (GStruct (FieldNamespace ns g FieldsNil)) s = (s, RPanic).
Proof. exact bad_namespace. Qed.
Print Assumptions C43_bad_namespace.
Example C43_bad_namespace_case : ~ valid_metric_name (str "my-app").
Proof. rewrite <- valid_metric_nameb_spec. vm_compute. discriminate. Qed.

(** C17, encoder half: a vec announces its type once and then hands the encoder
    one sample per live label, in any encoder; nothing else. *)
Theorem C17_exports_live : forall L M ok wt valid, lawful L ok wt valid ->
  forall W : world L M, world_ok W ->
  forall p ls v ops c os, constructed W p ls v -> ok ls ->
    typed_ops wt ls ops -> exec W (start v) ops = Done (c, os) ->
    exists l, NoDup (map fst l) /\
      (~ In OpInitAll ops ->
       forall g, In g (map fst l) <-> live_after (storage_of v) [] (fun _ => False) ops os g) /\
      (forall h g (read : M -> N), nth_error (issued ops os) h = Some g ->
         exists c', exec W c [OpAccess h (fun m => (m, read m))] =
           Done (c', [OutValue (read (match find (fun p => w_geqb W (fst p) g) l with
                                      | Some p => snd p | None => w_default W end))])) /\
      forall S (e : encoder S) visit k read nss base s,
        collect_family e (name_of nss base) (vec_family L M (w_iter W) visit k read (cl_vec c)) s =
        do_events e (EvType nss base k ::
                     map (fun q => EvSample nss base (visit (fst q)) (read (snd q))) l) s.
Proof. exact exports_live. Qed.
Print Assumptions C17_exports_live.

(** C36: the text of a label value decodes to the value at its first closing
    quote, has no line feed, and determines the value. *)
Theorem C36_label_values_escaped : forall s t w, reliable w ->
  exists out w', write_label_str_value s {| te_state := t; te_writer := w |} =
                 ({| te_state := t; te_writer := w' |}, ROk) /\
    w_out w' = w_out w ++ out /\ ~ In 10 out /\ forall rest, quoted (out ++ 34 :: rest) = Some (s, rest).
Proof. exact label_value_escaped. Qed.
Print Assumptions C36_label_values_escaped.

Theorem C36_label_values_distinct : forall s1 s2 t w out w1 w2, reliable w ->
  write_label_str_value s1 {| te_state := t; te_writer := w |} = (w1, ROk) ->
  write_label_str_value s2 {| te_state := t; te_writer := w |} = (w2, ROk) ->
  w_out (te_writer w1) = w_out w ++ out -> w_out (te_writer w2) = w_out w ++ out -> s1 = s2.
Proof. exact label_values_distinct. Qed.
Print Assumptions C36_label_values_distinct.

Example C36_nonvacuous :
  w_out (te_writer (fst (write_label_str_value [97; 10; 34; 92; 98] (text_new (good_writer []))))) =
  [97; 92; 110; 92; 34; 92; 92; 98].
Proof. reflexivity. Qed.

(** C37: what a group of valid names and plain help texts writes parses back to
    its events; C38: and is framed. *)
Theorem C37_text_round_trip : forall ryu bd g evs w, float_text_ok ryu ->
  group_events [] g evs -> Forall event_ok evs -> reliable w ->
  exists s out items, collect_group (text_encoder ryu bd) g (text_new w) = (s, ROk) /\
    w_out (te_writer s) = w_out w ++ out /\ parse out = Some items /\ exposes ryu evs items /\ framed items.
Proof. exact text_round_trip. Qed.
Print Assumptions C37_text_round_trip.

Theorem C38_framing : forall ryu bd g evs w s out, float_text_ok ryu ->
  group_events [] g evs -> Forall event_ok evs -> reliable w ->
  collect_group (text_encoder ryu bd) g (text_new w) = (s, ROk) -> w_out (te_writer s) = w_out w ++ out ->
  exists items, parse out = Some items /\ framed items /\ (items <> [] -> ~ exists i, items = i ++ [Blank]).
Proof. exact text_framing. Qed.
Print Assumptions C38_framing.

(** Help before type before samples, with nothing in between. *)
Theorem C38_family_order : forall nss base f m, In (EvSample nss base (fst m) (snd m)) (family_events nss base f) ->
  exists k samples, family_events nss base f = EvType nss base k :: samples /\
    Forall (fun e => match e with EvSample n b _ _ => n = nss /\ b = base | EvPanic => True | _ => False end) samples.
Proof. exact family_order. Qed.
Print Assumptions C38_family_order.

Example C37_float_text : float_text_ok ex_ryu.
Proof. exact ex_ryu_ok. Qed.
Example C37_nonvacuous : Forall event_ok ex_events.
Proof. exact ex_events_ok. Qed.
Example C37_output :
  w_out (te_writer (fst (collect_group (text_encoder ex_ryu Debug) ex_labelled (text_new (good_writer []))))) =
  str "# TYPE hits counter" ++ [10] ++ str "hits{kind=""x"",code=""404""} 1" ++ [10].
Proof. vm_compute. reflexivity. Qed.

(** C39: scraping repeatedly with one buffered encoder gives what fresh
    encoders give, even after panics, and [unreachable!] is never reached. *)
Theorem C39_reusable : forall ryu bd gs,
  scrapes ryu bd buffered_new gs = map (fun g => hd (ROk, Panic) (scrapes ryu bd buffered_new [g])) gs.
Proof. exact (fun ryu bd gs => scrapes_fresh ryu bd gs buffered_new (conj eq_refl (conj eq_refl (conj (fun _ => eq_refl) (fun _ => eq_refl))))). Qed.
Print Assumptions C39_reusable.

Theorem C39_one_scrape : forall ryu bd g s r,
  collect_group (text_encoder ryu bd) g (text_new (good_writer [])) = (s, r) ->
  scrapes ryu bd buffered_new [g] = [(r, Done (w_out (te_writer s)))].
Proof. exact scrape_is_collection. Qed.
Print Assumptions C39_one_scrape.

Theorem C39_never_unreachable : forall ryu bd g s, reliable (te_writer s) ->
  collect_group (buffered_encoder ryu bd) g s = collect_group (text_encoder ryu bd) g s.
Proof. exact never_unreachable. Qed.
Print Assumptions C39_never_unreachable.

Example C39_nonvacuous : exists out, scrapes ex_ryu Debug buffered_new [ex_tree; ex_labelled; ex_tree] =
  [(ROk, Done out);
   (ROk, Done (str "# TYPE hits counter" ++ [10] ++ str "hits{kind=""x"",code=""404""} 1" ++ [10]));
   (ROk, Done out)].
Proof. eexists. vm_compute. reflexivity. Qed.

(** C40 is false: a line feed in a doc comment ends the HELP line, and the rest
    is read as a sample; a backslash is read as the start of an escape. *)
Theorem C40_help_line_feed_refuted : exists docs s items,
  collect_group (text_encoder ex_ryu Debug) (ex_documented docs) (text_new (good_writer [])) = (s, ROk) /\
  parse (w_out (te_writer s)) = Some items /\
  In (Sample (str "injected") [] (str "1") None) items.
Proof. exact help_line_feed. Qed.
Print Assumptions C40_help_line_feed_refuted.

Theorem C40_help_backslash_refuted : exists docs s items help,
  ~ In 10 docs /\ trimmed docs docs /\
  collect_group (text_encoder ex_ryu Debug) (ex_documented docs) (text_new (good_writer [])) = (s, ROk) /\
  parse (w_out (te_writer s)) = Some (Help (str "c") help :: items) /\ help <> docs.
Proof. exact help_backslash. Qed.
Print Assumptions C40_help_backslash_refuted.

(** Without a line feed it is one line. *)
Theorem C40_single_line : forall nss base h w, Forall valid_metric_name (base :: nss) -> ~ In 10 h -> reliable w ->
  exists s line, text_write_help (name_of nss base) h (text_new w) = (s, ROk) /\
    w_out (te_writer s) = w_out w ++ line ++ [10] /\ ~ In 10 line /\
    line = str "# HELP " ++ full_name nss base [] ++ str " " ++ h.
Proof. exact help_single_line. Qed.
Print Assumptions C40_single_line.

(** C41: with a writer that keeps failing once it failed, the bytes written are
    a prefix of the complete output, and Ok means complete. *)
Theorem C41_failing_writer : forall ryu bd g w sg, sticky w -> unused w ->
  collect_group (text_encoder ryu bd) g (text_new (good_writer [])) = (sg, ROk) ->
  exists s r rest, collect_group (text_encoder ryu bd) g (text_new w) = (s, r) /\
    w_out (te_writer sg) = w_out (te_writer s) ++ rest /\
    (failed (te_writer s) -> r = RErr) /\
    (~ failed (te_writer s) -> r = ROk /\ rest = []).
Proof. exact text_failing. Qed.
Print Assumptions C41_failing_writer.

Example C41_nonvacuous : sticky (ex_broken 7) /\ unused (ex_broken 7) /\ exists s,
  collect_group (text_encoder ex_ryu Debug) ex_labelled (text_new (ex_broken 7)) = (s, RErr) /\
  failed (te_writer s) /\ w_out (te_writer s) = str "# TYPE hits counter" ++ [10] ++ str "hits{kind=""x".
Proof. exact ex_broken_runs. Qed.

(** False for a writer that fails once: Ok, but bytes are missing. *)
Theorem C41_ok_complete_refuted : exists g w s sg,
  unused w /\
  collect_group (text_encoder ex_ryu Debug) g (text_new (good_writer [])) = (sg, ROk) /\
  collect_group (text_encoder ex_ryu Debug) g (text_new w) = (s, ROk) /\
  failed (te_writer s) /\ w_out (te_writer s) <> w_out (te_writer sg).
Proof. exact ok_incomplete. Qed.
Print Assumptions C41_ok_complete_refuted.

(** C42 *)
Theorem C42_utf8 : forall ryu bd, float_text_ok ryu ->
  forall g evs w s, group_events [] g evs -> Forall event_utf8 evs -> reliable w -> utf8 (w_out w) ->
  collect_group (text_encoder ryu bd) g (text_new w) = (s, ROk) -> utf8 (w_out (te_writer s)).
Proof. exact text_utf8. Qed.
Print Assumptions C42_utf8.

Example C42_nonvacuous : exists s,
  Forall event_utf8 [EvSample [] (str "c") [(str "name", LStr [206; 187; 34; 226; 130; 172])] (MCounter 1)] /\
  group_events [] (ex_unicode [206; 187; 34; 226; 130; 172])
    [EvType [] (str "c") KCounter; EvSample [] (str "c") [(str "name", LStr [206; 187; 34; 226; 130; 172])] (MCounter 1)] /\
  collect_group (text_encoder ex_ryu Debug) (ex_unicode [206; 187; 34; 226; 130; 172]) (text_new (good_writer [])) = (s, ROk).
Proof. exact ex_unicode_runs. Qed.

(** C19: exactly the count below 2^63, and 2^64 less from there on. *)
Theorem C19_counter_shown : forall ryu bd nss base ls c w, float_text_ok ryu ->
  Forall valid_metric_name (base :: nss) -> labels_valid ls -> c < 2 ^ 64 -> reliable w ->
  exists s out i, text_collect ryu bd (MCounter c) ls (name_of nss base) (text_new w) = (s, ROk) /\
    w_out (te_writer s) = w_out w ++ out /\ parse out = Some [i] /\
    int_sample ryu (full_name nss base []) ls (if (c <? 2 ^ 63)%N then Z.of_N c else Z.of_N c - 2 ^ 64)%Z i.
Proof. exact counter_shown. Qed.
Print Assumptions C19_counter_shown.

Theorem C19_counter_refuted : exists c s v, c < 2 ^ 64 /\
  text_collect ex_ryu Debug (MCounter c) [] (name_of [] (str "c")) (text_new (good_writer [])) = (s, ROk) /\
  parse (w_out (te_writer s)) = Some [Sample (str "c") [] v None] /\ read_int v = Some (-1)%Z.
Proof. exact counter_negative. Qed.
Print Assumptions C19_counter_refuted.
