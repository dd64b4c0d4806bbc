(** Proofs about the examples, and small lemmas behind [P_Text]. *)
From Coq Require Import String List NArith ZArith Bool Lia.
From Verif Require Import Base Writer NameModel NameSpec NameProofs LabelModel LabelSpec VecModel VecSpec VecTheorems FloatModel
  EncoderModel FamilyModel TextModel TextSpec EncoderSpec TrimProofs EncoderProofs TextProofs TextParseProofs TextTheorems TextExamples.
Import ListNotations.
Local Open Scope N_scope.

Lemma itoa_nat_chars : forall n, itoa_nat n <> [] /\ forallb float_char (itoa_nat n) = true.
Proof.
  intros n. split.
  - destruct (itoa_nat_cons n) as (b & t & -> & _). discriminate.
  - apply forallb_forall. intros b I.
    assert (X : 48 <= b <= 57) by (revert b I; rewrite <- Forall_forall; apply digits_chars).
    unfold float_char, digit, between. destruct (N.leb_spec 48 b), (N.leb_spec b 57); cbn; auto; lia.
Qed.

Lemma ex_ryu_ok : float_text_ok ex_ryu.
Proof. intros x. apply itoa_nat_chars. Qed.

Lemma ex_trim : trimmed (str " number of errors ") (str "number of errors").
Proof.
  change (str " number of errors ") with (str " number of errors ").
  pose proof (trim_trimmed (str " number of errors ")) as T. exact T.
Qed.

Lemma GE_eq : forall nss g l l', group_events nss g l -> l = l' -> group_events nss g l'.
Proof. intros. now subst. Qed.

Lemma ex_tree_events : group_events [] ex_tree ex_events.
Proof.
  eapply GE_eq.
  - unfold ex_tree. apply GE_composed.
    + apply GE_struct. eapply FE_documented; [discriminate|exact ex_trim|].
      apply FE_ns.
      * apply valid_metric_nameb_spec. reflexivity.
      * apply GE_struct. apply FE_undocumented. apply FE_nil.
      * apply FE_undocumented. apply FE_nil.
    + apply GE_ns, GE_some, GE_struct. apply FE_undocumented. apply FE_nil.
  - reflexivity.
Qed.

Ltac names := repeat constructor; apply valid_metric_nameb_spec; reflexivity.
Lemma ex_events_ok : Forall event_ok ex_events.
Proof.
  assert (V : forall s, valid_metric_nameb s = true -> valid_metric_name s) by (intros s; apply valid_metric_nameb_spec).
  assert (VL : forall s, valid_label_nameb s = true -> valid_label_name s) by (intros s; apply valid_label_nameb_spec).
  unfold ex_events, ex_label, ex_nasty, ex_histogram.
  repeat match goal with |- Forall event_ok _ => constructor end;
    cbn [event_ok metric_in_range];
    repeat match goal with |- _ /\ _ => split end;
    try (unfold labels_valid);
    repeat match goal with |- Forall _ _ => constructor end;
    cbn [fst]; try (apply V; reflexivity); try (apply VL; reflexivity); try (unfold plain_help; cbn; intuition discriminate);
    try reflexivity; try (vm_compute; intuition discriminate).
Qed.

Lemma text_framing : forall ryu bd g evs w s out, float_text_ok ryu ->
  group_events [] g evs -> Forall event_ok evs -> reliable w ->
  collect_group (text_encoder ryu bd) g (text_new w) = (s, ROk) -> w_out (te_writer s) = w_out w ++ out ->
  exists items, parse out = Some items /\ framed items /\ (items <> [] -> ~ exists i, items = i ++ [Blank]).
Proof.
  intros ryu bd g evs w s out RY GE F R E O.
  destruct (text_round_trip ryu bd g evs w RY GE F R) as (s' & out' & items & E' & O' & P & _ & FR).
  rewrite E in E'. injection E' as <-. rewrite O in O'. apply app_inv_head in O'. subst out'.
  exists items. split; [exact P|]. split; [exact FR|].
  intros _ (i & ->). destruct FR as [_ B]. destruct (B i [] eq_refl) as (a & x & y & b & _ & X & _). discriminate.
Qed.

Lemma family_order : forall nss base f m, In (EvSample nss base (fst m) (snd m)) (family_events nss base f) ->
  exists k samples, family_events nss base f = EvType nss base k :: samples /\
    Forall (fun e => match e with EvSample n b _ _ => n = nss /\ b = base | EvPanic => True | _ => False end) samples.
Proof.
  intros nss base f m. induction f as [m0|k [l|]|f IH|]; cbn [family_events]; intros I.
  - eexists _, _. split; [reflexivity|]. repeat constructor.
  - eexists _, _. split; [reflexivity|]. apply Forall_forall. intros e H. apply in_map_iff in H.
    destruct H as (q & <- & _). auto.
  - eexists _, _. split; [reflexivity|]. repeat constructor.
  - auto.
  - destruct I.
Qed.

Lemma collect_family_named : forall S (e : encoder S) nss base f s,
  collect_family e (name_of nss base) f s = do_events e (family_events nss base f) s.
Proof.
  intros S e nss base f. induction f as [m|k samples|f IH|]; intros s; cbn [collect_family family_events]; auto.
  - rewrite bindr_ok. cbn [do_events do_event].
    change (kind_of m) with (metric_kind m). destruct (e_type e (metric_kind m) (name_of nss base) s) as [s' []]; try reflexivity.
    destruct (e_collect e m [] (name_of nss base) s') as [s'' []]; reflexivity.
  - rewrite bindr_ok. destruct samples as [l|]; cbn [do_events do_event];
      destruct (e_type e k (name_of nss base) s) as [s' []]; try reflexivity.
    revert s'. induction l as [|[g m] l IH]; intros s'; [reflexivity|]. cbn [collect_samples map do_events do_event fst snd].
    rewrite bindr_ok. destruct (e_collect e m g (name_of nss base) s') as [s'' []]; auto.
Qed.

Lemma exports_live : forall L M ok wt valid, lawful L ok wt valid ->
  forall W : world L M, world_ok W ->
  forall p ls v ops c os, constructed W p ls v -> ok ls ->
    typed_ops wt ls ops -> exec W (start v) ops = Done (c, os) ->
    exists l, NoDup (map fst l) /\
      (~ In OpInitAll ops ->
       forall g, In g (map fst l) <-> live_after (storage_of v) [] (fun _ => False) ops os g) /\
      (forall h g (read : M -> N), nth_error (issued ops os) h = Some g ->
         exists c', exec W c [OpAccess h (fun m => (m, read m))] =
           Done (c', [OutValue (read (match find (fun p => w_geqb W (fst p) g) l with
                                      | Some p => snd p | None => w_default W end))])) /\
      forall S (e : encoder S) visit k read nss base s,
        collect_family e (name_of nss base) (vec_family L M (w_iter W) visit k read (cl_vec c)) s =
        do_events e (EvType nss base k ::
                     map (fun q => EvSample nss base (visit (fst q)) (read (snd q))) l) s.
Proof.
  intros L M ok wt valid LAW W WOK p ls v ops c os C O T E.
  destruct (collects_live LAW W WOK p ls v ops c os C O T E) as (l & V & ND & LV & RD).
  exists l. split; [exact ND|]. split; [exact LV|]. split; [exact RD|].
  intros S e visit k read nss base s. rewrite collect_family_named. unfold vec_family.
  rewrite V. cbn [obind family_events]. rewrite map_map. reflexivity.
Qed.

Ltac vm_refl := match goal with |- ?a = ?b => exact (@eq_refl _ b <: a = b) end.

Lemma help_line_feed : exists docs s items,
  collect_group (text_encoder ex_ryu Debug) (ex_documented docs) (text_new (good_writer [])) = (s, ROk) /\
  parse (w_out (te_writer s)) = Some items /\
  In (Sample (str "injected") [] (str "1") None) items.
Proof.
  exists (str "help" ++ [10] ++ str "injected 1"). eexists _, _.
  split; [vm_compute; reflexivity|]. split; [vm_compute; reflexivity|]. right. left. reflexivity.
Qed.

Lemma help_backslash : exists docs s items help,
  ~ In 10 docs /\ trimmed docs docs /\
  collect_group (text_encoder ex_ryu Debug) (ex_documented docs) (text_new (good_writer [])) = (s, ROk) /\
  parse (w_out (te_writer s)) = Some (Help (str "c") help :: items) /\ help <> docs.
Proof.
  exists (str "C:\new"). eexists _, _, _.
  split; [cbn; intuition discriminate|]. split; [exact (trim_trimmed (str "C:\new"))|].
  split; [vm_compute; reflexivity|]. split; [vm_compute; reflexivity|]. discriminate.
Qed.

Lemma ex_broken_runs : sticky (ex_broken 7) /\ unused (ex_broken 7) /\ exists s,
  collect_group (text_encoder ex_ryu Debug) ex_labelled (text_new (ex_broken 7)) = (s, RErr) /\
  failed (te_writer s) /\ w_out (te_writer s) = str "# TYPE hits counter" ++ [10] ++ str "hits{kind=""x".
Proof.
  split; [|split; [split; reflexivity|]].
  - intros i k. cbn [w_plan ex_broken]. intros E j L.
    destruct (Nat.eqb_spec 7 j), (Nat.ltb_spec 7 j), (Nat.eqb_spec 7 i), (Nat.ltb_spec 7 i); try lia; congruence.
  - eexists. split; [vm_compute; reflexivity|]. split; [|reflexivity].
    exists 7%nat, 1%nat. cbn [te_writer w_calls]. split; [lia|reflexivity].
Qed.

Lemma ok_incomplete : exists g w s sg,
  unused w /\
  collect_group (text_encoder ex_ryu Debug) g (text_new (good_writer [])) = (sg, ROk) /\
  collect_group (text_encoder ex_ryu Debug) g (text_new w) = (s, ROk) /\
  failed (te_writer s) /\ w_out (te_writer s) <> w_out (te_writer sg).
Proof.
  exists ex_labelled, (ex_failing [7%nat]). eexists _, _.
  split; [split; reflexivity|]. split; [vm_compute; reflexivity|]. split; [vm_compute; reflexivity|].
  split; [|cbn; discriminate]. exists 7%nat, 0%nat. cbn [te_writer w_calls]. split; [lia|reflexivity].
Qed.

Definition ex_unicode (s : bytes) : group :=
  GStruct (FieldMetric (str "c") None [] (FamVec KCounter (Done [([(str "name", LStr s)], MCounter 1)])) FieldsNil).

Lemma ex_unicode_runs : exists s,
  Forall event_utf8 [EvSample [] (str "c") [(str "name", LStr [206; 187; 34; 226; 130; 172])] (MCounter 1)] /\
  group_events [] (ex_unicode [206; 187; 34; 226; 130; 172])
    [EvType [] (str "c") KCounter; EvSample [] (str "c") [(str "name", LStr [206; 187; 34; 226; 130; 172])] (MCounter 1)] /\
  collect_group (text_encoder ex_ryu Debug) (ex_unicode [206; 187; 34; 226; 130; 172]) (text_new (good_writer [])) = (s, ROk).
Proof.
  eexists. split; [|split; [|vm_compute; reflexivity]].
  - constructor; [|constructor]. split; [constructor; [ascii|constructor]|].
    constructor; [|constructor]. split; [ascii|]. cbn [snd].
    apply (utf8_app [206; 187]); [|apply (utf8_app [34]); [ascii|]].
    + rewrite <- (app_nil_r [206; 187]). constructor; [|constructor]. constructor; unfold tail; lia.
    + rewrite <- (app_nil_r [226; 130; 172]). constructor; [|constructor]. constructor; unfold tail; lia.
  - eapply GE_eq; [apply GE_struct, FE_undocumented, FE_nil|reflexivity].
Qed.

Lemma counter_negative : exists c s v, c < 2 ^ 64 /\
  text_collect ex_ryu Debug (MCounter c) [] (name_of [] (str "c")) (text_new (good_writer [])) = (s, ROk) /\
  parse (w_out (te_writer s)) = Some [Sample (str "c") [] v None] /\ read_int v = Some (-1)%Z.
Proof.
  exists 18446744073709551615. eexists _, _. split; [reflexivity|]. split; [vm_compute; reflexivity|].
  split; [vm_compute; reflexivity|]. reflexivity.
Qed.
