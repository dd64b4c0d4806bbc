(** The lines of a text scrape, event by event. *)
From Coq Require Import String List NArith ZArith Bool Lia ZifyBool ZifyN ZifyNat.
From Verif Require Import Base BaseFacts Writer NameModel NameSpec NameProofs LabelModel FloatModel
  EncoderModel TextModel TextSpec EncoderSpec EncoderProofs TextProofs TextParseProofs TextTheorems.
Import ListNotations.
Local Open Scope N_scope.

Section Exact.
  Variable ryu : f64 -> bytes.
  Variable bd : build.
  Hypothesis RYU : float_text_ok ryu.
  Notation shown := (shown ryu).

  Definition metric_items (nss : list bytes) (base : bytes) (ls : labels) (m : metric) : list item :=
    match m with
    | MCounter c => [Sample (full_name nss base []) (shown ls) (itoa (Z.of_N c)) None]
    | MGauge z => [Sample (full_name nss base []) (shown ls) (itoa z) None]
    | MFloatGauge x => [Sample (full_name nss base []) (shown ls) (ryu x) None]
    | MHistogram ts bs inf sum =>
      bucket_items ryu (full_name nss base [str "bucket"]) ls ts bs 0 ++
      [bucket_item ryu (full_name nss base [str "bucket"]) ls f_infinity (fold_right N.add 0 bs + inf);
       Sample (full_name nss base [str "sum"]) (shown ls) (ryu sum) None;
       Sample (full_name nss base [str "count"]) (shown ls) (itoa (Z.of_N (fold_right N.add 0 bs + inf))) None]
    end.
  Definition written (e : event) : list item :=
    match e with
    | EvHelp nss base help => [Help (full_name nss base []) (skip_blanks help)]
    | EvType nss base k => [Type_ (full_name nss base []) (kind_word k)]
    | EvSample nss base ls m => metric_items nss base ls m
    | EvPanic => []
    end.

  Lemma metric_exact : forall m ls nss base, Forall valid_metric_name (base :: nss) -> labels_valid ls -> metric_in_range m ->
    exists l, metric_text ryu bd m ls (name_of nss base) = Some l /\ lines_parse l (metric_items nss base ls m).
  Proof.
    intros m ls nss base FV VL R.
    pose proof (name_bytes_valid _ (name_of_valid nss base FV)) as NV.
    destruct m as [c|z|x|ts bs inf sum]; cbn [metric_text metric_in_range metric_items] in *.
    - eexists. split; [reflexivity|]. rewrite u64_small by exact R. pose proof (sample_lines_parse ryu RYU (name_of nss base) ls (VInt (Z.of_N c)) NV VL) as X.
      now rewrite name_of_bytes in X.
    - eexists. split; [reflexivity|]. pose proof (sample_lines_parse ryu RYU (name_of nss base) ls (VInt z) NV VL) as X. now rewrite name_of_bytes in X.
    - eexists. split; [reflexivity|]. pose proof (sample_lines_parse ryu RYU (name_of nss base) ls (VFloat x) NV VL) as X. now rewrite name_of_bytes in X.
    - destruct R as [L T]. rewrite <- sum_le in T.
      destruct (histogram_lines_text ryu bd RYU ts bs inf sum 0 ls nss base FV VL L ltac:(lia)) as (l & E & P).
      exists l. split; [exact E|]. now rewrite !N.add_0_l in P.
  Qed.

  Lemma items_samples : forall nss base ls m, Forall is_sample (metric_items nss base ls m).
  Proof.
    intros nss base ls [c|z|x|ts bs inf sum]; cbn [metric_items]; try (constructor; [exact I|constructor]).
    apply Forall_app. split; [|repeat constructor]. generalize 0. revert bs.
    induction ts as [|t ts IH]; intros [|b bs] val; constructor; [exact I|apply IH].
  Qed.

  Lemma event_exact : forall t ev, event_ok ev -> exists l t' items, event_text ryu bd t ev = Some (l, t') /\ lines_parse l items /\
    filter meaningful items = written ev.
  Proof.
    intros t ev OK. destruct ev as [nss base h|nss base k|nss base ls m|]; cbn [event_ok event_text] in *.
    - destruct OK as [FV PH]. pose proof (name_bytes_valid _ (name_of_valid nss base FV)) as NV.
      eexists _, _, _. split; [reflexivity|]. split.
      + apply lines_parse_app; [apply gap_parse|].
        apply lines_parse_one; [apply parse_help_line|apply help_line_no_newline]; auto.
      + rewrite filter_app, filter_gap. cbn [app filter meaningful written]. now rewrite name_of_bytes.
    - pose proof (name_bytes_valid _ (name_of_valid nss base OK)) as NV.
      eexists _, _, _. split; [reflexivity|]. split.
      + apply lines_parse_app; [apply gap_parse|].
        apply lines_parse_one; [apply parse_type_line|apply type_line_no_newline]; auto.
      + rewrite filter_app, filter_gap. cbn [app filter meaningful written]. now rewrite name_of_bytes.
    - destruct OK as (FV & VL & R). destruct (metric_exact m ls nss base FV VL R) as (l & E & P). rewrite E.
      eexists _, _, _. split; [reflexivity|]. split; [exact P|]. apply filter_samples, items_samples.
    - contradiction.
  Qed.

  Lemma events_exact : forall evs t, Forall event_ok evs -> exists l t' items, events_text ryu bd t evs = Some (l, t') /\ lines_parse l items /\
    filter meaningful items = concat (map written evs).
  Proof.
    induction evs as [|ev evs IH]; intros t F.
    - exists [], t, []. split; [reflexivity|]. split; [split; [reflexivity|constructor]|reflexivity].
    - inversion F as [|? ? F1 F2]; subst. destruct (event_exact t ev F1) as (l & t1 & i & E & P & W).
      destruct (IH t1 F2) as (l2 & t2 & i2 & E2 & P2 & W2).
      exists (l ++ l2), t2, (i ++ i2). cbn [events_text]. rewrite E, E2.
      split; [reflexivity|]. split; [apply lines_parse_app; auto|]. rewrite filter_app, W, W2. reflexivity.
  Qed.

  Theorem text_exact : forall g evs w, group_events [] g evs -> Forall event_ok evs -> reliable w ->
    exists s out items, collect_group (text_encoder ryu bd) g (text_new w) = (s, ROk) /\ w_out (te_writer s) = w_out w ++ out /\
      parse out = Some items /\ filter meaningful items = concat (map written evs).
  Proof.
    intros g evs w GE F R.
    destruct (collect_group (text_encoder ryu bd) g (text_new w)) as [s r] eqn:E.
    rewrite (collect_group_events g evs GE) in E. pose proof (events_reliable ryu bd evs TInfo w s r R E) as H.
    destruct (events_exact evs TInfo F) as (l & t' & items & X & [P NL] & W). rewrite X in H. destruct H as (-> & _ & _ & O).
    exists s, (unlines l), items. split; [reflexivity|]. split; [exact O|]. split; [|exact W].
    unfold parse. rewrite split_unlines by exact NL. exact P.
  Qed.

  Lemma metric_items_lines : forall nss base ls m, metric_in_range m -> metric_lines ryu nss base ls m (metric_items nss base ls m).
  Proof.
    intros nss base ls [c|z|x|ts bs inf sum] R; cbn [metric_items metric_lines].
    - eexists. split; [reflexivity|]. eexists _, _. split; [reflexivity|]. split; [apply shown_show|apply read_itoa].
    - eexists. split; [reflexivity|]. eexists _, _. split; [reflexivity|]. split; [apply shown_show|apply read_itoa].
    - eexists. split; [reflexivity|]. eexists. split; [reflexivity|apply shown_show].
    - destruct R as [L T]. unfold histogram_lines. rewrite <- sum_le.
      eexists _, _, _, _. split; [reflexivity|]. split; [apply bucket_items_length, L|].
      split; [|split; [apply bucket_item_shows|split]].
      * intros k t i Ht Hi. rewrite (bucket_items_nth _ _ _ _ _ _ _ _ _ L Ht Hi). rewrite N.add_0_l. apply bucket_item_shows.
      * eexists. split; [reflexivity|apply shown_show].
      * eexists _, _. split; [reflexivity|]. split; [apply shown_show|apply read_itoa].
  Qed.

  Lemma written_lines : forall ev, event_ok ev -> event_lines ryu ev (written ev).
  Proof.
    intros [nss base h|nss base k|nss base ls m|] OK; cbn [event_lines written event_ok] in *; try reflexivity; [|contradiction].
    apply metric_items_lines, OK.
  Qed.
  Lemma written_exposes : forall evs, Forall event_ok evs -> exposes ryu evs (concat (map written evs)).
  Proof.
    intros evs F. exists (map written evs). split.
    - clear RYU. induction F; constructor; [now apply written_lines|assumption].
    - induction F as [|ev evs OK F IH]; [reflexivity|]. cbn [map concat]. rewrite filter_app, IH. f_equal.
      destruct ev; try reflexivity. apply filter_samples, items_samples.
  Qed.
End Exact.
