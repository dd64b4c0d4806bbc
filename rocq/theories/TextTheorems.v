(** UTF-8, write errors, reuse and the remaining theorems about text output. *)
From Coq Require Import String List NArith ZArith Bool Lia ZifyBool ZifyN ZifyNat.
From Verif Require Import Base BaseFacts Writer NameModel NameSpec NameProofs LabelModel FloatModel
  EncoderModel TextModel TextSpec EncoderSpec EncoderProofs TextProofs TextParseProofs.
Import ListNotations.
Local Open Scope N_scope.

(** ** UTF-8 (C42) *)

Lemma utf8_app : forall a b, utf8 a -> utf8 b -> utf8 (a ++ b).
Proof.
  intros a b A B. induction A as [|c s C _ IH]; [exact B|]. rewrite <- app_assoc. constructor; auto.
Qed.

Lemma utf8_ascii : forall s, Forall (fun b => b <= 127) s -> utf8 s.
Proof.
  induction s as [|b s IH]; intros F; [constructor|]. inversion F; subst.
  change (b :: s) with ([b] ++ s). constructor; [constructor; auto|auto].
Qed.

Lemma utf8_concat : forall l, Forall utf8 l -> utf8 (concat l).
Proof. induction l; intros F; [constructor|]. inversion F; subst. cbn. apply utf8_app; auto. Qed.

Lemma esc1_high : forall b, 128 <= b -> esc1 b = [b].
Proof.
  intros b H. unfold esc1, escape_byte.
  destruct (N.eqb_spec b 92); [lia|]. destruct (N.eqb_spec b 34); [lia|]. destruct (N.eqb_spec b 10); [lia|reflexivity].
Qed.

Lemma esc_char : forall c, utf8_char c -> utf8 (esc c).
Proof.
  assert (K : forall c, utf8_char c -> Forall (fun b => 128 <= b) c -> utf8 (esc c)).
  { intros c C F. assert (E : esc c = c).
    { clear C. induction F; [reflexivity|]. cbn [esc flat_map]. rewrite esc1_high by auto.
      cbn [app]. f_equal. exact IHF. }
    rewrite E. rewrite <- (app_nil_r c). constructor; [exact C|constructor]. }
  intros c C. destruct C; try (apply K; [constructor; assumption|unfold tail in *; repeat constructor; lia]).
  cbn [esc flat_map]. rewrite app_nil_r. apply utf8_ascii. unfold esc1, escape_byte.
  destruct (N.eqb_spec a 92); [|destruct (N.eqb_spec a 34); [|destruct (N.eqb_spec a 10)]];
    repeat constructor; lia.
Qed.

Lemma esc_utf8 : forall s, utf8 s -> utf8 (esc s).
Proof.
  intros s U. induction U as [|c s C _ IH]; [constructor|].
  unfold esc. rewrite flat_map_app. apply utf8_app; [apply esc_char, C|exact IH].
Qed.

Lemma name_utf8 : forall nss base, Forall utf8 (base :: nss) -> utf8 (name_bytes (name_of nss base)).
Proof.
  intros nss base F. inversion F; subst. clear F. unfold name_of.
  induction H2 as [|ns nss U _ IH]; cbn [fold_right name_bytes]; [assumption|].
  apply utf8_app; [exact U|]. apply utf8_app; [apply utf8_ascii; repeat constructor; cbn; lia|exact IH].
Qed.

Lemma ascii_str : forall s, Forall (fun b => b <= 127) s -> utf8 s.
Proof. exact utf8_ascii. Qed.

Ltac ascii := apply utf8_ascii; repeat constructor; cbv; discriminate.

Lemma suffix_utf8 : forall s, utf8 (suffix_text s).
Proof. destruct s; ascii. Qed.

Lemma itoa_utf8 : forall z, utf8 (itoa z).
Proof.
  assert (P : forall n, Forall (fun b => b <= 127) (itoa_nat n)).
  { intros n. unfold itoa_nat. eapply Forall_impl; [|apply digits_chars]. cbn. lia. }
  intros [|p|p]; unfold itoa; apply utf8_ascii; auto. constructor; [lia|]. auto.
Qed.

Section Text.
  Variable ryu : f64 -> bytes.
  Variable bd : build.

  Section Utf8.
  Hypothesis RYU : float_text_ok ryu.

  Lemma ryu_utf8 : forall x, utf8 (ryu x).
  Proof.
    intros x. destruct (RYU x) as [_ F]. apply utf8_ascii. apply Forall_forall. intros b I.
    rewrite forallb_forall in F. specialize (F b I). revert F. unfold float_char, digit, letter, between. lia.
  Qed.

  Lemma lval_utf8 : forall v, match v with LStr s => utf8 s | _ => True end -> utf8 (lval_text ryu v).
  Proof.
    intros [z|x|s] H; cbn [lval_text]; [apply itoa_utf8| |exact H].
    unfold float_label_text. destruct (f_is_infinite x); [destruct (f_is_sign_positive x); ascii|].
    destruct (f_is_nan x); [ascii|apply ryu_utf8].
  Qed.

  Lemma labels_text_utf8 : forall ls f, labels_utf8 ls -> utf8 (labels_text ryu ls f).
  Proof.
    induction ls as [|[n v] ls IH]; intros f F; [constructor|]. inversion F; subst. cbn [labels_text fst snd] in *.
    destruct H1 as [Un Uv]. unfold label_text.
    repeat apply utf8_app; auto; try ascii; [destruct f; ascii|]. apply esc_utf8, lval_utf8, Uv.
  Qed.

  Lemma labels_line_utf8 : forall ls, labels_utf8 ls -> utf8 (labels_line ryu ls).
  Proof.
    intros ls F. unfold labels_line. destruct ls; [constructor|].
    apply utf8_app; [apply labels_text_utf8, F|ascii].
  Qed.

  Lemma value_utf8 : forall v, utf8 (value_text ryu v).
  Proof. intros [z|x]; cbn [value_text]; [apply itoa_utf8|apply ryu_utf8]. Qed.

  Lemma sample_line_utf8 : forall n ls v, utf8 (name_bytes n) -> labels_utf8 ls -> utf8 (sample_line ryu n ls v).
  Proof.
    intros n ls v U F. unfold sample_line. apply utf8_app; [exact U|].
    apply utf8_app; [apply labels_line_utf8, F|]. apply utf8_app; [ascii|apply value_utf8].
  Qed.

  Lemma labels_utf8_le : forall ls t, labels_utf8 ls -> labels_utf8 (ls ++ le_label t).
  Proof. intros. apply Forall_app. split; auto. constructor; [|constructor]. split; [cbn; ascii|exact I]. Qed.

  Lemma histogram_text_utf8 : forall ts bs inf sum val ls n l, utf8 (name_bytes n) -> labels_utf8 ls ->
    histogram_text ryu bd ts bs inf sum val ls n = Some l -> Forall utf8 l.
  Proof.
    intros ts bs inf sum val ls n l U F. revert bs val l.
    assert (U' : forall s, utf8 (name_bytes (NSuffix n s))).
    { intros s. cbn [name_bytes]. apply utf8_app; [exact U|apply suffix_utf8]. }
    assert (END : forall val l, match u_add bd val inf with
      | Panic => None
      | Done count =>
        Some [sample_line ryu (NSuffix n Bucket) (ls ++ le_label f_infinity) (VInt (u64_as_i64 count));
              sample_line ryu (NSuffix n Sum) ls (VFloat sum);
              sample_line ryu (NSuffix n Count) ls (VInt (u64_as_i64 count))] end = Some l -> Forall utf8 l).
    { intros val l E. destruct (u_add bd val inf); [|discriminate]. inversion E; subst.
      constructor; [|constructor; [|constructor; [|constructor]]]; apply sample_line_utf8; auto.
      apply labels_utf8_le, F. }
    induction ts as [|t ts IH]; intros bs val l E; cbn [histogram_text] in E; [apply (END _ _ E)|].
    destruct bs as [|b bs]; [apply (END _ _ E)|].
    destruct (u_add bd val b) as [val'|]; [|discriminate].
    destruct (histogram_text ryu bd ts bs inf sum val' ls n) as [l'|] eqn:H; [|discriminate].
    inversion E; subst. constructor; [|eapply IH, H].
    apply sample_line_utf8; auto. apply labels_utf8_le, F.
  Qed.

  Lemma event_text_utf8 : forall t ev l t', event_utf8 ev -> event_text ryu bd t ev = Some (l, t') -> Forall utf8 l.
  Proof.
    assert (G : forall t, Forall utf8 (gap t)) by (destruct t; repeat constructor).
    intros t ev l t' U E. destruct ev as [nss base h|nss base k|nss base ls m|]; cbn [event_text event_utf8] in *.
    - destruct U as [Un Uh]. inversion E; subst. apply Forall_app. split; [apply G|]. constructor; [|constructor].
      unfold help_line. apply utf8_app; [ascii|]. apply utf8_app; [apply name_utf8, Un|].
      apply utf8_app; [ascii|exact Uh].
    - inversion E; subst. apply Forall_app. split; [apply G|]. constructor; [|constructor].
      unfold type_line. apply utf8_app; [ascii|]. apply utf8_app; [apply name_utf8, U|].
      apply utf8_app; [ascii|]. destruct k; ascii.
    - destruct U as [Un Ul]. pose proof (name_utf8 _ _ Un) as UN.
      destruct (metric_text ryu bd m ls (name_of nss base)) as [l0|] eqn:M; [|discriminate].
      inversion E; subst. destruct m; cbn [metric_text] in M;
        try (inversion M; subst; constructor; [|constructor]; apply sample_line_utf8; auto).
      eapply histogram_text_utf8; eauto.
    - discriminate.
  Qed.

  Lemma events_text_utf8 : forall evs t l t', Forall event_utf8 evs -> events_text ryu bd t evs = Some (l, t') ->
    Forall utf8 l.
  Proof.
    induction evs as [|ev evs IH]; intros t l t' F E; cbn [events_text] in E.
    - inversion E; subst. constructor.
    - inversion F; subst. destruct (event_text ryu bd t ev) as [[l1 t1]|] eqn:E1; [|discriminate].
      destruct (events_text ryu bd t1 evs) as [[l2 t2]|] eqn:E2; [|discriminate]. inversion E; subst.
      apply Forall_app. split; [eapply event_text_utf8; eauto|eauto].
  Qed.

  Lemma text_utf8 : forall g evs w s, group_events [] g evs -> Forall event_utf8 evs ->
    reliable w -> utf8 (w_out w) ->
    collect_group (text_encoder ryu bd) g (text_new w) = (s, ROk) -> utf8 (w_out (te_writer s)).
  Proof.
    intros g evs w s GE F R U E. rewrite (collect_group_events g evs GE) in E.
    pose proof (events_reliable ryu bd evs TInfo w s ROk R E) as H.
    destruct (events_text ryu bd TInfo evs) as [[l t']|] eqn:X; [|discriminate].
    destruct H as (_ & _ & _ & ->). apply utf8_app; [exact U|]. unfold unlines. apply utf8_concat.
    pose proof (events_text_utf8 evs TInfo l t' F X) as UL. apply Forall_forall. intros y I.
    apply in_map_iff in I. destruct I as (x & <- & I). rewrite Forall_forall in UL.
    apply utf8_app; [auto|ascii].
  Qed.
  End Utf8.

  (** ** C36 *)

  Lemma label_value_escaped : forall s t w, reliable w ->
    exists out w', write_label_str_value s {| te_state := t; te_writer := w |} =
                   ({| te_state := t; te_writer := w' |}, ROk) /\
      w_out w' = w_out w ++ out /\ ~ In 10 out /\ forall rest, quoted (out ++ 34 :: rest) = Some (s, rest).
  Proof.
    intros s t w R. destruct (writes_reliable _ _ _ _ w (escaped_writes s [] t) R) as (w' & E & _ & O).
    exists (esc s), w'. repeat split; auto; [apply esc_no_newline|apply quoted_esc].
  Qed.

  Lemma label_values_distinct : forall s1 s2 t w out w1 w2, reliable w ->
    write_label_str_value s1 {| te_state := t; te_writer := w |} = (w1, ROk) ->
    write_label_str_value s2 {| te_state := t; te_writer := w |} = (w2, ROk) ->
    w_out (te_writer w1) = w_out w ++ out -> w_out (te_writer w2) = w_out w ++ out -> s1 = s2.
  Proof.
    intros s1 s2 t w out w1 w2 R E1 E2 O1 O2.
    destruct (label_value_escaped s1 t w R) as (o1 & v1 & F1 & P1 & _ & Q1).
    destruct (label_value_escaped s2 t w R) as (o2 & v2 & F2 & P2 & _ & Q2).
    rewrite F1 in E1. rewrite F2 in E2. inversion E1; inversion E2; subst. cbn in *.
    rewrite O1 in P1. rewrite O2 in P2. apply app_inv_head in P1. apply app_inv_head in P2. subst.
    specialize (Q1 []). specialize (Q2 []). congruence.
  Qed.

  (** ** C37, C38 *)

  Lemma text_round_trip : forall g evs w, float_text_ok ryu -> group_events [] g evs -> Forall event_ok evs ->
    reliable w ->
    exists s out items, collect_group (text_encoder ryu bd) g (text_new w) = (s, ROk) /\
      w_out (te_writer s) = w_out w ++ out /\ parse out = Some items /\ exposes ryu evs items /\ framed items.
  Proof.
    intros g evs w RY GE F R.
    destruct (collect_group (text_encoder ryu bd) g (text_new w)) as [s r] eqn:E.
    rewrite (collect_group_events g evs GE) in E.
    destruct (text_run_parses ryu bd RY evs TInfo w s r F R E) as (out & items & -> & O & _ & P & EI).
    exists s, out, items.
    assert (FR : framed items).
    { apply frames_framed. eapply events_items_frames; eauto; try discriminate. }
    assert (EX : exposes ryu evs items) by (eapply events_items_exposes; eauto).
    auto.
  Qed.

  (** ** C41 *)

  Lemma text_failing : forall g w sg, sticky w -> unused w ->
    collect_group (text_encoder ryu bd) g (text_new (good_writer [])) = (sg, ROk) ->
    exists s r rest, collect_group (text_encoder ryu bd) g (text_new w) = (s, r) /\
      w_out (te_writer sg) = w_out (te_writer s) ++ rest /\
      (failed (te_writer s) -> r = RErr) /\
      (~ failed (te_writer s) -> r = ROk /\ rest = []).
  Proof.
    intros g w sg S [U0 U1] E. destruct (group_events_functional g []) as (evs & GE & _).
    rewrite (collect_group_events g evs GE) in *.
    assert (RG : reliable (good_writer [])) by (intros k; reflexivity).
    pose proof (events_reliable ryu bd evs TInfo (good_writer []) sg ROk RG E) as H.
    destruct (events_text ryu bd TInfo evs) as [[l t']|] eqn:X; [|discriminate].
    destruct H as (_ & _ & _ & O). cbn [w_out good_writer app] in O.
    destruct (do_events (text_encoder ryu bd) evs (text_new w)) as [s r] eqn:E'.
    assert (NF : ~ failed w) by (intros (i & k & L & _); lia).
    destruct (events_writes ryu bd evs TInfo l t' X w s r S NF E')
      as (_ & _ & [(NF' & -> & O' & _)|(FF & -> & p & q & EB & O')]).
    - exists s, ROk, []. rewrite app_nil_r, O, O', U0. cbn. repeat split; auto. contradiction.
    - exists s, RErr, q. rewrite O, O', U0, EB. cbn. repeat split; auto; contradiction.
  Qed.

  (** ** C39 *)

  (** Equal up to the number of calls of a writer that never fails. *)
  Definition same (a b : text_enc) : Prop :=
    te_state a = te_state b /\ w_out (te_writer a) = w_out (te_writer b) /\
    reliable (te_writer a) /\ reliable (te_writer b).

  Definition respects (a : io text_enc) : Prop := forall s1 s2, same s1 s2 ->
    same (fst (a s1)) (fst (a s2)) /\ snd (a s1) = snd (a s2).

  Lemma wr_respects : forall b, respects (wr b).
  Proof.
    intros b s1 s2 (T & O & R1 & R2). unfold wr, write_all. destruct b as [|x b].
    - cbn. repeat split; auto.
    - rewrite R1, R2. cbn. repeat split; auto; cbn; try congruence.
  Qed.
  Lemma bindr_respects : forall a b, respects a -> respects b -> respects (a ;;? b).
  Proof.
    intros a b A B s1 s2 S. rewrite !bindr_ok. destruct (A s1 s2 S) as [S' R].
    destruct (a s1) as [s1' r1], (a s2) as [s2' r2]. cbn in *. subst r2.
    destruct r1; cbn; auto.
  Qed.
  Lemma ret_respects : respects ret_ok.
  Proof. intros s1 s2 S. auto. Qed.
  Lemma panic_respects : respects (fun s => (s, RPanic)).
  Proof. intros s1 s2 S. auto. Qed.
  Lemma set_state_respects : forall t, respects (set_state t).
  Proof. intros t s1 s2 (T & O & R1 & R2). repeat split; auto. Qed.
  Lemma line_respects : respects line_if_metrics.
  Proof.
    intros s1 s2 S. pose proof S as (T & _). unfold line_if_metrics. rewrite T.
    destruct (te_state s2); [auto|]. apply wr_respects, S.
  Qed.
  Lemma name_respects : forall n, respects (encode_utf8 wr n).
  Proof. induction n; cbn [encode_utf8]; auto using wr_respects, bindr_respects. Qed.
  Lemma escaped_respects : forall s p, respects (write_escaped s p).
  Proof.
    induction s as [|b s IH]; intros p; cbn [write_escaped]; auto using wr_respects.
    destruct (escape_byte b); auto using wr_respects, bindr_respects.
  Qed.
  Lemma write_value_respects : forall f n v, respects (write_value ryu f n v).
  Proof.
    intros f n v. unfold write_value. apply bindr_respects; [apply wr_respects|].
    apply bindr_respects; [apply wr_respects|].
    assert (forall x, respects (visitor_write_str x)).
    { intros x. unfold visitor_write_str, write_label_str_value.
      auto using wr_respects, bindr_respects, escaped_respects. }
    destruct v; cbn [visit_value]; auto.
  Qed.
  Lemma visit_values_respects : forall ls f s1 s2, same s1 s2 ->
    fst (visit_values ryu ls f s1) = fst (visit_values ryu ls f s2) /\
    same (snd (visit_values ryu ls f s1)) (snd (visit_values ryu ls f s2)).
  Proof.
    induction ls as [|[n v] ls IH]; intros f s1 s2 S; cbn [visit_values]; [auto|].
    apply IH. apply (write_value_respects f n v s1 s2 S).
  Qed.
  Lemma sample_respects : forall n ls v, respects (write_metric_value ryu n ls v).
  Proof.
    intros n ls v. unfold write_metric_value. apply bindr_respects; [apply set_state_respects|].
    apply bindr_respects; [apply name_respects|].
    intros s1 s2 S. destruct (visit_values_respects ls true s1 s2 S) as [F S'].
    destruct (visit_values ryu ls true s1) as [f1 s1'], (visit_values ryu ls true s2) as [f2 s2'].
    cbn in F, S'. subst f2.
    revert s1' s2' S'. change (respects ((if f1 then ret_ok else wr [125]) ;;?
      wr (str " ") ;;? wr (value_text ryu v) ;;? wr [10])).
    destruct f1; auto using wr_respects, bindr_respects, ret_respects.
  Qed.
  Lemma histogram_respects : forall ts bs inf sum val ls n,
    respects (collect_histogram ryu bd ts bs inf sum val ls n).
  Proof.
    assert (END : forall inf sum val ls n, respects (fun s =>
        match u_add bd val inf with
        | Panic => (s, RPanic)
        | Done count =>
          (write_metric_value ryu (NSuffix n Bucket) (compose_labels ls (le_label f_infinity))
             (VInt (u64_as_i64 count)) ;;?
           write_metric_value ryu (NSuffix n Sum) ls (VFloat sum) ;;?
           write_metric_value ryu (NSuffix n Count) ls (VInt (u64_as_i64 count))) s
        end)).
    { intros. destruct (u_add bd val inf) as [count|]; [|apply panic_respects].
      intros s1 s2 S.
      apply (bindr_respects _ _ (sample_respects _ _ _)
         (bindr_respects _ _ (sample_respects _ _ _) (sample_respects _ _ _)) s1 s2 S). }
    induction ts as [|t ts IH]; intros [|b bs] inf sum val ls n; cbn [collect_histogram]; try apply END.
    destruct (u_add bd val b) as [val'|]; [|apply panic_respects].
    intros s1 s2 S. apply (bindr_respects _ _ (sample_respects _ _ _) (IH _ _ _ _ _ _) s1 s2 S).
  Qed.
  Lemma event_respects : forall ev, respects (do_event (text_encoder ryu bd) ev).
  Proof.
    intros ev. destruct ev; cbn [do_event text_encoder e_help e_type e_collect].
    - unfold text_write_help. repeat apply bindr_respects;
        auto using wr_respects, set_state_respects, line_respects, name_respects.
    - unfold text_write_type. repeat apply bindr_respects;
        auto using wr_respects, set_state_respects, line_respects, name_respects.
    - destruct m; cbn [text_collect]; auto using sample_respects, histogram_respects.
    - apply panic_respects.
  Qed.

  (** A reliable writer never produces an error, so [unreachable] is never hit. *)
  Lemma event_no_error : forall ev s, reliable (te_writer s) ->
    do_event (buffered_encoder ryu bd) ev s = do_event (text_encoder ryu bd) ev s.
  Proof.
    intros ev s R.
    assert (K : snd (do_event (text_encoder ryu bd) ev s) <> RErr).
    { destruct s as [t w]. cbn [te_writer] in R. change {| te_state := t; te_writer := w |} with (mk t w).
      destruct (event_text ryu bd t ev) as [[l t']|] eqn:E.
      - destruct (writes_reliable _ _ _ _ w (event_writes ryu bd _ _ _ _ E) R) as (w' & -> & _). cbn. discriminate.
      - destruct (event_panics ryu bd t ev w R E) as (s' & ->). cbn. discriminate. }
    destruct ev; cbn [do_event buffered_encoder text_encoder e_help e_type e_collect] in *; try reflexivity;
      unfold unreachable.
    - destruct (text_write_help (name_of namespaces base) help s) as [s' []]; auto; cbn in K; congruence.
    - destruct (text_write_type (name_of namespaces base) (text_kind k) s) as [s' []]; auto; cbn in K; congruence.
    - destruct (text_collect ryu bd m ls (name_of namespaces base) s) as [s' []]; auto; cbn in K; congruence.
  Qed.

  Lemma events_respects : forall evs s1 s2, same s1 s2 ->
    same (fst (do_events (buffered_encoder ryu bd) evs s1)) (fst (do_events (buffered_encoder ryu bd) evs s2)) /\
    snd (do_events (buffered_encoder ryu bd) evs s1) = snd (do_events (buffered_encoder ryu bd) evs s2).
  Proof.
    induction evs as [|ev evs IH]; intros s1 s2 S; cbn [do_events]; [auto|].
    pose proof S as (_ & _ & R1 & R2). rewrite !event_no_error by assumption.
    destruct (event_respects ev s1 s2 S) as [S' E].
    destruct (do_event (text_encoder ryu bd) ev s1) as [s1' r1], (do_event (text_encoder ryu bd) ev s2) as [s2' r2].
    cbn in S', E. subst r2. destruct r1; cbn; auto.
  Qed.

  Lemma buffered_is_text : forall evs s, reliable (te_writer s) ->
    do_events (buffered_encoder ryu bd) evs s = do_events (text_encoder ryu bd) evs s.
  Proof.
    induction evs as [|ev evs IH]; intros s R; cbn [do_events]; [reflexivity|].
    rewrite event_no_error by exact R.
    assert (S : same s s) by (repeat split; auto).
    destruct (event_respects ev s s S) as [(_ & _ & R' & _) _].
    destruct (do_event (text_encoder ryu bd) ev s) as [s' []]; auto.
  Qed.

  Lemma finish_same : forall s1 s2, same s1 s2 ->
    same (fst (buffered_finish s1)) buffered_new /\ snd (buffered_finish s1) = snd (buffered_finish s2).
  Proof.
    intros s1 s2 (T & O & R1 & R2). cbn. rewrite O. repeat split; auto.
  Qed.
End Text.

(** ** C39 *)

Lemma scrapes_fresh : forall ryu bd gs s, same s buffered_new ->
  scrapes ryu bd s gs = map (fun g => hd (ROk, Panic) (scrapes ryu bd buffered_new [g])) gs.
Proof.
  intros ryu bd. induction gs as [|g gs IH]; intros s S; [reflexivity|].
  cbn [scrapes map hd].
  destruct (group_events_functional g []) as (evs & GE & _).
  rewrite !(collect_group_events g evs GE).
  destruct (events_respects ryu bd evs s buffered_new S) as [S' E].
  destruct (do_events (buffered_encoder ryu bd) evs s) as [s1 r1].
  destruct (do_events (buffered_encoder ryu bd) evs buffered_new) as [s2 r2].
  cbn in S', E. subst r2.
  destruct (finish_same s1 s2 S') as [F1 F2].
  destruct (buffered_finish s1) as [s1' o1], (buffered_finish s2) as [s2' o2]. cbn in F1, F2. subst o2.
  cbn [hd]. f_equal. apply IH, F1.
Qed.

Lemma scrape_is_collection : forall ryu bd g s r,
  collect_group (text_encoder ryu bd) g (text_new (good_writer [])) = (s, r) ->
  scrapes ryu bd buffered_new [g] = [(r, Done (w_out (te_writer s)))].
Proof.
  intros ryu bd g s r E. destruct (group_events_functional g []) as (evs & GE & _).
  cbn [scrapes]. rewrite (collect_group_events g evs GE) in *.
  rewrite buffered_is_text by (intros k; reflexivity). unfold buffered_new. rewrite E. reflexivity.
Qed.

Lemma never_unreachable : forall ryu bd g s, reliable (te_writer s) ->
  collect_group (buffered_encoder ryu bd) g s = collect_group (text_encoder ryu bd) g s.
Proof.
  intros ryu bd g s R. destruct (group_events_functional g []) as (evs & GE & _).
  rewrite !(collect_group_events g evs GE). apply buffered_is_text, R.
Qed.

(** ** C40 *)

Lemma help_single_line : forall nss base h w, Forall valid_metric_name (base :: nss) -> ~ In 10 h -> reliable w ->
  exists s line, text_write_help (name_of nss base) h (text_new w) = (s, ROk) /\
    w_out (te_writer s) = w_out w ++ line ++ [10] /\ ~ In 10 line /\
    line = str "# HELP " ++ full_name nss base [] ++ str " " ++ h.
Proof.
  intros nss base h w V NL R.
  pose proof (event_writes (fun _ => []) Release TInfo (EvHelp nss base h) _ _ eq_refl) as W.
  destruct (writes_reliable _ _ _ _ w W R) as (w' & E & _ & O).
  exists (mk TInfo w'), (help_line (name_of nss base) h). unfold text_new.
  split; [exact E|]. split; [cbn [te_writer mk]; rewrite O; unfold unlines; cbn [gap app map concat]; now rewrite app_nil_r|].
  unfold help_line. rewrite name_of_bytes. split; [|reflexivity].
  rewrite !in_app_iff. intros [I|[I|[I|I]]]; [| | |contradiction].
  - revert I. cbn. intuition discriminate.
  - rewrite <- name_of_bytes in I. apply (name_no_newline _ (name_bytes_valid _ (name_of_valid nss base V)) I).
  - revert I. cbn. intuition discriminate.
Qed.

(** ** C19 *)

Lemma events_items_one : forall ryu t ev items t', events_items ryu t [ev] items t' -> event_items ryu t ev items t'.
Proof. intros ryu t ev items t' H. inversion H; subst. inversion H6; subst. rewrite app_nil_r. assumption. Qed.

Lemma counter_shown : forall ryu bd nss base ls c w, float_text_ok ryu ->
  Forall valid_metric_name (base :: nss) -> labels_valid ls -> c < 2 ^ 64 -> reliable w ->
  exists s out i, text_collect ryu bd (MCounter c) ls (name_of nss base) (text_new w) = (s, ROk) /\
    w_out (te_writer s) = w_out w ++ out /\ parse out = Some [i] /\
    int_sample ryu (full_name nss base []) ls (if (c <? 2 ^ 63)%N then Z.of_N c else Z.of_N c - 2 ^ 64)%Z i.
Proof.
  intros ryu bd nss base ls c w RY V LV C R.
  assert (X : text_collect ryu bd (MCounter c) ls (name_of nss base) =
              text_collect ryu bd (MGauge (u64_as_i64 c)) ls (name_of nss base)) by reflexivity.
  assert (Y : u64_as_i64 c = (if (c <? 2 ^ 63)%N then Z.of_N c else Z.of_N c - 2 ^ 64)%Z).
  { unfold u64_as_i64, to_i64, W64. cbv zeta.
    rewrite Z.mod_small by lia.
    destruct (N.ltb_spec c (2 ^ 63)), (Z.ltb_spec (Z.of_N c) (2 ^ 63)); lia. }
  rewrite X, Y. set (z := (if (c <? 2 ^ 63)%N then Z.of_N c else Z.of_N c - 2 ^ 64)%Z).
  assert (OK : Forall event_ok [EvSample nss base ls (MGauge z)]).
  { constructor; [|constructor]. cbn [event_ok metric_in_range]. repeat split; auto; unfold z;
      destruct (N.ltb_spec c (2 ^ 63)); lia. }
  destruct (do_events (text_encoder ryu bd) [EvSample nss base ls (MGauge z)] (text_new w)) as [s r] eqn:E.
  destruct (text_run_parses ryu bd RY _ TInfo w s r OK R E) as (out & items & -> & O & _ & P & EI).
  cbn [do_events do_event text_encoder e_collect] in E.
  destruct (text_collect ryu bd (MGauge z) ls (name_of nss base) (text_new w)) as [s0 r0] eqn:E0.
  assert (K : (s0, r0) = (s, ROk)) by (destruct r0; congruence).
  injection K as -> ->. apply events_items_one in EI. rename EI into E1.
  destruct E1 as (part & (i & -> & SH) & [(h & PH & HH & -> & _)|(_ & _ & -> & _)]).
  - injection PH as <-. destruct SH as (ts & v & -> & _). destruct HH.
  - exists s, out, i. auto.
Qed.
