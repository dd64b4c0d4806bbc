(** The protobuf stream decodes to the families collected. *)
From Coq Require Import String List NArith ZArith Bool Lia ZifyBool ZifyN ZifyNat SpecFloat.
From Verif Require Import Base BaseFacts Writer NameModel NameSpec NameProofs LabelModel FloatModel FloatFacts
  EncoderModel TextModel TextSpec EncoderSpec EncoderProofs TextProofs TextParseProofs ProtoModel ProtoSpec
  ProtoProofs ProtoSim.
Import ListNotations.
Local Open Scope N_scope.

(** ** Fields of groups and events *)

Lemma family_content_events : forall nss base help f r, family_content nss base help f = Some r ->
  rf_events r = match help with Some h => [EvHelp nss base h] | None => [] end ++ family_events nss base f.
Proof.
  induction f as [m|k s|f IH|]; intros r H; cbn [family_content family_events] in *.
  - inversion H; subst. reflexivity.
  - destruct s; inversion H; subst. reflexivity.
  - auto.
  - inversion H; subst. unfold rf_events. cbn. reflexivity.
Qed.

Lemma families_events_aux :
  (forall nss g fs, group_families nss g fs -> group_events nss g (concat (map rf_events fs))) /\
  (forall nss fl fs, fields_families nss fl fs -> fields_events nss fl (concat (map rf_events fs))).
Proof.
  apply group_fields_families_ind; intros; cbn [map concat]; rewrite ?map_app, ?concat_app; try (constructor; assumption).
  - apply family_content_events in e. rewrite e. cbn [app]. constructor. assumption.
  - apply family_content_events in e. rewrite e. cbn [app]. apply FE_documented; assumption.
Qed.

Lemma families_events : forall g fs, group_families [] g fs -> group_events [] g (concat (map rf_events fs)).
Proof. intros. now apply families_events_aux. Qed.

Lemma family_content_total : forall nss base help f, ~ In EvPanic (family_events nss base f) ->
  exists r, family_content nss base help f = Some r.
Proof.
  induction f as [m|k s|f IH|]; intros H; cbn [family_content family_events] in *; eauto.
  destruct s; eauto. exfalso. apply H. cbn. auto.
Qed.

Lemma families_total_aux :
  (forall nss g l, group_events nss g l -> ~ In EvPanic l -> exists fs, group_families nss g fs) /\
  (forall nss fl l, fields_events nss fl l -> ~ In EvPanic l -> exists fs, fields_families nss fl fs).
Proof.
  apply group_fields_events_ind; intros; try (now eexists; constructor);
    try (exfalso; match goal with H : ~ In EvPanic [EvPanic] |- _ => apply H; left; reflexivity end);
    repeat match goal with
    | H : ~ In EvPanic (_ :: _) |- _ => apply not_in_cons in H; destruct H as [_ H]
    | H : ~ In EvPanic (_ ++ _) |- _ =>
      pose proof (fun X => H (in_or_app _ _ _ (or_introl X)));
      pose proof (fun X => H (in_or_app _ _ _ (or_intror X))); clear H
    | IH : ~ In EvPanic ?l -> exists fs, _, H : In EvPanic ?l -> False |- _ => destruct (IH H); clear IH
    | IH : ~ In EvPanic ?l -> exists fs, _, H : ~ In EvPanic ?l |- _ => destruct (IH H); clear IH
    end; try (eexists; econstructor; eassumption).
  - destruct (family_content_total nss (match rename with Some r => r | None => name end) None f) as [r E]; [assumption|].
    eexists. econstructor; eassumption.
  - destruct (family_content_total nss (match rename with Some r => r | None => name end) (Some help) f) as [r E]; [assumption|].
    eexists. eapply FF_documented; eassumption.
Qed.

Lemma families_total : forall g l, group_events [] g l -> ~ In EvPanic l -> exists fs, group_families [] g fs.
Proof. intros. now eapply families_total_aux; eauto. Qed.

(** ** Decoding *)

Lemma read_into_app : forall A (field : A -> N -> wire -> option A) l1 l2 a,
  read_into field a (l1 ++ l2) = match read_into field a l1 with Some a' => read_into field a' l2 | None => None end.
Proof.
  induction l1 as [|[t w] l1 IH]; intros l2 a; cbn [app read_into]; [reflexivity|].
  destruct (field a t w); auto.
Qed.

Lemma nlen_body_in : forall l f, In f l -> nlen (enc_field f) <= nlen (enc_fields l).
Proof.
  induction l as [|g l IH]; intros f H; [destruct H|].
  change (enc_fields (g :: l)) with (enc_field g ++ enc_fields l). rewrite nlen_app.
  destruct H as [->|H]; [lia|]. specialize (IH _ H). lia.
Qed.

Lemma enc_bytes_ge : forall t b, nlen b <= nlen (enc_field (t, WBytes b)).
Proof. intros. unfold enc_field. cbn [fst snd]. rewrite !nlen_app. lia. Qed.

Definition scalar_small (f : N * wire) : Prop :=
  known_tag (fst f) /\ match snd f with WVarint v | WFixed64 v => v < 2 ^ 64 | WBytes _ => True end.

Lemma fields_small : forall l, Forall scalar_small l -> nlen (enc_fields l) < 2 ^ 64 -> Forall field_small l.
Proof.
  intros l F L. rewrite Forall_forall in *. intros [t w] H. specialize (F _ H). destruct F as [K S].
  split; [exact K|]. destruct w as [v|v|b]; try exact S. cbn [fst snd] in *.
  pose proof (nlen_body_in _ _ H). pose proof (enc_bytes_ge t b). lia.
Qed.

Lemma read_message_fields : forall A (field : A -> N -> wire -> option A) a l,
  Forall scalar_small l -> nlen (enc_fields l) < 2 ^ 64 ->
  read_message field a (enc_fields l) = read_into field a l.
Proof.
  intros A field a l F L. unfold read_message. rewrite read_enc_fields; [reflexivity|]. now apply fields_small.
Qed.

Ltac known := unfold known_tag; cbn [fst]; lia.

Section Decode.
  Variable ryu : f64 -> bytes.

  Lemma value_shows : forall v, label_shows ryu v (proto_value_text ryu v).
  Proof.
    intros [z|x|b]; cbn [label_shows proto_value_text]; [apply read_itoa| |reflexivity].
    unfold f_decode, f_is_infinite, f_is_nan, f_is_sign_positive.
    destruct (f_exp x =? 2047); cbn [andb].
    - destruct (f_mant x =? 0); cbn [negb]; [|reflexivity]. destruct (f_sign x); reflexivity.
    - destruct (if f_exp x =? 0 then f_mant x else f_mant x + 2 ^ 52); reflexivity.
  Qed.

  Definition pair_of (l : bytes * lvalue) : label_pair :=
    {| lp_name := Some (fst l); lp_value := Some (proto_value_text ryu (snd l)) |}.

  Lemma pair_of_shows : forall ls, Forall2 (pair_shows ryu) ls (map pair_of ls).
  Proof.
    induction ls as [|l ls IH]; cbn [map]; constructor; [|exact IH].
    split; [reflexivity|]. eexists. split; [reflexivity|]. apply value_shows.
  Qed.

  Lemma read_pair : forall l, nlen (enc_fields (pair_fields ryu (fst l) (snd l))) < 2 ^ 64 ->
    read_message label_pair_field empty_label_pair (enc_fields (pair_fields ryu (fst l) (snd l))) = Some (pair_of l).
  Proof.
    intros l L. rewrite read_message_fields; [reflexivity| |exact L].
    repeat constructor; known.
  Qed.

  Lemma read_value : forall a x, x < 2 ^ 64 ->
    read_message value_field a (enc_fields (value_fields x)) = Some (Some x).
  Proof.
    intros a x X. rewrite read_message_fields; [reflexivity| |].
    - constructor; [|constructor]. split; [known|exact X].
    - unfold value_fields. rewrite enc_fields_one. change (enc_field (1, WFixed64 x)) with (double_encode 1 x).
      rewrite double_len_exact by known. reflexivity.
  Qed.

  Lemma read_labels : forall ls a, nlen (enc_fields (map (label_field ryu) ls)) < 2 ^ 64 ->
    read_into pmetric_field a (map (label_field ryu) ls) =
    Some {| pm_labels := pm_labels a ++ map pair_of ls; pm_gauge := pm_gauge a; pm_counter := pm_counter a |}.
  Proof.
    induction ls as [|l ls IH]; intros a L; cbn [map read_into].
    - rewrite app_nil_r. destruct a; reflexivity.
    - cbn [map] in L. change (enc_fields (label_field ryu l :: map (label_field ryu) ls))
        with (enc_field (label_field ryu l) ++ enc_fields (map (label_field ryu) ls)) in L.
      rewrite nlen_app in L. unfold label_field at 1.
      pose proof (enc_bytes_ge 1 (enc_fields (pair_fields ryu (fst l) (snd l)))) as G.
      unfold label_field in L at 1. cbn [pmetric_field N.eqb Pos.eqb]. change (1 =? 1) with true. cbn iota.
      rewrite read_pair by lia. cbn [option_map]. rewrite IH by lia. cbn [pm_labels pm_gauge pm_counter].
      now rewrite <- app_assoc.
  Qed.

  Definition pm_of (ls : labels) (m : metric) : pmetric :=
    match m with
    | MCounter c => {| pm_labels := map pair_of ls; pm_gauge := None; pm_counter := Some (Some (f_of_Z (Z.of_N c))) |}
    | MGauge z => {| pm_labels := map pair_of ls; pm_gauge := Some (Some (f_of_Z z)); pm_counter := None |}
    | MFloatGauge x => {| pm_labels := map pair_of ls; pm_gauge := Some (Some x); pm_counter := None |}
    | MHistogram _ _ _ _ => {| pm_labels := map pair_of ls; pm_gauge := Some (Some 0); pm_counter := None |}
    end.

  Lemma pm_of_shows : forall p, metric_kind (snd p) <> KHistogram ->
    sample_shows ryu (fun z x => x = f_of_Z z) p (pm_of (fst p) (snd p)).
  Proof.
    intros [ls m] K. unfold sample_shows. cbn [fst snd] in *.
    destruct m; cbn [pm_of pm_labels pm_gauge pm_counter metric_kind] in *; (split; [apply pair_of_shows|]); eauto; congruence.
  Qed.

  Definition op_apply (a : pfamily) (o : op) : pfamily :=
    match o with
    | OName b => {| pf_name := Some b; pf_help := pf_help a; pf_type := pf_type a; pf_metrics := pf_metrics a |}
    | OHelp b => {| pf_name := pf_name a; pf_help := Some b; pf_type := pf_type a; pf_metrics := pf_metrics a |}
    | OType k => {| pf_name := pf_name a; pf_help := pf_help a; pf_type := Some k; pf_metrics := pf_metrics a |}
    | OSample ls m => {| pf_name := pf_name a; pf_help := pf_help a; pf_type := pf_type a;
                         pf_metrics := pf_metrics a ++ [pm_of ls m] |}
    end.
  Definition content (ops : list op) : pfamily := fold_left op_apply ops empty_pfamily.

  Definition op_ok (o : op) : Prop :=
    match o with
    | OType k => k < 2
    | OSample _ m => bits_ok m
    | _ => True
    end.

  Lemma read_sample : forall ls tag x, nlen (enc_field (metric_field ryu tag ls x)) < 2 ^ 64 -> x < 2 ^ 64 ->
    tag = 2 \/ tag = 3 ->
    read_message pmetric_field empty_pmetric (enc_fields (metric_fields ryu tag ls x)) =
    Some {| pm_labels := map pair_of ls; pm_gauge := (if tag =? 2 then Some (Some x) else None);
            pm_counter := (if tag =? 2 then None else Some (Some x)) |}.
  Proof.
    intros ls tag x L X T. unfold metric_field in L.
    pose proof (enc_bytes_ge 4 (enc_fields (metric_fields ryu tag ls x))) as G.
    assert (L' : nlen (enc_fields (metric_fields ryu tag ls x)) < 2 ^ 64) by lia.
    rewrite read_message_fields; [|clear -T|exact L'].
    - unfold metric_fields in *. rewrite enc_fields_app, nlen_app in L'. rewrite read_into_app, read_labels by lia.
      cbn [read_into]. destruct T as [->| ->]; unfold pmetric_field.
      + change (2 =? 1) with false. change (2 =? 2) with true. cbn iota. rewrite read_value by exact X. reflexivity.
      + change (3 =? 1) with false. change (3 =? 2) with false. change (3 =? 3) with true. cbn iota.
        rewrite read_value by exact X. reflexivity.
    - unfold metric_fields. apply Forall_app. split.
      + apply Forall_forall. intros f H. apply in_map_iff in H. destruct H as (l & <- & _). split; [left; reflexivity|exact I].
      + constructor; [|constructor]. split; [known|exact I].
  Qed.

  Lemma read_op : forall a o, op_ok o -> nlen (enc_field (op_field ryu o)) < 2 ^ 64 ->
    pfamily_field a (fst (op_field ryu o)) (snd (op_field ryu o)) = Some (op_apply a o).
  Proof.
    intros a o O L. destruct o as [b|b|k|ls m]; try reflexivity.
    assert (S : forall tag x, sample_field ryu ls m = metric_field ryu tag ls x -> x < 2 ^ 64 -> tag = 2 \/ tag = 3 ->
      pm_of ls m = {| pm_labels := map pair_of ls; pm_gauge := (if tag =? 2 then Some (Some x) else None);
            pm_counter := (if tag =? 2 then None else Some (Some x)) |} ->
      pfamily_field a (fst (op_field ryu (OSample ls m))) (snd (op_field ryu (OSample ls m))) = Some (op_apply a (OSample ls m))).
    { intros tag x E X T P. cbn [op_field op_apply] in *. rewrite P. rewrite E in *. unfold metric_field. cbn [fst snd].
      unfold pfamily_field. change (4 =? 1) with false. change (4 =? 2) with false. change (4 =? 3) with false.
      change (4 =? 4) with true. cbn iota. rewrite read_sample by assumption. reflexivity. }
    destruct m as [c|z|x|ts bs i sm]; cbn [op_ok bits_ok] in O.
    - apply (S 3 (f_of_Z (Z.of_N c))); [reflexivity|apply f_of_Z_bound|auto|reflexivity].
    - apply (S 2 (f_of_Z z)); [reflexivity|apply f_of_Z_bound|auto|reflexivity].
    - apply (S 2 x); [reflexivity|exact O|auto|reflexivity].
    - apply (S 2 0); [reflexivity|reflexivity|auto|reflexivity].
  Qed.

  Lemma read_ops : forall ops a, Forall op_ok ops -> nlen (body ryu ops) < 2 ^ 64 ->
    read_into pfamily_field a (map (op_field ryu) ops) = Some (fold_left op_apply ops a).
  Proof.
    induction ops as [|o ops IH]; intros a F L; cbn [map read_into fold_left]; [reflexivity|].
    inversion F; subst. change (body ryu (o :: ops)) with (enc_field (op_field ryu o) ++ body ryu ops) in L.
    rewrite nlen_app in L. destruct (op_field ryu o) as [t w] eqn:E.
    pose proof (read_op a o H1) as R. rewrite E in R. cbn [fst snd] in R. rewrite R by lia. apply IH; [assumption|lia].
  Qed.

  Lemma read_body : forall ops, Forall op_ok ops -> nlen (body ryu ops) < 2 ^ 64 ->
    read_message pfamily_field empty_pfamily (body ryu ops) = Some (content ops).
  Proof.
    intros ops F L. unfold body in *. rewrite read_message_fields; [apply read_ops; assumption| |exact L].
    apply Forall_forall. intros f H. apply in_map_iff in H. destruct H as (o & <- & H).
    rewrite Forall_forall in F. specialize (F _ H). destruct o as [b|b|k|ls m]; split; cbn [op_field fst snd op_ok] in *;
      try known; try exact I; [unfold known_tag; destruct m; cbn; tauto|destruct m; exact I].
  Qed.

  Lemma read_frames : forall Os, Forall (Forall op_ok) Os -> nlen (concat (map (frame ryu) Os)) < 2 ^ 64 ->
    read_stream (concat (map (frame ryu) Os)) = Some (map content Os).
  Proof.
    intros Os F L. unfold read_stream.
    assert (G : forall n, (length (concat (map (frame ryu) Os)) <= n)%nat ->
      read_stream_upto n (concat (map (frame ryu) Os)) = Some (map content Os)).
    { induction F as [|ops Os FO _ IH]; intros n LE; [destruct n; reflexivity|]. cbn [map concat] in *.
      rewrite nlen_app in L. unfold frame at 1 in L. rewrite nlen_app in L.
      unfold frame at 1 in LE. rewrite !app_length in LE.
      destruct (encode_varint (nlen (body ryu ops))) as [|x v] eqn:V; [now apply encode_varint_cons in V|].
      cbn [length] in LE. destruct n as [|n]; [lia|].
      destruct (frame ryu ops ++ concat (map (frame ryu) Os)) as [|y z] eqn:X;
        [unfold frame in X; rewrite V in X; discriminate|].
      cbn [read_stream_upto]. rewrite <- X. unfold frame at 1. rewrite <- app_assoc.
      rewrite read_varint_encode by lia. rewrite take_app, read_body by (assumption || lia).
      rewrite IH by lia. reflexivity. }
    apply G. lia.
  Qed.
End Decode.

(** ** Families *)

Definition headed (o : op) : Prop := match o with OSample _ _ => False | _ => True end.
Definition unhelped (o : op) : Prop := match o with OSample _ _ | OHelp _ => False | _ => True end.
Definition ops_of (l : list (labels * metric)) : list op := map (fun p => OSample (fst p) (snd p)) l.

Section Families.
  Variable ryu : f64 -> bytes.
  Notation content := (content ryu).
  Notation nearest := (fun z x => x = f_of_Z z).

  Lemma fold_samples : forall l g, l <> [] ->
    fold_left (fun g p => g_sample (fst p) (snd p) g) l g = g_add PMetrics (ops_of l) g.
  Proof.
    assert (G : forall l g, fold_left (fun g p => g_sample (fst p) (snd p) g) l g =
      match l with [] => g | _ => g_add PMetrics (ops_of l) g end).
    { induction l as [|p l IH]; intros g; cbn [fold_left]; [reflexivity|]. rewrite IH.
      unfold g_sample. destruct l as [|q l]; [reflexivity|]. rewrite add_add. reflexivity. }
    intros l g N. rewrite G. destruct l; [congruence|reflexivity].
  Qed.

  Lemma apply_samples : forall l a, fold_left (op_apply ryu) (ops_of l) a =
    {| pf_name := pf_name a; pf_help := pf_help a; pf_type := pf_type a;
       pf_metrics := pf_metrics a ++ map (fun p => pm_of ryu (fst p) (snd p)) l |}.
  Proof.
    induction l as [|p l IH]; intros a; cbn [ops_of map fold_left]; [rewrite app_nil_r; destruct a; reflexivity|].
    fold (ops_of l). rewrite IH. cbn. now rewrite <- app_assoc.
  Qed.

  Lemma content_app : forall a b, content (a ++ b) = fold_left (op_apply ryu) b (content a).
  Proof. intros. unfold content. apply fold_left_app. Qed.

  Lemma headed_metrics : forall ops, Forall headed ops -> pf_metrics (content ops) = [].
  Proof.
    intros ops. unfold content, ProtoTheorems.content.
    assert (G : forall a, pf_metrics a = [] -> Forall headed ops -> pf_metrics (fold_left (op_apply ryu) ops a) = []).
    { induction ops as [|o ops IH]; intros a A F; [exact A|]. cbn [fold_left]. inversion F; subst.
      apply IH; [|assumption]. destruct o; cbn in *; [exact A|exact A|exact A|destruct H1]. }
    intros. now apply G.
  Qed.

  Lemma unhelped_help : forall ops, Forall unhelped ops -> pf_help (content ops) = None.
  Proof.
    intros ops. unfold content, ProtoTheorems.content.
    assert (G : forall a, pf_help a = None -> Forall unhelped ops -> pf_help (fold_left (op_apply ryu) ops a) = None).
    { induction ops as [|o ops IH]; intros a A F; [exact A|]. cbn [fold_left]. inversion F; subst.
      apply IH; [|assumption]. destruct o; cbn in *; [exact A|destruct H1|exact A|exact A]. }
    intros. now apply G.
  Qed.

  Lemma unhelped_headed : forall o, unhelped o -> headed o.
  Proof. intros []; cbn; auto. Qed.

  Lemma samples_show : forall l, Forall (fun p => metric_kind (snd p) <> KHistogram) l ->
    Forall2 (sample_shows ryu nearest) l (map (fun p => pm_of ryu (fst p) (snd p)) l).
  Proof.
    induction 1 as [|p l K _ IH]; cbn [map]; constructor; [now apply pm_of_shows|exact IH].
  Qed.

  Definition shows (f : rfamily) (ops : list op) : Prop := family_shows ryu nearest f (content ops).

  Lemma rf_ok_kinds : forall f, rf_ok f -> Forall (fun p => metric_kind (snd p) <> KHistogram) (rf_samples f).
  Proof.
    intros f OK. unfold rf_ok in OK. destruct (rf_kind f) as [k|].
    - destruct OK as [K F]. eapply Forall_impl; [|exact F]. cbn. intros p ->. exact K.
    - rewrite OK. constructor.
  Qed.

  (** The sequences that are not misleading; [pend] says that a documented family
      without samples waits for samples. *)
  Fixpoint safe (pend : bool) (fs : list rfamily) : Prop :=
    match fs with
    | [] => True
    | f :: rest =>
      match rf_help f, rf_samples f with
      | Some _, [] => safe true rest
      | Some _, _ => safe false rest
      | None, [] => safe pend rest
      | None, _ => pend = false /\ safe false rest
      end
    end.

  Lemma safe_false : forall fs, safe true fs -> safe false fs.
  Proof.
    induction fs as [|f fs IH]; cbn [safe]; [auto|]. destruct (rf_help f), (rf_samples f); auto.
    intros [H _]. discriminate.
  Qed.

  Lemma not_misleading_safe : forall fs, ~ misleading fs -> safe false fs.
  Proof.
    intros fs.
    assert (G : forall pend fs, ~ misleading fs ->
      (pend = true -> ~ exists mid b post, fs = mid ++ b :: post /\ Forall (fun f => ~ documented f /\ empty f) mid /\
        ~ documented b /\ ~ empty b) -> safe pend fs).
    { clear fs. intros pend fs. revert pend. induction fs as [|f fs IH]; intros pend NM P; cbn [safe]; [exact I|].
      assert (NM' : ~ misleading fs).
      { intros (pre & a & mid & b & post & E & H). apply NM. exists (f :: pre), a, mid, b, post. split; [now rewrite E|exact H]. }
      destruct (rf_help f) as [h|] eqn:H, (rf_samples f) as [|q l] eqn:S.
      - apply IH; [exact NM'|]. intros _ (mid & b & post & E & M & B). apply NM.
        exists [], f, mid, b, post. split; [now rewrite E|]. split; [unfold documented; congruence|]. split; [exact S|]. auto.
      - apply IH; [exact NM'|]. discriminate.
      - apply IH; [exact NM'|]. intros HP (mid & b & post & E & M & B). apply (P HP). exists (f :: mid), b, post.
        split; [now rewrite E|]. split; [|exact B]. constructor; [|exact M]. unfold documented, empty. rewrite H, S. auto.
      - split.
        + destruct pend; [|reflexivity]. exfalso. apply (P eq_refl). exists [], f, fs. split; [reflexivity|].
          split; [constructor|]. unfold documented, empty. rewrite H, S. split; [auto|discriminate].
        + apply IH; [exact NM'|]. discriminate. }
    intros NM. apply G; [exact NM|]. discriminate.
  Qed.

  (** Between families: what has been emitted and what waits. *)
  Inductive between (done : list rfamily) (pend : bool) : ghost -> Prop :=
  | B_metrics : forall d f cur out, done = d ++ [f] -> Forall2 shows d out -> shows f cur ->
      between done pend {| g_st := PMetrics; g_cur := cur; g_out := out |}
  | B_init : forall cur out, Forall2 shows done out -> Forall unhelped cur ->
      between done pend {| g_st := PInit; g_cur := cur; g_out := out |}
  | B_help : forall cur out, Forall2 shows done out -> Forall headed cur -> pend = true ->
      between done pend {| g_st := PHelp; g_cur := cur; g_out := out |}.

  Lemma between_flush : forall done pend g, between done pend g ->
    between done pend (g_flush g) /\ g_st (g_flush g) <> PMetrics.
  Proof.
    intros done pend g B. destruct B as [d f cur out -> D S|cur out D U|cur out D U P]; cbn.
    - split; [|discriminate]. apply B_init; [|constructor]. apply Forall2_app; [exact D|]. constructor; [exact S|constructor].
    - split; [now constructor|discriminate].
    - split; [now constructor|discriminate].
  Qed.

  Lemma between_weaken : forall done g, between done false g -> between done true g.
  Proof. intros done g B. destruct B; [eapply B_metrics; eauto|now constructor|now constructor]. Qed.

  Definition next_pend (pend : bool) (f : rfamily) : bool :=
    match rf_help f, rf_samples f with
    | Some _, [] => true
    | None, [] => pend
    | _, _ => false
    end.

  Lemma shows_intro : forall f ops, rf_ok f -> Forall headed ops ->
    pf_name (content ops) = Some (fname f) -> pf_help (content ops) = rf_help f ->
    pf_type (content ops) = option_map kind_number (rf_kind f) -> shows f (ops ++ ops_of (rf_samples f)).
  Proof.
    intros f ops OK H E1 E2 E3. unfold shows, family_shows. rewrite content_app, apply_samples.
    cbn [pf_name pf_help pf_type pf_metrics]. rewrite headed_metrics by exact H.
    repeat split; auto. apply samples_show. now apply rf_ok_kinds.
  Qed.

  Lemma between_step : forall done pend f g, rf_ok f -> between done pend g ->
    (rf_help f = None -> rf_samples f <> [] -> pend = false) ->
    between (done ++ with_samples [f]) (next_pend pend f) (g_family f g).
  Proof.
    intros done pend f g OK B SF. unfold g_family, next_pend, with_samples. cbv zeta. cbn [filter].
    pose proof (between_flush _ _ _ B) as [FB NM].
    destruct (rf_help f) as [h|] eqn:H.
    - (* documented *)
      set (g1 := g_help (fname f) h g).
      assert (G1 : exists cur out, g1 = {| g_st := PHelp; g_cur := cur ++ [OName (fname f); OHelp h]; g_out := out |} /\
        Forall2 shows done out /\ Forall headed cur).
      { subst g1. unfold g_help. destruct (g_flush g) as [st cur out]. inversion FB; subst.
        - now elim NM.
        - exists cur, out. split; [reflexivity|]. split; [assumption|]. eapply Forall_impl; [apply unhelped_headed|assumption].
        - exists cur, out. auto. }
      destruct G1 as (cur & out & G1 & D & HC). rewrite G1. clear g1 G1.
      assert (HH : Forall headed (cur ++ [OName (fname f); OHelp h])).
      { apply Forall_app. split; [exact HC|]. repeat constructor. }
      assert (N1 : pf_name (content (cur ++ [OName (fname f); OHelp h])) = Some (fname f)) by (rewrite content_app; reflexivity).
      assert (N2 : pf_help (content (cur ++ [OName (fname f); OHelp h])) = Some h) by (rewrite content_app; reflexivity).
      set (cur1 := cur ++ [OName (fname f); OHelp h]) in *. clearbody cur1.
      destruct (rf_kind f) as [k|] eqn:K.
      + unfold g_type, g_flush. cbn [g_st g_add g_cur g_out]. destruct (rf_samples f) as [|p l] eqn:S.
        * cbn [fold_left]. rewrite app_nil_r. apply B_help; [exact D| |reflexivity].
          apply Forall_app. split; [exact HH|repeat constructor].
        * rewrite fold_samples by discriminate. unfold g_add. cbn [g_cur g_out]. eapply B_metrics; [reflexivity|exact D|].
          rewrite <- S. apply shows_intro; [exact OK| | | |].
          -- apply Forall_app. split; [exact HH|repeat constructor].
          -- rewrite content_app. exact N1.
          -- rewrite content_app, H. exact N2.
          -- rewrite content_app, K. reflexivity.
      + unfold rf_ok in OK. rewrite K in OK. rewrite OK. cbn [fold_left]. rewrite app_nil_r. now apply B_help.
    - (* undocumented *)
      destruct (rf_kind f) as [k|] eqn:K.
      + unfold g_type. cbv zeta. destruct (g_flush g) as [st cur out] eqn:FG. cbn [g_st] in *.
        destruct (rf_samples f) as [|p l] eqn:S.
        * cbn [fold_left]. rewrite app_nil_r. inversion FB; subst; [now elim NM| |]; unfold g_add; cbn [g_cur g_out].
          -- apply B_init; [assumption|]. apply Forall_app. split; [assumption|repeat constructor].
          -- apply B_help; [assumption| |reflexivity]. apply Forall_app. split; [assumption|repeat constructor].
        * specialize (SF eq_refl ltac:(discriminate)). subst pend.
          inversion FB; subst; [now elim NM| |discriminate].
          rewrite fold_samples by discriminate. unfold g_add. cbn [g_cur g_out]. eapply B_metrics; [reflexivity|eassumption|].
          rewrite <- S. apply shows_intro; [exact OK| | | |].
          -- apply Forall_app. split; [|repeat constructor]. eapply Forall_impl; [apply unhelped_headed|assumption].
          -- rewrite content_app. reflexivity.
          -- rewrite H. apply unhelped_help. apply Forall_app. split; [assumption|repeat constructor].
          -- rewrite content_app, K. reflexivity.
      + unfold rf_ok in OK. rewrite K in OK. rewrite OK. cbn [fold_left]. rewrite app_nil_r. exact B.
  Qed.

  Lemma with_samples_app : forall a b, with_samples (a ++ b) = with_samples a ++ with_samples b.
  Proof. intros. unfold with_samples. apply filter_app. Qed.

  (** Scrapes on the ghost: the families of each group, then a flush. *)
  Definition g_scrapes (fss : list (list rfamily)) (g : ghost) : ghost :=
    fold_left (fun g fs => g_flush (fold_left (fun g f => g_family f g) fs g)) fss g.

  Lemma between_families : forall fs rest done pend g, Forall rf_ok fs -> between done pend g ->
    safe pend (fs ++ rest) ->
    exists pend', between (done ++ with_samples fs) pend' (fold_left (fun g f => g_family f g) fs g) /\ safe pend' rest.
  Proof.
    induction fs as [|f fs IH]; intros rest done pend g F B S; cbn [fold_left app] in *.
    - exists pend. rewrite app_nil_r. auto.
    - inversion F; subst.
      assert (S' : safe (next_pend pend f) (fs ++ rest) /\ (rf_help f = None -> rf_samples f <> [] -> pend = false)).
      { cbn [safe] in S. unfold next_pend. destruct (rf_help f), (rf_samples f); try (split; [assumption|congruence]).
        split; [apply S|]. intros. apply S. }
      destruct S' as [S1 S2].
      destruct (IH rest _ _ _ H2 (between_step _ _ _ _ H1 B S2) S1) as (pend' & B' & S').
      exists pend'. split; [|exact S']. change (f :: fs) with ([f] ++ fs). now rewrite with_samples_app, app_assoc.
  Qed.

  Lemma between_scrapes : forall fss done pend g, Forall rf_ok (concat fss) -> between done pend g ->
    g_st g <> PMetrics -> safe pend (concat fss) ->
    Forall2 shows (done ++ with_samples (concat fss)) (g_out (g_scrapes fss g)).
  Proof.
    induction fss as [|fs fss IH]; intros done pend g F B NM S; cbn [concat g_scrapes fold_left].
    - rewrite app_nil_r. destruct B; [now elim NM|assumption|assumption].
    - cbn [concat] in *. apply Forall_app in F. destruct F as [F1 F2].
      destruct (between_families fs (concat fss) done pend g F1 B S) as (pend' & B' & S').
      destruct (between_flush _ _ _ B') as [B2 N2].
      rewrite with_samples_app, app_assoc. apply (IH _ pend'); assumption.
  Qed.

  (** Every appended operation is fit for encoding. *)
  Definition g_ok (g : ghost) : Prop := Forall op_ok (g_cur g) /\ Forall (Forall op_ok) (g_out g).

  Lemma g_flush_ok : forall g, g_ok g -> g_ok (g_flush g).
  Proof.
    intros g [A B]. unfold g_flush. destruct (g_st g); try (split; assumption). split; cbn; [constructor|].
    apply Forall_app. split; [exact B|]. constructor; [exact A|constructor].
  Qed.
  Lemma g_add_ok : forall st ops g, Forall op_ok ops -> g_ok g -> g_ok (g_add st ops g).
  Proof. intros st ops g O [A B]. split; [|exact B]. apply Forall_app. auto. Qed.

  Lemma kind_number_small : forall k, kind_number k < 2.
  Proof. intros []; reflexivity. Qed.

  Lemma g_family_ok : forall f g, rf_bits_ok f -> g_ok g -> g_ok (g_family f g).
  Proof.
    intros f g BO G. unfold g_family. cbv zeta.
    set (g1 := match rf_help f with Some h => g_help (fname f) h g | None => g end).
    assert (G1 : g_ok g1).
    { subst g1. destruct (rf_help f); [|exact G]. apply g_add_ok; [|now apply g_flush_ok]. constructor; [exact I|]. constructor; [exact I|constructor]. }
    set (g2 := match rf_kind f with Some k => g_type (kind_number k) (fname f) g1 | None => g1 end).
    assert (G2 : g_ok g2).
    { subst g2. destruct (rf_kind f) as [k|]; [|exact G1]. pose proof (kind_number_small k) as KN.
      apply g_add_ok; [|now apply g_flush_ok].
      destruct (g_st (g_flush g1)); repeat (constructor; [exact I || exact KN|]); constructor. }
    clearbody g2. unfold rf_bits_ok in BO. revert g2 G2. induction BO as [|p l P _ IH]; intros g2 G2; cbn [fold_left]; [exact G2|].
    apply IH. apply g_add_ok; [|exact G2]. constructor; [exact P|constructor].
  Qed.

  Lemma g_scrapes_ok : forall fss g, Forall rf_bits_ok (concat fss) -> g_ok g -> g_ok (g_scrapes fss g).
  Proof.
    assert (FO : forall fs g, Forall rf_bits_ok fs -> g_ok g -> g_ok (fold_left (fun g f => g_family f g) fs g)).
    { induction fs as [|f fs IH]; intros g F G; cbn [fold_left]; [exact G|]. inversion F; subst.
      apply IH; [assumption|]. now apply g_family_ok. }
    induction fss as [|fs fss IH]; intros g F G; [exact G|]. cbn [concat] in F. apply Forall_app in F. destruct F as [F1 F2].
    cbn [g_scrapes fold_left]. apply IH; [exact F2|]. apply g_flush_ok. now apply FO.
  Qed.

  Lemma scrapes_rel : forall bd gs fss s g, Forall2 (group_families []) gs fss -> Forall rf_ok (concat fss) ->
    rel ryu s g -> exists s', proto_scrapes ryu bd gs s = (s', ROk) /\ rel ryu s' (g_scrapes fss g).
  Proof.
    intros bd gs fss s g F. revert s g. induction F as [|gr fs gs fss GF _ IH]; intros s g OK R; [exists s; auto|].
    cbn [concat] in OK. apply Forall_app in OK. destruct OK as [O1 O2]. cbn [proto_scrapes].
    rewrite bindr_ok, (collect_group_events _ _ (families_events _ _ GF)).
    destruct (families_rel ryu bd fs s g O1 R) as (s1 & -> & R1).
    rewrite bindr_ok. unfold proto_flush. rewrite bindr_ok.
    destruct (flush_rel ryu bd s1 _ R1) as (s2 & -> & R2).
    cbn [g_scrapes fold_left]. apply IH; [exact O2|]. left. exact R2.
  Qed.

  Lemma rel_out : forall s g, rel ryu s g -> w_out (pe_writer s) = concat (map (frame ryu) (g_out g)).
  Proof. intros s g [(_ & _ & O & _)|(_ & _ & O & _)]; exact O. Qed.

  Theorem proto_round_trip : forall bd gs fss w, Forall2 (group_families []) gs fss ->
    Forall rf_ok (concat fss) -> Forall rf_bits_ok (concat fss) -> ~ misleading (concat fss) ->
    reliable w -> w_out w = [] ->
    exists s, proto_scrapes ryu bd gs (proto_new w) = (s, ROk) /\
      (nlen (w_out (pe_writer s)) < 2 ^ 64 ->
       exists ps, read_stream (w_out (pe_writer s)) = Some ps /\
         Forall2 (family_shows ryu nearest) (with_samples (concat fss)) ps).
  Proof.
    intros bd gs fss w F OK BO NM R W.
    destruct (scrapes_rel bd gs fss _ _ F OK (rel_new ryu w R W)) as (s & E & RS).
    exists s. split; [exact E|]. rewrite (rel_out _ _ RS). intros L.
    assert (GO : g_ok (g_scrapes fss g_new)) by (apply g_scrapes_ok; [exact BO|split; constructor]).
    rewrite read_frames by (exact L || apply GO). eexists. split; [reflexivity|].
    assert (SH : Forall2 shows ([] ++ with_samples (concat fss)) (g_out (g_scrapes fss g_new))).
    { apply (between_scrapes fss [] false g_new); [exact OK| |discriminate|now apply not_misleading_safe].
      apply B_init; constructor. }
    cbn [app] in SH. clear - SH. induction SH; cbn [map]; constructor; assumption.
  Qed.

  (** ** Misleading sequences *)

  Definition g_families (fs : list rfamily) (g : ghost) : ghost := fold_left (fun g f => g_family f g) fs g.

  (** Once in the current message, samples are emitted with it. *)
  Definition keeps (cur : list op) (g : ghost) : Prop :=
    In cur (g_out g) \/ (g_st g = PMetrics /\ g_cur g = cur).

  Lemma keeps_flush : forall cur g, keeps cur g -> In cur (g_out (g_flush g)) .
  Proof.
    intros cur g [H|[S E]]; unfold g_flush.
    - destruct (g_st g); cbn; auto. apply in_or_app. auto.
    - rewrite S. cbn. apply in_or_app. right. left. exact E.
  Qed.

  Lemma keeps_family : forall cur f g, rf_ok f -> keeps cur g -> keeps cur (g_family f g).
  Proof.
    intros cur f g OK K. unfold g_family. cbv zeta.
    assert (S : forall l g, In cur (g_out g) -> In cur (g_out (fold_left (fun g p => g_sample (fst p) (snd p) g) l g))).
    { induction l as [|p l IH]; intros g0 H; cbn [fold_left]; [exact H|]. apply IH. exact H. }
    assert (T : forall k n g, In cur (g_out (g_flush g)) -> In cur (g_out (g_type k n g))).
    { intros k n g0 H. exact H. }
    unfold rf_ok in OK. destruct (rf_help f) as [h|] eqn:H.
    - left. assert (G1 : In cur (g_out (g_help (fname f) h g))) by (apply keeps_flush in K; exact K).
      destruct (rf_kind f); apply S; [|exact G1]. apply T. apply keeps_flush. now left.
    - destruct (rf_kind f) as [k|].
      + left. apply S, T. now apply keeps_flush.
      + rewrite OK. exact K.
  Qed.

  Lemma keeps_families : forall cur fs g, Forall rf_ok fs -> keeps cur g -> keeps cur (g_families fs g).
  Proof.
    intros cur fs g F. revert g. induction F as [|f fs OK _ IH]; intros g K; [exact K|]. cbn [g_families fold_left].
    apply IH. now apply keeps_family.
  Qed.

  Lemma families_app : forall a b g, g_families (a ++ b) g = g_families b (g_families a g).
  Proof. intros. unfold g_families. apply fold_left_app. Qed.

  (** Outside of [PMetrics] no samples wait. *)
  Definition tidy (g : ghost) : Prop := g_st g <> PMetrics -> Forall headed (g_cur g).

  Lemma tidy_flush : forall g, tidy g -> tidy (g_flush g) /\ g_st (g_flush g) <> PMetrics.
  Proof.
    intros g T. unfold g_flush. destruct (g_st g) eqn:S.
    - split; [exact T|congruence].
    - split; [exact T|congruence].
    - split; [constructor|discriminate].
  Qed.

  Lemma tidy_family : forall f g, rf_ok f -> tidy g -> tidy (g_family f g).
  Proof.
    intros f g OK T. unfold g_family. cbv zeta.
    assert (H1 : tidy (match rf_help f with Some h => g_help (fname f) h g | None => g end)).
    { destruct (rf_help f); [|exact T]. destruct (tidy_flush g T) as [T1 N1]. intros _. cbn.
      apply Forall_app. split; [apply T1, N1|repeat constructor]. }
    set (g1 := match rf_help f with Some h => g_help (fname f) h g | None => g end) in *. clearbody g1.
    assert (H2 : tidy (match rf_kind f with Some k => g_type (kind_number k) (fname f) g1 | None => g1 end)).
    { destruct (rf_kind f) as [k|]; [|exact H1]. destruct (tidy_flush g1 H1) as [T1 N1]. intros _. cbn.
      apply Forall_app. split; [apply T1, N1|]. destruct (g_st (g_flush g1)); repeat constructor. }
    destruct (rf_samples f) as [|p l] eqn:S; [exact H2|]. rewrite fold_samples by discriminate.
    intros N. now elim N.
  Qed.

  Lemma tidy_families : forall fs g, Forall rf_ok fs -> tidy g -> tidy (g_families fs g).
  Proof.
    intros fs g F. revert g. induction F as [|f fs OK _ IH]; intros g T; [exact T|]. apply IH. now apply tidy_family.
  Qed.

  (** The state after a documented family without samples. *)
  Definition waits (a : rfamily) (g : ghost) : Prop :=
    g_st g = PHelp /\ Forall headed (g_cur g) /\ pf_name (content (g_cur g)) = Some (fname a) /\
    pf_help (content (g_cur g)) = rf_help a.

  Lemma waits_after : forall a g, rf_ok a -> tidy g -> documented a -> empty a -> waits a (g_family a g).
  Proof.
    intros a g OK T D E. unfold g_family, documented, empty in *. cbv zeta. rewrite E. cbn [fold_left].
    destruct (rf_help a) as [h|] eqn:H; [|congruence]. destruct (tidy_flush g T) as [T1 N1]. specialize (T1 N1).
    unfold g_help. set (cur := g_cur (g_flush g)) in *. set (out := g_out (g_flush g)). unfold g_add at 1 2.
    fold cur out. cbn [g_cur g_out].
    assert (HH : Forall headed (cur ++ [OName (fname a); OHelp h])) by (apply Forall_app; split; [exact T1|repeat constructor]).
    destruct (rf_kind a) as [k|].
    - unfold g_type, g_flush, waits, g_add. cbn [g_st g_cur g_out]. split; [reflexivity|]. split.
      + apply Forall_app. split; [exact HH|repeat constructor].
      + rewrite !content_app. cbn. auto.
    - unfold waits. cbn [g_st g_cur]. split; [reflexivity|]. split; [exact HH|]. rewrite content_app. cbn. auto.
  Qed.

  Lemma waits_mid : forall a f g, rf_ok f -> ~ documented f -> empty f -> waits a g -> waits a (g_family f g).
  Proof.
    intros a f g OK D E (S & H & W1 & W2). unfold g_family, documented, empty in *. cbv zeta. rewrite E. cbn [fold_left].
    destruct (rf_help f) as [h|]; [elim D; discriminate|]. destruct (rf_kind f) as [k|].
    - unfold g_type, g_flush. rewrite S. cbv zeta. rewrite S. unfold waits, g_add. cbn [g_st g_cur]. split; [reflexivity|]. split.
      + apply Forall_app. split; [exact H|repeat constructor].
      + rewrite !content_app. cbn. auto.
    - split; auto.
  Qed.

  Lemma waits_then : forall a b g, rf_ok b -> ~ documented b -> ~ empty b -> waits a g ->
    exists cur, keeps cur (g_family b g) /\ pf_name (content cur) = Some (fname a) /\ pf_help (content cur) = rf_help a /\
      Forall2 (sample_shows ryu nearest) (rf_samples b) (pf_metrics (content cur)).
  Proof.
    intros a b g OK D E (S & H & W1 & W2). pose proof (rf_ok_kinds _ OK) as KS.
    unfold g_family, documented, empty, rf_ok in *. cbv zeta.
    destruct (rf_help b) as [h|]; [elim D; discriminate|]. destruct (rf_kind b) as [k|]; [|now elim E].
    unfold g_type, g_flush. rewrite S. cbv zeta. rewrite S. rewrite fold_samples by exact E.
    unfold g_add. cbn [g_cur g_out].
    exists ((g_cur g ++ [OType (kind_number k)]) ++ ops_of (rf_samples b)). split; [right; split; reflexivity|].
    rewrite content_app, apply_samples. cbn [pf_name pf_help pf_metrics]. rewrite headed_metrics.
    - rewrite !content_app. cbn [fold_left op_apply pf_name pf_help]. split; [exact W1|]. split; [exact W2|]. now apply samples_show.
    - apply Forall_app. split; [exact H|repeat constructor].
  Qed.

  Theorem proto_misleading : forall bd g pre a mid b post w,
    group_families [] g (pre ++ a :: mid ++ b :: post) -> Forall rf_ok (pre ++ a :: mid ++ b :: post) ->
    Forall rf_bits_ok (pre ++ a :: mid ++ b :: post) ->
    documented a -> empty a -> Forall (fun f => ~ documented f /\ empty f) mid -> ~ documented b -> ~ empty b ->
    reliable w -> w_out w = [] ->
    exists s, proto_scrapes ryu bd [g] (proto_new w) = (s, ROk) /\
      (nlen (w_out (pe_writer s)) < 2 ^ 64 ->
       exists ps p, read_stream (w_out (pe_writer s)) = Some ps /\ In p ps /\
         pf_name p = Some (full_name (rf_namespaces a) (rf_base a) []) /\ pf_help p = rf_help a /\
         Forall2 (sample_shows ryu nearest) (rf_samples b) (pf_metrics p)).
  Proof.
    intros bd g pre a mid b post w GF OK BO DA EA MM DB EB R W. set (fs := pre ++ a :: mid ++ b :: post) in *.
    destruct (scrapes_rel bd [g] [fs] (proto_new w) g_new) as (s & E & RS);
      [repeat constructor; exact GF|cbn [concat]; now rewrite app_nil_r|now apply rel_new|].
    exists s. split; [exact E|]. rewrite (rel_out _ _ RS). intros L.
    assert (GO : g_ok (g_scrapes [fs] g_new)).
    { apply g_scrapes_ok; [cbn [concat]; now rewrite app_nil_r|split; constructor]. }
    rewrite read_frames by (exact L || apply GO).
    assert (X : exists cur, In cur (g_out (g_scrapes [fs] g_new)) /\ pf_name (content cur) = Some (fname a) /\
      pf_help (content cur) = rf_help a /\ Forall2 (sample_shows ryu nearest) (rf_samples b) (pf_metrics (content cur))).
    { cbn [g_scrapes fold_left]. change (fold_left (fun g f => g_family f g) fs g_new) with (g_families fs g_new).
      unfold fs in *. clear E RS L GO BO GF. apply Forall_app in OK. destruct OK as [OP OK]. inversion OK as [|? ? OA OK1]; subst.
      apply Forall_app in OK1. destruct OK1 as [OM OK2]. inversion OK2 as [|? ? OB OPO]; subst.
      rewrite families_app. change (a :: mid ++ b :: post) with ([a] ++ mid ++ [b] ++ post). rewrite !families_app.
      assert (T : tidy (g_families pre g_new)) by (apply tidy_families; [exact OP|intros _; constructor]).
      pose proof (waits_after a _ OA T DA EA) as WA. change (g_family a (g_families pre g_new)) with (g_families [a] (g_families pre g_new)) in WA.
      assert (WM : forall l g, Forall rf_ok l -> Forall (fun f => ~ documented f /\ empty f) l -> waits a g -> waits a (g_families l g)).
      { intros l g0 F1 F2. revert g0. induction l as [|f l IH]; intros g0 W0; [exact W0|]. inversion F1; inversion F2; subst.
        apply IH; auto. apply waits_mid; tauto. }
      apply (WM mid _ OM MM) in WA. destruct (waits_then a b _ OB DB EB WA) as (cur & K & P).
      exists cur. split; [|exact P]. apply keeps_flush. now apply keeps_families. }
    destruct X as (cur & IN & P). eexists _, (content cur). split; [reflexivity|]. split; [now apply in_map|exact P].
  Qed.
End Families.
