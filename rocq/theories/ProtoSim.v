(** The protobuf encoder simulates a machine on family contents. *)
From Coq Require Import String List NArith ZArith Bool Lia ZifyBool ZifyN ZifyNat.
From Verif Require Import Base BaseFacts Writer NameModel NameSpec NameProofs LabelModel FloatModel EncoderModel
  TextModel TextSpec EncoderSpec EncoderProofs TextProofs TextParseProofs ProtoModel ProtoSpec ProtoProofs.
Import ListNotations.
Local Open Scope N_scope.

(** What is appended to the current family message. *)
Inductive op :=
| OName (b : bytes) | OHelp (b : bytes) | OType (k : N) | OSample (ls : labels) (m : metric).

Section Sim.
  Variable ryu : f64 -> bytes.
  Variable bd : build.

  Definition sample_field (ls : labels) (m : metric) : N * wire :=
    match m with
    | MCounter c => metric_field ryu 3 ls (f_of_Z (Z.of_N c))
    | MGauge z => metric_field ryu 2 ls (f_of_Z z)
    | MFloatGauge x => metric_field ryu 2 ls x
    | MHistogram _ _ _ _ => metric_field ryu 2 ls 0
    end.
  Definition op_field (o : op) : N * wire :=
    match o with
    | OName b => (1, WBytes b)
    | OHelp b => (2, WBytes b)
    | OType k => (3, WVarint k)
    | OSample ls m => sample_field ls m
    end.
  Definition body (ops : list op) : bytes := enc_fields (map op_field ops).
  Definition frame (ops : list op) : bytes := encode_varint (nlen (body ops)) ++ body ops.

  Lemma body_app : forall a b, body (a ++ b) = body a ++ body b.
  Proof. intros. unfold body. now rewrite map_app, enc_fields_app. Qed.

  Record ghost := { g_st : pstate; g_cur : list op; g_out : list (list op) }.

  Definition g_new : ghost := {| g_st := PInit; g_cur := []; g_out := [] |}.

  Definition g_flush (g : ghost) : ghost :=
    match g_st g with
    | PMetrics => {| g_st := PInit; g_cur := []; g_out := g_out g ++ [g_cur g] |}
    | _ => g
    end.
  Definition g_add (st : pstate) (ops : list op) (g : ghost) : ghost :=
    {| g_st := st; g_cur := g_cur g ++ ops; g_out := g_out g |}.
  Definition g_help (n h : bytes) (g : ghost) : ghost := g_add PHelp [OName n; OHelp h] (g_flush g).
  Definition g_type (k : N) (n : bytes) (g : ghost) : ghost :=
    let g := g_flush g in
    g_add (g_st g) (match g_st g with PInit => [OName n; OType k] | _ => [OType k] end) g.
  Definition g_sample (ls : labels) (m : metric) (g : ghost) : ghost := g_add PMetrics [OSample ls m] g.

  Definition open_rel (s : proto_enc) (g : ghost) : Prop :=
    pe_state s = g_st g /\ reliable (pe_writer s) /\
    w_out (pe_writer s) = concat (map frame (g_out g)) /\
    exists h, length h = 10%nat /\ pe_buf s = h ++ body (g_cur g).
  Definition rel (s : proto_enc) (g : ghost) : Prop :=
    open_rel s g \/
    (pe_state s = PInit /\ reliable (pe_writer s) /\ w_out (pe_writer s) = concat (map frame (g_out g)) /\
     pe_buf s = [] /\ g_st g = PInit /\ g_cur g = []).

  Lemma rel_new : forall w, reliable w -> w_out w = [] -> rel (proto_new w) g_new.
  Proof. intros w R O. right. cbn. auto 10. Qed.

  Lemma write_all_reliable : forall b w, reliable w ->
    exists w', write_all b w = (w', ROk) /\ reliable w' /\ w_out w' = w_out w ++ b.
  Proof.
    intros b w R. unfold write_all. destruct b as [|x b].
    - exists w. rewrite app_nil_r. auto.
    - rewrite R. eexists. split; [reflexivity|]. split; [exact R|reflexivity].
  Qed.

  Lemma flush_rel : forall s g, rel s g -> exists s', flush_buf bd s = (s', ROk) /\ open_rel s' (g_flush g).
  Proof.
    intros s g [(ST & R & O & h & L & B)|(ST & R & O & B & GS & GC)].
    - unfold flush_buf, g_flush. rewrite ST. destruct (g_st g) eqn:G.
      1,2: rewrite B; destruct h as [|x h]; [discriminate|]; cbn [app];
        assert (X : 10 <=? nlen (pe_buf s) = true) by
          (rewrite B, nlen_app, (nlen_length (x :: h)), L; destruct (N.leb_spec 10 (N.of_nat 10 + nlen (body (g_cur g)))); [reflexivity|lia]);
        rewrite X; exists s; split; [destruct bd; reflexivity|];
        unfold open_rel; rewrite G; split; [exact ST|]; split; [exact R|]; split; [exact O|]; exists (x :: h); auto.
      assert (N10 : nlen (pe_buf s) = 10 + nlen (body (g_cur g))).
      { rewrite B, nlen_app, (nlen_length h), L. reflexivity. }
      rewrite N10. destruct (N.ltb_spec (10 + nlen (body (g_cur g))) 10); [lia|].
      replace (10 + nlen (body (g_cur g)) - 10) with (nlen (body (g_cur g))) by lia.
      set (n := nlen (body (g_cur g))). pose proof (encoded_len_bounds n) as LB.
      set (off := N.to_nat (10 - encoded_len_varint n)).
      assert (LV : (off + length (encode_varint n))%nat = 10%nat).
      { pose proof (encoded_len_exact n) as EX. rewrite nlen_length in EX. unfold off. lia. }
      rewrite LV, B.
      assert (F1 : firstn off (h ++ body (g_cur g)) = firstn off h).
      { rewrite firstn_app. replace (off - length h)%nat with 0%nat by (rewrite L; lia). cbn. apply app_nil_r. }
      assert (S1 : skipn 10 (h ++ body (g_cur g)) = body (g_cur g)).
      { rewrite skipn_app, L, Nat.sub_diag. rewrite <- L, skipn_all. reflexivity. }
      rewrite F1, S1.
      assert (LF : length (firstn off h) = off) by (rewrite firstn_length, L; unfold off; lia).
      assert (S2 : skipn off (firstn off h ++ encode_varint n ++ body (g_cur g)) = frame (g_cur g)).
      { rewrite skipn_app, LF, Nat.sub_diag. rewrite <- LF at 1. rewrite skipn_all. reflexivity. }
      rewrite S2. destruct (write_all_reliable (frame (g_cur g)) (pe_writer s) R) as (w' & -> & R' & O').
      eexists. split; [reflexivity|]. unfold open_rel. cbn [pe_state pe_writer pe_buf g_st g_cur g_out].
      split; [reflexivity|]. split; [exact R'|]. split.
      + rewrite O', O, map_app, concat_app. cbn [map concat]. now rewrite app_nil_r.
      + exists (resize10 (firstn off h ++ encode_varint n ++ body (g_cur g))). unfold body at 3. cbn [map enc_fields concat].
        rewrite app_nil_r. split; [|reflexivity]. unfold resize10. rewrite app_length, firstn_length, repeat_length.
        rewrite !app_length, LF. lia.
    - unfold flush_buf, g_flush. rewrite ST, GS, B. cbn [pe_buf].
      exists {| pe_state := PInit; pe_writer := pe_writer s; pe_buf := header |}.
      split; [destruct bd; reflexivity|]. unfold open_rel. rewrite GS, GC. cbn [pe_state pe_writer pe_buf].
      split; [reflexivity|]. split; [exact R|]. split; [exact O|]. exists header. rewrite app_nil_r. auto.
  Qed.

  Lemma put_rel : forall s g st b ops, open_rel s g -> pe_state s = st -> b = body ops ->
    exists s', put b s = (s', ROk) /\ open_rel s' (g_add st ops g).
  Proof.
    intros s g st b ops (ST & R & O & h & L & B) <- ->. eexists. split; [reflexivity|].
    unfold open_rel. cbn [pe_state pe_writer pe_buf g_add g_st g_cur g_out].
    split; [reflexivity|]. split; [exact R|]. split; [exact O|]. exists h. split; [exact L|].
    now rewrite body_app, app_assoc, B.
  Qed.

  Lemma encode_utf8_put : forall n s, encode_utf8 put n s =
    ({| pe_state := pe_state s; pe_writer := pe_writer s; pe_buf := pe_buf s ++ name_bytes n |}, ROk).
  Proof.
    induction n as [b|ns n IH|n IH sf]; intros s; cbn [encode_utf8 name_bytes]; [reflexivity| |].
    - rewrite bindr_ok. unfold put at 1. rewrite bindr_ok. unfold put at 1. rewrite IH.
      cbn [pe_state pe_writer pe_buf]. now rewrite !app_assoc.
    - rewrite bindr_ok, IH. unfold put. cbn [pe_state pe_writer pe_buf]. now rewrite <- app_assoc.
  Qed.

  Lemma put_name_bytes : forall n s, put_name n s = put (enc_field (1, WBytes (name_bytes n))) s.
  Proof.
    intros n s. unfold put_name. rewrite bindr_ok. unfold put at 1. rewrite bindr_ok. unfold put at 1.
    rewrite encode_utf8_put. cbn [pe_state pe_writer pe_buf]. unfold put, enc_field. cbn [fst snd].
    rewrite encode_len_correct. now rewrite <- !app_assoc.
  Qed.

  Lemma body_one : forall o, body [o] = enc_field (op_field o).
  Proof. intros. unfold body. cbn [map]. apply enc_fields_one. Qed.

  Lemma add_add : forall st st' a b g, g_add st' b (g_add st a g) = g_add st' (a ++ b) g.
  Proof. intros. unfold g_add. cbn [g_cur g_out]. now rewrite app_assoc. Qed.

  Lemma set_rel : forall s g st, open_rel s g -> open_rel (set_pstate st s) {| g_st := st; g_cur := g_cur g; g_out := g_out g |}.
  Proof. intros s g st (ST & R & O & H). unfold open_rel. cbn. auto. Qed.

  Lemma help_rel : forall n h s g, rel s g ->
    exists s', proto_write_help bd n h s = (s', ROk) /\ open_rel s' (g_help (name_bytes n) h g).
  Proof.
    intros n h s g R. unfold proto_write_help. rewrite bindr_ok.
    destruct (flush_rel s g R) as (s1 & -> & R1). rewrite bindr_ok, put_name_bytes.
    destruct (put_rel s1 (g_flush g) (pe_state s1) _ [OName (name_bytes n)] R1 eq_refl (eq_sym (body_one _))) as (s2 & E2 & R2).
    cbn [op_field] in E2. rewrite E2, bindr_ok.
    destruct (put_rel s2 _ (pe_state s2) (string_encode 2 h) [OHelp h] R2 eq_refl (eq_sym (body_one (OHelp h)))) as (s3 & -> & R3).
    eexists. split; [reflexivity|]. rewrite add_add in R3. apply (set_rel _ _ PHelp) in R3. exact R3.
  Qed.

  Lemma type_rel : forall k n s g, k <> KHistogram -> rel s g ->
    exists s', proto_write_type bd k n s = (s', ROk) /\ open_rel s' (g_type (kind_number k) (name_bytes n) g).
  Proof.
    intros k n s g K R.
    assert (E : proto_write_type bd k n s = (flush_buf bd ;;?
      (fun s => match pe_state s with PInit => put_name n s | _ => (s, ROk) end) ;;?
      put (int32_encode 3 (kind_number k))) s) by (destruct k; congruence || reflexivity).
    rewrite E, bindr_ok. clear E. destruct (flush_rel s g R) as (s1 & -> & R1). rewrite bindr_ok.
    assert (T : int32_encode 3 (kind_number k) = body [OType (kind_number k)]) by (rewrite body_one; reflexivity).
    pose proof R1 as (ST & _). unfold g_type. cbv zeta. rewrite ST. destruct (g_st (g_flush g)) eqn:G.
    - rewrite put_name_bytes.
      destruct (put_rel s1 (g_flush g) (pe_state s1) _ [OName (name_bytes n)] R1 eq_refl (eq_sym (body_one _))) as (s2 & E2 & R2).
      cbn [op_field] in E2. rewrite E2. pose proof R2 as (ST2 & _). cbn in ST2. rewrite ST in ST2.
      destruct (put_rel s2 _ PInit _ _ R2 ST2 T) as (s3 & -> & R3).
      eexists. split; [reflexivity|]. rewrite add_add in R3. exact R3.
    - destruct (put_rel s1 _ PHelp _ _ R1 ST T) as (s3 & -> & R3). eauto.
    - destruct (put_rel s1 _ PMetrics _ _ R1 ST T) as (s3 & -> & R3). eauto.
  Qed.

  Lemma sample_rel : forall ls m n s g, metric_kind m <> KHistogram -> open_rel s g ->
    exists s', proto_collect ryu bd m ls n s = (s', ROk) /\ open_rel s' (g_sample ls m g).
  Proof.
    intros ls m n s g K R. unfold g_sample.
    assert (P : forall tag x, tag = 2 \/ tag = 3 -> metric_field ryu tag ls x = sample_field ls m ->
      exists s', proto_put_metric ryu bd tag ls x s = (s', ROk) /\ open_rel s' (g_add PMetrics [OSample ls m] g)).
    { intros tag x T E. rewrite proto_put_metric_exact by exact T. rewrite E.
      apply (set_rel _ _ PMetrics) in R.
      destruct (put_rel _ _ PMetrics _ [OSample ls m] R eq_refl (eq_sym (body_one _))) as (s' & E' & R').
      exists s'. split; [exact E'|exact R']. }
    destruct m; cbn [proto_collect metric_kind] in *; try (apply P; [auto|reflexivity]). congruence.
  Qed.

  (** ** Families *)

  Definition fname (f : rfamily) : bytes := full_name (rf_namespaces f) (rf_base f) [].

  Definition g_family (f : rfamily) (g : ghost) : ghost :=
    let g := match rf_help f with Some h => g_help (fname f) h g | None => g end in
    let g := match rf_kind f with Some k => g_type (kind_number k) (fname f) g | None => g end in
    fold_left (fun g p => g_sample (fst p) (snd p) g) (rf_samples f) g.

  Lemma fname_bytes : forall f, name_bytes (name_of (rf_namespaces f) (rf_base f)) = fname f.
  Proof. intros. apply name_of_bytes. Qed.

  Lemma samples_rel : forall nss base l s g, Forall (fun p => metric_kind (snd p) <> KHistogram) l -> open_rel s g ->
    exists s', do_events (proto_encoder ryu bd) (map (fun p => EvSample nss base (fst p) (snd p)) l) s = (s', ROk) /\
      open_rel s' (fold_left (fun g p => g_sample (fst p) (snd p) g) l g).
  Proof.
    induction l as [|[ls m] l IH]; intros s g F R; cbn [map fold_left do_events]; [eauto|].
    inversion F; subst. cbn [fst snd do_event proto_encoder e_collect] in *.
    destruct (sample_rel ls m (name_of nss base) s g H1 R) as (s1 & -> & R1). apply IH; auto.
  Qed.

  Lemma family_rel : forall f s g, rf_ok f -> rel s g ->
    exists s', do_events (proto_encoder ryu bd) (rf_events f) s = (s', ROk) /\ rel s' (g_family f g).
  Proof.
    intros f s g OK R. unfold rf_events, g_family. cbv zeta.
    assert (H1 : exists s1, do_events (proto_encoder ryu bd)
        (match rf_help f with Some h => [EvHelp (rf_namespaces f) (rf_base f) h] | None => [] end) s = (s1, ROk) /\
        rel s1 (match rf_help f with Some h => g_help (fname f) h g | None => g end)).
    { destruct (rf_help f) as [h|]; [|cbn; eauto]. cbn [do_events do_event proto_encoder e_help].
      destruct (help_rel (name_of (rf_namespaces f) (rf_base f)) h s g R) as (s1 & -> & R1).
      rewrite fname_bytes in R1. exists s1. split; [reflexivity|left; exact R1]. }
    destruct H1 as (s1 & E1 & R1). rewrite do_events_app, E1. clear E1 R.
    set (g1 := match rf_help f with Some h => g_help (fname f) h g | None => g end) in *. clearbody g1.
    unfold rf_ok in OK. destruct (rf_kind f) as [k|].
    - destruct OK as [K F]. rewrite do_events_app. cbn [do_events do_event proto_encoder e_type].
      destruct (type_rel k (name_of (rf_namespaces f) (rf_base f)) s1 g1 K R1) as (s2 & -> & R2).
      rewrite fname_bytes in R2.
      destruct (samples_rel (rf_namespaces f) (rf_base f) (rf_samples f) s2 _
        (Forall_impl _ (fun p (H : metric_kind (snd p) = k) => eq_ind_r (fun x => x <> KHistogram) K H) F) R2) as (s3 & E3 & R3).
      exists s3. split; [exact E3|left; exact R3].
    - rewrite OK. cbn. eauto.
  Qed.

  Lemma families_rel : forall fs s g, Forall rf_ok fs -> rel s g ->
    exists s', do_events (proto_encoder ryu bd) (concat (map rf_events fs)) s = (s', ROk) /\
      rel s' (fold_left (fun g f => g_family f g) fs g).
  Proof.
    induction fs as [|f fs IH]; intros s g F R; cbn [map concat fold_left]; [cbn; eauto|].
    inversion F; subst. rewrite do_events_app. destruct (family_rel f s g H1 R) as (s1 & -> & R1). auto.
  Qed.
End Sim.
