(** The protobuf encoder on failing writers; exactness of integers as doubles. *)
From Coq Require Import String List NArith ZArith Bool Lia ZifyBool ZifyN ZifyNat SpecFloat.
From Verif Require Import Base BaseFacts Writer NameModel NameSpec NameProofs LabelModel FloatModel FloatFacts
  EncoderModel TextModel TextSpec EncoderSpec EncoderProofs ProtoModel ProtoSpec ProtoProofs ProtoSim ProtoTheorems.
Import ListNotations.
Local Open Scope N_scope.

Definition out (s : proto_enc) : bytes := w_out (pe_writer s).
Definition prefix (a b : bytes) : Prop := exists c, b = a ++ c.

Lemma prefix_refl : forall a, prefix a a.
Proof. intros a. exists []. now rewrite app_nil_r. Qed.
Lemma prefix_trans : forall a b c, prefix a b -> prefix b c -> prefix a c.
Proof. intros a b c [x ->] [y ->]. exists (x ++ y). now rewrite app_assoc. Qed.

(** The same encoder, once on any writer and once on a reliable one. *)
Definition twin (s s' : proto_enc) : Prop :=
  pe_state s = pe_state s' /\ pe_buf s = pe_buf s' /\ out s = out s' /\ reliable (pe_writer s').

Definition follows (a : io proto_enc) : Prop :=
  (forall s, reliable (pe_writer s) -> prefix (out s) (out (fst (a s))) /\ reliable (pe_writer (fst (a s)))) /\
  forall s s', twin s s' ->
    match a s with
    | (s1, ROk) => exists s1', a s' = (s1', ROk) /\ twin s1 s1'
    | (s1, RErr) => prefix (out s1) (out (fst (a s')))
    | (s1, RPanic) => exists s1', a s' = (s1', RPanic) /\ twin s1 s1'
    end.

Lemma follows_bind : forall a b, follows a -> follows b -> follows (a ;;? b).
Proof.
  intros a b [A1 A2] [B1 B2]. split.
  - intros s R. rewrite bindr_ok. destruct (A1 s R) as [P1 R1]. destruct (a s) as [s1 []]; cbn [fst] in *; auto.
    destruct (B1 s1 R1). split; [eapply prefix_trans; eauto|assumption].
  - intros s s' T. rewrite !bindr_ok. specialize (A2 s s' T). destruct (A1 s' (proj2 (proj2 (proj2 T)))) as [P1 R1].
    destruct (a s) as [s1 []].
    + destruct A2 as (s1' & -> & T1). exact (B2 s1 s1' T1).
    + destruct (a s') as [s1' []]; cbn [fst] in *; auto. destruct (B1 s1' R1). eapply prefix_trans; eauto.
    + destruct A2 as (s1' & -> & T1). eauto.
Qed.

(** Actions that do not write. *)
Lemma follows_pure : forall (f : pstate -> bytes -> pstate * bytes) (r : pstate -> bytes -> result),
  (forall st b, r st b <> RErr) ->
  follows (fun s => ({| pe_state := fst (f (pe_state s) (pe_buf s)); pe_writer := pe_writer s;
                        pe_buf := snd (f (pe_state s) (pe_buf s)) |}, r (pe_state s) (pe_buf s))).
Proof.
  intros f r NE. split.
  - intros s R. cbn. split; [apply prefix_refl|exact R].
  - intros s s' (T1 & T2 & T3 & T4). rewrite T1, T2. specialize (NE (pe_state s') (pe_buf s')).
    destruct (r (pe_state s') (pe_buf s')); [|congruence|]; (eexists; split; [reflexivity|]);
      unfold twin, out in *; cbn; auto.
Qed.

Lemma follows_ext : forall a b, (forall s, a s = b s) -> follows a -> follows b.
Proof.
  intros a b E [A1 A2]. split.
  - intros s R. rewrite <- E. auto.
  - intros s s' T. rewrite <- (E s), <- (E s'). exact (A2 s s' T).
Qed.

Section Errors.
  Variable ryu : f64 -> bytes.
  Variable bd : build.

  Lemma put_follows : forall b, follows (put b).
  Proof.
    intros b. apply (follows_ext _ _ (fun s => eq_refl) (follows_pure (fun st buf => (st, buf ++ b)) (fun _ _ => ROk) ltac:(discriminate))).
  Qed.

  Lemma set_follows : forall st, follows (fun s => (set_pstate st s, ROk)).
  Proof.
    intros st. apply (follows_ext _ _ (fun s => eq_refl) (follows_pure (fun _ buf => (st, buf)) (fun _ _ => ROk) ltac:(discriminate))).
  Qed.

  Lemma ret_follows : follows (fun s => (s, ROk)).
  Proof.
    refine (follows_ext _ _ _ (follows_pure (fun st buf => (st, buf)) (fun _ _ => ROk) ltac:(discriminate))).
    intros []; reflexivity.
  Qed.

  Lemma panic_follows : follows (fun s => (s, RPanic)).
  Proof.
    refine (follows_ext _ _ _ (follows_pure (fun st buf => (st, buf)) (fun _ _ => RPanic) ltac:(discriminate))).
    intros []; reflexivity.
  Qed.

  Lemma firstn_prefix : forall k (b : bytes), prefix (firstn k b) b.
  Proof. intros. exists (skipn k b). now rewrite firstn_skipn. Qed.

  Definition or_header (b : bytes) : bytes := match b with [] => header | _ => b end.

  Lemma flush_follows : follows (flush_buf bd).
  Proof.
    assert (H : forall s, pe_state s <> PMetrics -> flush_buf bd s =
      (fun s => ({| pe_state := pe_state s; pe_writer := pe_writer s;
         pe_buf := or_header (pe_buf s) |},
         match debug_assert bd (10 <=? nlen (or_header (pe_buf s))) with Done _ => ROk | Panic => RPanic end)) s).
    { intros [st w b] N. unfold flush_buf. cbn [pe_state pe_buf pe_writer] in *. destruct st; [| |congruence]; destruct b; reflexivity. }
    pose proof (follows_pure (fun st b => (st, or_header b))
      (fun _ b => match debug_assert bd (10 <=? nlen (or_header b)) with Done _ => ROk | Panic => RPanic end)
      ltac:(intros ? b; cbn beta; destruct (debug_assert bd _); discriminate)) as [P1 P2]. cbn [fst snd] in *.
    split.
    - intros s R. destruct (pe_state s) eqn:S.
      1,2: rewrite H by congruence; exact (P1 s R).
      unfold flush_buf. rewrite S. destruct (nlen (pe_buf s) <? 10); [cbn; split; [apply prefix_refl|exact R]|].
      set (len := nlen (pe_buf s) - 10). set (buf := firstn _ _ ++ _).
      destruct (write_all_reliable (skipn (N.to_nat (10 - encoded_len_varint len)) buf) (pe_writer s) R) as (w' & -> & R' & O').
      cbn [fst]. split; [|exact R']. exists (skipn (N.to_nat (10 - encoded_len_varint len)) buf). exact O'.
    - intros s s' T. pose proof T as (T1 & T2 & T3 & T4). destruct (pe_state s) eqn:S.
      1,2: rewrite !H by congruence; exact (P2 s s' T).
      unfold flush_buf. rewrite <- T1, S, <- T2.
      destruct (nlen (pe_buf s) <? 10).
      { eexists. split; [reflexivity|]. unfold twin, out in *; cbn; auto. }
      set (len := nlen (pe_buf s) - 10). set (buf := firstn _ _ ++ _). set (off := N.to_nat _).
      destruct (write_all_reliable (skipn off buf) (pe_writer s') T4) as (w' & E & R' & O').
      rewrite E. unfold write_all at 1. destruct (skipn off buf) as [|x b] eqn:B.
      { eexists. split; [reflexivity|]. unfold twin, out in *. cbn [pe_state pe_buf pe_writer].
        repeat split; auto. now rewrite O', app_nil_r. }
      destruct (w_plan (pe_writer s) (w_calls (pe_writer s))) as [k|].
      + unfold out in *. cbn [fst pe_writer w_out]. rewrite O', T3. destruct (firstn_prefix k (x :: b)) as [c C].
        exists c. rewrite <- app_assoc, <- C. reflexivity.
      + eexists. split; [reflexivity|]. unfold twin, out in *. cbn [pe_state pe_buf pe_writer w_out].
        repeat split; auto. now rewrite O', T3.
  Qed.

  Lemma encode_utf8_follows : forall n, follows (encode_utf8 put n).
  Proof.
    induction n as [b|ns n IH|n IH sf]; cbn [encode_utf8]; [apply put_follows| |];
      repeat apply follows_bind; auto using put_follows.
  Qed.

  Lemma put_name_follows : forall n, follows (put_name n).
  Proof. intros. unfold put_name. repeat apply follows_bind; auto using put_follows, encode_utf8_follows. Qed.

  Lemma help_follows : forall n h, follows (proto_write_help bd n h).
  Proof.
    intros. unfold proto_write_help. apply follows_bind; [apply flush_follows|].
    apply follows_bind; [apply put_name_follows|]. apply follows_bind; [apply put_follows|apply set_follows].
  Qed.

  Lemma type_follows : forall k n, follows (proto_write_type bd k n).
  Proof.
    intros k n.
    assert (G : forall c, follows (flush_buf bd ;;?
      (fun s => match pe_state s with PInit => put_name n s | _ => (s, ROk) end) ;;? put (int32_encode 3 c))).
    { intros c. apply follows_bind; [apply flush_follows|]. apply follows_bind; [|apply put_follows].
      destruct (put_name_follows n) as [A1 A2]. destruct ret_follows as [B1 B2]. split.
      - intros s R. destruct (pe_state s); auto.
      - intros s s' T. pose proof T as (T1 & _). rewrite <- T1. destruct (pe_state s); [apply A2|apply B2|apply B2]; exact T. }
    destruct k; try apply G. apply panic_follows.
  Qed.

  Lemma metric_follows : forall tag ls x, follows (proto_put_metric ryu bd tag ls x).
  Proof.
    intros tag ls x. unfold proto_put_metric.
    destruct (encode_message bd 4 _ _) as [m|].
    - pose proof (follows_bind _ _ (set_follows PMetrics) (put_follows m)) as F.
      refine (follows_ext _ _ _ F). reflexivity.
    - refine (follows_ext _ _ _ (follows_pure (fun _ buf => (PMetrics, buf)) (fun _ _ => RPanic) ltac:(discriminate))).
      intros []; reflexivity.
  Qed.

  Lemma collect_follows : forall m ls n, follows (proto_collect ryu bd m ls n).
  Proof. intros [] ls n; cbn [proto_collect]; try apply metric_follows. apply panic_follows. Qed.

  Lemma event_follows : forall ev, follows (do_event (proto_encoder ryu bd) ev).
  Proof.
    intros []; cbn [do_event proto_encoder e_help e_type e_collect];
      auto using help_follows, type_follows, collect_follows, panic_follows.
  Qed.

  Lemma events_follow : forall evs, follows (do_events (proto_encoder ryu bd) evs).
  Proof.
    induction evs as [|ev evs IH]; [exact ret_follows|].
    refine (follows_ext _ _ _ (follows_bind _ _ (event_follows ev) IH)).
    intros s. rewrite bindr_ok. cbn [do_events]. reflexivity.
  Qed.

  Lemma scrapes_follow : forall gs, follows (proto_scrapes ryu bd gs).
  Proof.
    induction gs as [|g gs IH]; cbn [proto_scrapes]; [exact ret_follows|].
    apply follows_bind; [|apply follows_bind; [apply follows_bind; [apply flush_follows|apply ret_follows]|exact IH]].
    destruct (group_events_functional g []) as (evs & G & _).
    refine (follows_ext _ _ _ (events_follow evs)). intros s. symmetry. now apply collect_group_events.
  Qed.

  (** Up to the first error, a failing writer has received a prefix of what a
      reliable one receives, and all of it if no error is reported. *)
  Theorem proto_failing_writer : forall gs w s r, w_out w = [] ->
    proto_scrapes ryu bd gs (proto_new w) = (s, r) ->
    let good := proto_scrapes ryu bd gs (proto_new (good_writer [])) in
    (exists rest, w_out (pe_writer (fst good)) = w_out (pe_writer s) ++ rest) /\
    (r <> RErr -> snd good = r /\ w_out (pe_writer s) = w_out (pe_writer (fst good))).
  Proof.
    intros gs w s r W E good.
    assert (T : twin (proto_new w) (proto_new (good_writer []))).
    { unfold twin, out, reliable. cbn. auto. }
    pose proof (proj2 (scrapes_follow gs) _ _ T) as F. rewrite E in F. fold good in F. destruct r.
    - destruct F as (s' & -> & (_ & _ & O & _)). unfold out in O. cbn [fst snd]. rewrite O. split; [|auto].
      exists []. now rewrite app_nil_r.
    - split; [exact F|congruence].
    - destruct F as (s' & -> & (_ & _ & O & _)). unfold out in O. cbn [fst snd]. rewrite O. split; [|auto].
      exists []. now rewrite app_nil_r.
  Qed.
End Errors.

(** ** Integers *)

Lemma small_exact : forall z, (- 2 ^ 53 <= z <= 2 ^ 53)%Z -> double_is z (f_of_Z z).
Proof.
  intros z B. destruct (Z.eq_dec z (2 ^ 53)) as [->|N1]; [left; vm_compute; split; congruence|].
  destruct (Z.eq_dec z (- 2 ^ 53)) as [->|N2]; [left; vm_compute; split; congruence|].
  assert (G : forall (s : bool) (p : positive), (Zpos p < 2 ^ 53)%Z -> z = (if s then Zneg p else Zpos p) ->
    f_of_Z z = f_encode (binary_round 53 1024 s p 0) -> double_is z (f_of_Z z)).
  { intros s p L E F. rewrite F. destruct (round_small s p L) as (m & e & -> & C & E0 & M).
    unfold double_is. rewrite decode_encode by exact C. subst z.
    assert (A : (if s then (- (if s then Zneg p else Zpos p))%Z else (if s then Zneg p else Zpos p)) = Zpos p) by (destruct s; reflexivity).
    rewrite A. destruct (Z.eq_dec e 0) as [->|NE].
    - left. cbn in M. split; [|lia]. change (2 ^ 0)%Z with 1%Z. lia.
    - right. split; [|lia]. now rewrite M. }
  destruct z as [|p|p]; [vm_compute; reflexivity| |].
  - apply (G false p); [lia|reflexivity|reflexivity].
  - apply (G true p); [lia|reflexivity|reflexivity].
Qed.

Lemma double_is_inj : forall x y b, double_is x b -> double_is y b -> x = y.
Proof.
  intros x y b. unfold double_is. destruct (f_decode b) as [s|s| |s m e]; try tauto; [congruence|].
  intros [[A A']|[A A']] [[B B']|[B B']]; try lia.
  - destruct s; lia.
  - assert (P : (0 < 2 ^ (- e))%Z) by (apply Z.pow_pos_nonneg; lia). destruct s; nia.
Qed.

(** Integers in the range of [nearest] shown exactly when small. *)
Lemma exact_metrics : forall ryu p q, sample_shows ryu (fun z x => x = f_of_Z z) p q ->
  match snd p with
  | MCounter c => (c <= 2 ^ 53)%N
  | MGauge z => (- 2 ^ 53 <= z <= 2 ^ 53)%Z
  | _ => True
  end -> sample_shows ryu double_is p q.
Proof.
  intros ryu [ls m] q [A B] R. split; [exact A|]. cbn [snd] in *. destruct m as [c|z|x|ts bs i sm]; auto.
  - destruct B as (B1 & x & B2 & ->). split; [exact B1|]. eexists. split; [exact B2|]. apply small_exact.
    change (2 ^ 53)%N with (Z.to_N (2 ^ 53)) in R. lia.
  - destruct B as (B1 & x & B2 & ->). split; [exact B1|]. eexists. split; [exact B2|]. apply small_exact. lia.
Qed.

(** ** Statements for the property file *)

Lemma varint_exact : forall v rest, v < 2 ^ 64 ->
  read_varint (encode_varint v ++ rest) = Some (v, rest) /\
  nlen (encode_varint v) = encoded_len_varint v /\ 1 <= encoded_len_varint v <= 10.
Proof.
  intros v rest V. split; [now apply read_varint_encode|]. split; [apply encoded_len_exact|apply encoded_len_bounds].
Qed.

Lemma labels_length : forall ryu bd ls, exists b,
  proto_visit_values ryu bd ls = Done b /\ group_len ryu ls = nlen b.
Proof.
  intros ryu bd ls. destruct (proto_visit_values_exact ryu bd ls) as [E L]. eauto.
Qed.

(** The field [b] is a sub-message whose announced length is that of [inner]. *)
Definition submessage (b : bytes) (tag : N) (inner : bytes) : Prop :=
  exists n, read_varint b = Some (tag * 8 + 2, n ++ inner) /\ read_varint (n ++ inner) = Some (nlen inner, inner).

Lemma enc_submessage : forall tag b, known_tag tag -> nlen b < 2 ^ 64 -> submessage (enc_field (tag, WBytes b)) tag b.
Proof.
  intros tag b K L. exists (encode_varint (nlen b)). unfold enc_field. cbn [fst snd].
  split; [apply read_key; [exact K|reflexivity]|now apply read_varint_encode].
Qed.

Lemma metric_lengths : forall ryu bd tag ls x s, tag = 2 \/ tag = 3 -> x < 2 ^ 64 ->
  exists b, proto_put_metric ryu bd tag ls x s = put b (set_pstate PMetrics s) /\
    (nlen b < 2 ^ 64 ->
     exists inner pairs value, submessage b 4 inner /\
       inner = concat pairs ++ value /\
       Forall2 (fun l p => exists q, submessage p 1 q /\ exists a,
                  read_message label_pair_field empty_label_pair q = Some a /\ pair_shows ryu l a) ls pairs /\
       exists q, submessage value tag q /\ read_message value_field None q = Some (Some x)).
Proof.
  intros ryu bd tag ls x s T X. exists (enc_field (metric_field ryu tag ls x)). split; [now apply proto_put_metric_exact|].
  intros L. unfold metric_field in L.
  assert (K : known_tag tag) by (unfold known_tag; lia).
  pose proof (enc_bytes_ge 4 (enc_fields (metric_fields ryu tag ls x))) as G.
  exists (enc_fields (metric_fields ryu tag ls x)), (map (fun l => enc_field (label_field ryu l)) ls),
    (enc_field (tag, WBytes (enc_fields (value_fields x)))).
  split; [apply enc_submessage; [unfold known_tag; lia|lia]|].
  split.
  { unfold metric_fields. rewrite enc_fields_app, enc_fields_one. f_equal. unfold enc_fields. now rewrite map_map. }
  assert (L2 : nlen (enc_fields (map (label_field ryu) ls)) < 2 ^ 64).
  { assert (L3 : nlen (enc_fields (metric_fields ryu tag ls x)) < 2 ^ 64) by lia.
    unfold metric_fields in L3. rewrite enc_fields_app, nlen_app in L3. lia. }
  split.
  - clear - L2. induction ls as [|l ls IH]; cbn [map]; constructor.
    + cbn [map] in L2. change (enc_fields (label_field ryu l :: map (label_field ryu) ls))
        with (enc_field (label_field ryu l) ++ enc_fields (map (label_field ryu) ls)) in L2.
      rewrite nlen_app in L2. unfold label_field in L2 at 1.
      pose proof (enc_bytes_ge 1 (enc_fields (pair_fields ryu (fst l) (snd l)))) as G.
      exists (enc_fields (pair_fields ryu (fst l) (snd l))).
      split; [apply enc_submessage; [left; reflexivity|lia]|].
      exists (pair_of ryu l). split; [apply read_pair; lia|].
      pose proof (pair_of_shows ryu [l]) as P. inversion P; subst. assumption.
    + apply IH. cbn [map] in L2. change (enc_fields (label_field ryu l :: map (label_field ryu) ls))
        with (enc_field (label_field ryu l) ++ enc_fields (map (label_field ryu) ls)) in L2.
      rewrite nlen_app in L2. lia.
  - exists (enc_fields (value_fields x)). split; [|now apply read_value].
    apply enc_submessage; [exact K|]. unfold value_fields. rewrite enc_fields_one.
    change (enc_field (1, WFixed64 x)) with (double_encode 1 x). rewrite double_len_exact by (left; reflexivity). reflexivity.
Qed.

(** A flush emits the length of the message and the message. *)
Lemma flush_length : forall bd s head msg, pe_state s = PMetrics -> length head = 10%nat ->
  pe_buf s = head ++ msg -> reliable (pe_writer s) -> nlen msg < 2 ^ 64 ->
  exists s' len, flush_buf bd s = (s', ROk) /\ pe_state s' = PInit /\
    w_out (pe_writer s') = w_out (pe_writer s) ++ len ++ msg /\
    read_varint (len ++ msg) = Some (nlen msg, msg) /\ length (pe_buf s') = 10%nat.
Proof.
  intros bd s h msg ST L B R NB. unfold flush_buf. rewrite ST, B, nlen_app.
  rewrite (nlen_length h), L. change (N.of_nat 10) with 10.
  destruct (N.ltb_spec (10 + nlen msg) 10); [lia|].
  replace (10 + nlen msg - 10) with (nlen msg) by lia.
  set (n := nlen msg) in *. pose proof (encoded_len_bounds n) as LB.
  set (off := N.to_nat (10 - encoded_len_varint n)).
  assert (LV : (off + length (encode_varint n))%nat = 10%nat).
  { pose proof (encoded_len_exact n) as EX. rewrite nlen_length in EX. unfold off. lia. }
  rewrite LV.
  assert (F1 : firstn off (h ++ msg) = firstn off h).
  { rewrite firstn_app. replace (off - length h)%nat with 0%nat by (rewrite L; lia). cbn. apply app_nil_r. }
  assert (S1 : skipn 10 (h ++ msg) = msg).
  { rewrite skipn_app, L, Nat.sub_diag. rewrite <- L, skipn_all. reflexivity. }
  rewrite F1, S1.
  assert (LF : length (firstn off h) = off) by (rewrite firstn_length, L; unfold off; lia).
  assert (S2 : skipn off (firstn off h ++ encode_varint n ++ msg) = encode_varint n ++ msg).
  { rewrite skipn_app, LF, Nat.sub_diag. rewrite <- LF at 1. rewrite skipn_all. reflexivity. }
  rewrite S2. destruct (write_all_reliable (encode_varint n ++ msg) (pe_writer s) R) as (w' & -> & R' & O').
  eexists _, (encode_varint n). split; [reflexivity|]. split; [reflexivity|]. split; [exact O'|].
  split; [now apply read_varint_encode|]. cbn [pe_buf].
  unfold resize10. rewrite app_length, firstn_length, repeat_length, !app_length, LF. lia.
Qed.

Lemma round_trip_exact : forall ryu bd gs fss w, Forall2 (group_families []) gs fss ->
  Forall rf_ok (concat fss) -> Forall rf_bits_ok (concat fss) -> ~ misleading (concat fss) ->
  Forall (fun f => Forall (fun p => match snd p with
                                    | MCounter c => (c <= 2 ^ 53)%N
                                    | MGauge z => (- 2 ^ 53 <= z <= 2 ^ 53)%Z
                                    | _ => True
                                    end) (rf_samples f)) (concat fss) ->
  reliable w -> w_out w = [] ->
  exists s, proto_scrapes ryu bd gs (proto_new w) = (s, ROk) /\
    (nlen (w_out (pe_writer s)) < 2 ^ 64 ->
     exists ps, read_stream (w_out (pe_writer s)) = Some ps /\
       Forall2 (family_shows ryu double_is) (with_samples (concat fss)) ps).
Proof.
  intros ryu bd gs fss w F OK BO NM SM R W.
  destruct (proto_round_trip ryu bd gs fss w F OK BO NM R W) as (s & E & D).
  exists s. split; [exact E|]. intros L. destruct (D L) as (ps & E2 & SH). exists ps. split; [exact E2|].
  assert (SM2 : Forall (fun f => Forall (fun p => match snd p with
                                    | MCounter c => (c <= 2 ^ 53)%N
                                    | MGauge z => (- 2 ^ 53 <= z <= 2 ^ 53)%Z
                                    | _ => True
                                    end) (rf_samples f)) (with_samples (concat fss))).
  { apply Forall_forall. intros f H. rewrite Forall_forall in SM. apply SM. unfold with_samples in H. now apply filter_In in H. }
  clear - SH SM2. induction SH as [|f p fs ps SF _ IH]; [constructor|]. inversion SM2; subst. constructor; [|auto].
  destruct SF as (A & B & C & D). repeat split; auto. clear - D H1.
  induction D as [|x y xs ys X _ IH]; [constructor|]. inversion H1; subst. constructor; [|auto]. now apply exact_metrics.
Qed.
