(** Wire level facts about the protobuf encoder. *)
From Coq Require Import String List NArith ZArith Bool Lia ZifyBool ZifyN ZifyNat.
From Verif Require Import Base BaseFacts Writer NameModel NameSpec NameProofs LabelModel FloatModel EncoderModel
  TextModel TextSpec EncoderSpec EncoderProofs TextProofs TextParseProofs ProtoModel ProtoSpec.
Import ListNotations.
Local Open Scope N_scope.

(** ** Varints *)

Lemma low_group : forall v, N.lor (N.land v 127) 128 = v mod 128 + 128.
Proof.
  assert (F : forallb (fun i => N.lor (N.of_nat i) 128 =? N.of_nat i + 128) (seq 0 128) = true)
    by (vm_compute; reflexivity).
  rewrite forallb_forall in F.
  intros v. change 127 with (N.ones 7). rewrite N.land_ones. change (2 ^ 7) with 128.
  specialize (F (N.to_nat (v mod 128))). rewrite N2Nat.id in F. apply N.eqb_eq, F.
  apply in_seq. pose proof (N.mod_lt v 128). lia.
Qed.

Lemma shift7 : forall v, N.shiftr v 7 = v / 128.
Proof. intros v. rewrite N.shiftr_div_pow2. reflexivity. Qed.

Lemma varint_read_upto : forall n v rest, (0 < n)%nat -> v < 128 ^ N.of_nat n ->
  read_varint_upto n (varint_loop n v ++ rest) = Some (v, rest).
Proof.
  induction n as [|n IH]; intros v rest P L; [lia|]. cbn [varint_loop].
  destruct (N.ltb_spec v 128).
  - cbn [app read_varint_upto]. destruct (N.ltb_spec v 128); [reflexivity|lia].
  - cbn [app read_varint_upto]. rewrite low_group, shift7.
    destruct (N.ltb_spec (v mod 128 + 128) 128); [lia|].
    rewrite Nat2N.inj_succ, N.pow_succ_r' in L.
    assert (v / 128 < 128 ^ N.of_nat n) by (apply N.div_lt_upper_bound; lia).
    destruct n as [|n]; [cbn in *; lia|].
    rewrite IH by (assumption || lia). f_equal. f_equal.
    pose proof (N.div_mod v 128). lia.
Qed.

Lemma read_varint_encode : forall v rest, v < 2 ^ 64 -> read_varint (encode_varint v ++ rest) = Some (v, rest).
Proof.
  intros v rest H. apply varint_read_upto; [lia|].
  eapply N.lt_le_trans; [exact H|]. vm_compute. discriminate.
Qed.

Lemma log2_div128 : forall v, 128 <= v -> N.log2 v = N.log2 (v / 128) + 7.
Proof.
  intros v H. change 128 with (2 ^ 7). rewrite <- N.shiftr_div_pow2, N.log2_shiftr.
  assert (7 <= N.log2 v) by (change 7 with (N.log2 128); apply N.log2_le_mono, H). lia.
Qed.

Lemma varint_loop_len : forall n v, nlen (varint_loop n v) = N.min (N.of_nat n) (N.log2 v / 7 + 1).
Proof.
  induction n as [|n IH]; intros v; cbn [varint_loop]; [cbn [nlen]; lia|].
  destruct (N.ltb_spec v 128).
  - assert (N.log2 v <= 6) by (change 6 with (N.log2 127); apply N.log2_le_mono; lia).
    rewrite (N.div_small (N.log2 v) 7) by lia. cbn [nlen]. lia.
  - cbn [nlen]. rewrite IH, shift7, (log2_div128 v) by assumption.
    replace (N.log2 (v / 128) + 7) with (N.log2 (v / 128) + 1 * 7) by lia.
    rewrite N.div_add by lia. lia.
Qed.

(** All of the 64 positions of the highest bit. *)
Lemma len_formula : forall k, k < 64 -> (N.lxor (63 - k) 63 * 9 + 73) / 64 = k / 7 + 1.
Proof.
  assert (F : forallb (fun i => let k := N.of_nat i in (N.lxor (63 - k) 63 * 9 + 73) / 64 =? k / 7 + 1) (seq 0 64) = true)
    by (vm_compute; reflexivity).
  rewrite forallb_forall in F. intros k H. specialize (F (N.to_nat k)).
  rewrite N2Nat.id in F. apply N.eqb_eq, F. apply in_seq. lia.
Qed.

Lemma encoded_len_exact : forall v, nlen (encode_varint v) = encoded_len_varint v.
Proof.
  intros v. unfold encode_varint. rewrite varint_loop_len. unfold encoded_len_varint, leading_zeros.
  rewrite N.log2_lor. change (N.log2 1) with 0. rewrite N.max_0_r.
  destruct (N.lt_ge_cases (N.log2 v) 64) as [L|L].
  - rewrite len_formula by exact L.
    assert (N.log2 v / 7 <= 63 / 7) by (apply N.div_le_mono; lia). change (63 / 7) with 9 in *. lia.
  - replace (63 - N.log2 v) with 0 by lia.
    assert (64 / 7 <= N.log2 v / 7) by (apply N.div_le_mono; lia). change (64 / 7) with 9 in *.
    change ((N.lxor 0 63 * 9 + 73) / 64) with 10. lia.
Qed.

Lemma encoded_len_bounds : forall v, 1 <= encoded_len_varint v <= 10.
Proof. intros v. rewrite <- encoded_len_exact. unfold encode_varint. rewrite varint_loop_len. lia. Qed.

Lemma encode_varint_cons : forall v, encode_varint v <> [].
Proof. intros v E. pose proof (encoded_len_exact v) as H. rewrite E in H. pose proof (encoded_len_bounds v). cbn in H. lia. Qed.

(** ** Fields *)

Definition known_tag (t : N) : Prop := t = 1 \/ t = 2 \/ t = 3 \/ t = 4.

Definition enc_field (f : N * wire) : bytes :=
  match snd f with
  | WVarint v => encode_key (fst f) wt_varint ++ encode_varint v
  | WFixed64 v => encode_key (fst f) wt_sixty_four_bit ++ le_bytes 8 v
  | WBytes b => encode_key (fst f) wt_length_delimited ++ encode_varint (nlen b) ++ b
  end.
Definition enc_fields (l : list (N * wire)) : bytes := concat (map enc_field l).

Definition field_small (f : N * wire) : Prop :=
  known_tag (fst f) /\
  match snd f with WVarint v | WFixed64 v => v < 2 ^ 64 | WBytes b => nlen b < 2 ^ 64 end.

Lemma enc_fields_app : forall a b, enc_fields (a ++ b) = enc_fields a ++ enc_fields b.
Proof. intros. unfold enc_fields. now rewrite map_app, concat_app. Qed.

Lemma enc_fields_one : forall f, enc_fields [f] = enc_field f.
Proof. intros. unfold enc_fields. cbn [map concat]. apply app_nil_r. Qed.

Lemma le_bytes_value : forall n x, x < 256 ^ N.of_nat n -> le_value (le_bytes n x) = x.
Proof.
  induction n as [|n IH]; intros x H; cbn [le_bytes le_value].
  - cbn in H. lia.
  - rewrite Nat2N.inj_succ, N.pow_succ_r' in H. rewrite IH by (apply N.div_lt_upper_bound; lia).
    pose proof (N.div_mod x 256). lia.
Qed.

Lemma le_bytes_len : forall n x, length (le_bytes n x) = n.
Proof. induction n; intros; cbn [le_bytes length]; auto. Qed.

Lemma take_app : forall a b, take (nlen a) (a ++ b) = Some (a, b).
Proof.
  intros a b. unfold take. rewrite nlen_app.
  destruct (N.ltb_spec (nlen a + nlen b) (nlen a)); [lia|].
  rewrite nlen_length, Nat2N.id, firstn_app, skipn_app, Nat.sub_diag, firstn_all, skipn_all.
  cbn. now rewrite app_nil_r.
Qed.

Lemma read_key : forall tag wt rest, known_tag tag -> wt < 3 ->
  read_varint (encode_key tag wt ++ rest) = Some (tag * 8 + wt, rest).
Proof.
  intros tag wt rest K W. assert (C : wt = 0 \/ wt = 1 \/ wt = 2) by lia.
  destruct K as [K|[K|[K|K]]], C as [C|[C|C]]; subst; reflexivity.
Qed.

Lemma read_enc_field : forall f rest, field_small f -> read_field (enc_field f ++ rest) = Some (f, rest).
Proof.
  intros [tag w] rest [K S]. cbn [fst snd] in *. unfold enc_field, read_field. cbn [fst snd].
  assert (D : forall wt, wt < 3 -> (tag * 8 + wt) / 8 = tag /\ (tag * 8 + wt) mod 8 = wt).
  { intros wt W. split.
    - rewrite N.div_add_l by lia. rewrite N.div_small by lia. lia.
    - rewrite N.add_comm, N.mod_add by lia. apply N.mod_small. lia. }
  destruct w as [v|v|b]; unfold wt_varint, wt_sixty_four_bit, wt_length_delimited; rewrite <- !app_assoc.
  - rewrite read_key by (auto; lia). destruct (D 0) as [-> ->]; [lia|]. cbn [N.eqb].
    rewrite read_varint_encode by exact S. reflexivity.
  - rewrite read_key by (auto; lia). destruct (D 1) as [-> ->]; [lia|].
    change (1 =? 0) with false. change (1 =? 1) with true. cbn iota.
    replace (take 8 (le_bytes 8 v ++ rest)) with (Some (le_bytes 8 v, rest)).
    + rewrite le_bytes_value by exact S. reflexivity.
    + symmetry. replace 8 with (nlen (le_bytes 8 v)) at 1 by (rewrite nlen_length, le_bytes_len; reflexivity).
      apply take_app.
  - rewrite read_key by (auto; lia). destruct (D 2) as [-> ->]; [lia|].
    change (2 =? 0) with false. change (2 =? 1) with false. change (2 =? 2) with true. cbn iota.
    rewrite read_varint_encode by exact S. rewrite take_app. reflexivity.
Qed.

Lemma enc_field_cons : forall f, known_tag (fst f) -> exists b t, enc_field f = b :: t.
Proof.
  intros [tag w] K. cbn in K. unfold enc_field. cbn [fst snd].
  destruct w; destruct K as [K|[K|[K|K]]]; subst; eexists _, _; reflexivity.
Qed.

Lemma read_enc_fields : forall l, Forall field_small l -> read_fields (enc_fields l) = Some l.
Proof.
  intros l F. unfold read_fields.
  assert (G : forall n, (length (enc_fields l) <= n)%nat -> read_fields_upto n (enc_fields l) = Some l).
  { induction F as [|f l S _ IH]; intros n L; [destruct n; reflexivity|].
    destruct (enc_field_cons f (proj1 S)) as (b & t & E).
    change (enc_fields (f :: l)) with (enc_field f ++ enc_fields l) in *.
    rewrite app_length, E in L. cbn [length] in L. destruct n as [|n]; [lia|].
    destruct (enc_field f ++ enc_fields l) as [|x y] eqn:X; [rewrite E in X; discriminate|].
    cbn [read_fields_upto]. rewrite <- X, read_enc_field by exact S. rewrite IH by lia. reflexivity. }
  apply G. lia.
Qed.

(** ** The bytes of a metric *)

Lemma key_len_exact : forall tag wt, known_tag tag -> wt < 3 -> nlen (encode_key tag wt) = key_len tag.
Proof.
  intros tag wt K W. assert (C : wt = 0 \/ wt = 1 \/ wt = 2) by lia.
  destruct K as [K|[K|[K|K]]], C as [C|[C|C]]; subst; reflexivity.
Qed.

Lemma string_encode_field : forall tag s, string_encode tag s = enc_field (tag, WBytes s).
Proof. reflexivity. Qed.

Lemma string_len_exact : forall tag s, known_tag tag -> nlen (string_encode tag s) = string_len tag s.
Proof.
  intros tag s K. unfold string_encode, string_len, wt_length_delimited.
  rewrite !nlen_app, key_len_exact, encoded_len_exact by (auto; lia). lia.
Qed.

Lemma double_len_exact : forall tag x, known_tag tag -> nlen (double_encode tag x) = double_len tag.
Proof.
  intros tag x K. unfold double_encode, double_len, wt_sixty_four_bit.
  rewrite nlen_app, key_len_exact by (auto; lia). rewrite (nlen_length (le_bytes 8 x)), le_bytes_len. reflexivity.
Qed.

Lemma message_len_exact : forall tag b, known_tag tag -> nlen (enc_field (tag, WBytes b)) = message_len tag (nlen b).
Proof.
  intros tag b K. unfold enc_field, message_len, wt_length_delimited. cbn [fst snd].
  rewrite !nlen_app, key_len_exact, encoded_len_exact by (auto; lia). lia.
Qed.

Lemma encode_message_exact : forall bd tag b, encode_message bd tag (nlen b) (Done b) = Done (enc_field (tag, WBytes b)).
Proof.
  intros bd tag b. unfold encode_message. cbn [obind]. rewrite N.eqb_refl. destruct bd; reflexivity.
Qed.

Section Proto.
  Variable ryu : f64 -> bytes.
  Variable bd : build.

  Definition pair_fields (n : bytes) (v : lvalue) : list (N * wire) :=
    [(1, WBytes n); (2, WBytes (proto_value_text ryu v))].
  Definition label_field (l : bytes * lvalue) : N * wire :=
    (1, WBytes (enc_fields (pair_fields (fst l) (snd l)))).

  Lemma len_visit_exact : forall v, len_visit ryu v = nlen (string_encode 2 (proto_value_text ryu v)).
  Proof.
    intros v. rewrite string_len_exact by (right; left; reflexivity).
    destruct v as [z|x|b]; cbn [len_visit proto_value_text]; try reflexivity.
    destruct (f_is_infinite x); [destruct (f_is_sign_positive x); reflexivity|].
    destruct (f_is_nan x); reflexivity.
  Qed.

  Lemma pair_len : forall n v, string_len 1 n + len_visit ryu v = nlen (enc_fields (pair_fields n v)).
  Proof.
    intros n v. unfold enc_fields, pair_fields. cbn [map concat]. rewrite app_nil_r, nlen_app.
    rewrite len_visit_exact. change (enc_field (1, WBytes n)) with (string_encode 1 n).
    rewrite (string_len_exact 1 n) by (left; reflexivity). reflexivity.
  Qed.

  Lemma proto_write_value_exact : forall n v, proto_write_value ryu bd n v = Done (enc_field (label_field (n, v))).
  Proof.
    intros n v. unfold proto_write_value. rewrite pair_len.
    replace (string_encode 1 n ++ string_encode 2 (proto_value_text ryu v)) with (enc_fields (pair_fields n v)).
    - apply encode_message_exact.
    - unfold enc_fields, pair_fields. cbn [map concat]. now rewrite app_nil_r.
  Qed.

  Lemma proto_visit_values_exact : forall ls,
    proto_visit_values ryu bd ls = Done (enc_fields (map label_field ls)) /\
    group_len ryu ls = nlen (enc_fields (map label_field ls)).
  Proof.
    induction ls as [|[n v] ls [IH1 IH2]]; cbn [proto_visit_values group_len map]; [split; reflexivity|].
    rewrite proto_write_value_exact, IH1, IH2. cbn [obind].
    change (enc_fields (label_field (n, v) :: map label_field ls))
      with (enc_field (label_field (n, v)) ++ enc_fields (map label_field ls)).
    split; [reflexivity|]. rewrite nlen_app. f_equal. unfold label_field at 1. cbn [fst snd].
    rewrite message_len_exact by (left; reflexivity). now rewrite pair_len.
  Qed.

  Definition value_fields (x : f64) : list (N * wire) := [(1, WFixed64 x)].
  Definition metric_fields (tag : N) (ls : labels) (x : f64) : list (N * wire) :=
    map label_field ls ++ [(tag, WBytes (enc_fields (value_fields x)))].
  Definition metric_field (tag : N) (ls : labels) (x : f64) : N * wire :=
    (4, WBytes (enc_fields (metric_fields tag ls x))).

  Lemma proto_put_metric_exact : forall tag ls x s, tag = 2 \/ tag = 3 ->
    proto_put_metric ryu bd tag ls x s = put (enc_field (metric_field tag ls x)) (set_pstate PMetrics s).
  Proof.
    intros tag ls x s T. unfold proto_put_metric.
    destruct (proto_visit_values_exact ls) as [-> ->]. cbn [obind].
    assert (K : known_tag tag) by (unfold known_tag; intuition).
    rewrite <- (double_len_exact 1 x) by (left; reflexivity).
    rewrite encode_message_exact. cbn [obind].
    assert (E : nlen (enc_fields (map label_field ls)) + message_len 3 (nlen (double_encode 1 x)) =
                nlen (enc_fields (map label_field ls) ++ enc_field (tag, WBytes (double_encode 1 x)))).
    { rewrite nlen_app, message_len_exact by exact K. f_equal. destruct T as [->| ->]; reflexivity. }
    rewrite E, encode_message_exact. unfold metric_field, metric_fields, value_fields.
    rewrite enc_fields_app, !enc_fields_one. reflexivity.
  Qed.
End Proto.
