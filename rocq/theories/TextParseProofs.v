(** Parsing what the text encoder writes (C36, C37, C38). *)
From Coq Require Import String List NArith ZArith Bool Lia ZifyBool ZifyN ZifyNat.
From Verif Require Import Base BaseFacts Writer NameModel NameSpec NameProofs LabelModel FloatModel
  EncoderModel TextModel TextSpec EncoderSpec EncoderProofs TextProofs.
Import ListNotations.
Local Open Scope N_scope.

(** ** Lines *)

Lemma split_lines_acc_line : forall x acc rest, ~ In 10 x ->
  split_lines_acc acc (x ++ 10 :: rest) = option_map (cons (rev acc ++ x)) (split_lines_acc [] rest).
Proof.
  induction x as [|b x IH]; intros acc rest H; cbn [app split_lines_acc].
  - rewrite N.eqb_refl, app_nil_r. reflexivity.
  - destruct (N.eqb_spec b 10) as [->|NE]; [exfalso; apply H; left; reflexivity|].
    rewrite IH by (intros X; apply H; right; exact X). cbn [rev]. rewrite <- app_assoc. reflexivity.
Qed.

Lemma split_unlines : forall l, Forall (fun x => ~ In 10 x) l -> split_lines (unlines l) = Some l.
Proof.
  induction l as [|x l IH]; intros F; [reflexivity|].
  inversion F; subst. rewrite unlines_cons, <- app_assoc. unfold split_lines. cbn [app].
  rewrite split_lines_acc_line by assumption.
  change (split_lines_acc [] (unlines l)) with (split_lines (unlines l)). rewrite IH by assumption. reflexivity.
Qed.

(** ** Escaping *)

Lemma quoted_esc : forall s rest, quoted (esc s ++ 34 :: rest) = Some (s, rest).
Proof.
  induction s as [|b s IH]; intros rest.
  - reflexivity.
  - cbn [esc flat_map]. change (flat_map esc1 s) with (esc s). rewrite <- app_assoc.
    unfold esc1, escape_byte.
    destruct (N.eqb_spec b 92) as [->|N1]; [|destruct (N.eqb_spec b 34) as [->|N2];
      [|destruct (N.eqb_spec b 10) as [->|N3]]].
    + cbn [app quoted N.eqb Pos.eqb]. rewrite IH. reflexivity.
    + cbn [app quoted N.eqb Pos.eqb]. rewrite IH. reflexivity.
    + cbn [app quoted N.eqb Pos.eqb]. rewrite IH. reflexivity.
    + cbn [app quoted].
      destruct (N.eqb_spec b 34); [congruence|]. destruct (N.eqb_spec b 10); [congruence|].
      destruct (N.eqb_spec b 92); [congruence|]. rewrite IH. reflexivity.
Qed.

Lemma esc_no_newline : forall s, ~ In 10 (esc s).
Proof.
  induction s as [|b s IH]; [easy|]. cbn [esc flat_map]. change (flat_map esc1 s) with (esc s).
  rewrite in_app_iff. intros [H|H]; [|auto]. revert H. unfold esc1, escape_byte.
  destruct (N.eqb_spec b 92); [|destruct (N.eqb_spec b 34); [|destruct (N.eqb_spec b 10)]];
    cbn; intuition congruence.
Qed.

(** ** Numbers *)

Lemma digits_chars : forall fuel n, Forall (fun b => 48 <= b <= 57) (digits fuel n).
Proof.
  induction fuel; intros n; cbn [digits]; [constructor|].
  destruct (N.ltb_spec n 10).
  - constructor; [lia|constructor].
  - apply Forall_app. split; [apply IHfuel|].
    assert (n mod 10 < 10) by (apply N.mod_lt; lia). constructor; [lia|constructor].
Qed.

Lemma read_digits_app : forall a b acc, read_digits acc (a ++ b) =
  match read_digits acc a with Some x => read_digits x b | None => None end.
Proof.
  induction a as [|x a IH]; intros b acc; cbn [app read_digits]; [reflexivity|].
  destruct (digit x); auto.
Qed.

Lemma read_digits_digits : forall fuel n, n < 2 ^ N.of_nat fuel ->
  (fuel <> 0)%nat -> read_digits 0 (digits fuel n) = Some n.
Proof.
  induction fuel as [|f IH]; intros n H NZ; [congruence|].
  cbn [digits]. destruct (N.ltb_spec n 10).
  - cbn [read_digits]. assert (D : digit (48 + n) = true) by (unfold digit, between; lia).
    rewrite D. f_equal. lia.
  - rewrite read_digits_app. rewrite IH.
    + cbn [read_digits]. assert (M : n mod 10 < 10) by (apply N.mod_lt; lia).
      assert (D : digit (48 + n mod 10) = true) by (unfold digit, between; lia).
      rewrite D. f_equal. pose proof (N.div_mod n 10). lia.
    + rewrite Nat2N.inj_succ, N.pow_succ_r' in H.
      apply N.div_lt_upper_bound; [lia|]. lia.
    + intros ->. cbn in H. lia.
Qed.

Lemma itoa_nat_read : forall n, read_digits 0 (itoa_nat n) = Some n.
Proof.
  intros n. unfold itoa_nat. apply read_digits_digits; [|congruence].
  rewrite Nat2N.inj_succ, N2Nat.id. destruct n as [|p]; [reflexivity|].
  apply N.log2_spec. reflexivity.
Qed.

Lemma itoa_nat_cons : forall n, exists b t, itoa_nat n = b :: t /\ 48 <= b <= 57.
Proof.
  intros n. destruct (itoa_nat n) as [|b t] eqn:E.
  - exfalso. unfold itoa_nat in E. cbn [digits] in E. destruct (n <? 10); [discriminate|].
    apply app_eq_nil in E. destruct E; discriminate.
  - exists b, t. split; auto. pose proof (digits_chars (S (N.to_nat (N.log2 n))) n) as F.
    unfold itoa_nat in E. rewrite E in F. inversion F; auto.
Qed.

Lemma read_itoa : forall z, read_int (itoa z) = Some z.
Proof.
  assert (POS : forall n, read_int (itoa_nat n) = Some (Z.of_N n)).
  { intros n. destruct (itoa_nat_cons n) as (b & t & E & H). pose proof (itoa_nat_read n) as R.
    rewrite E in *. unfold read_int. destruct (N.eqb_spec b 45); [lia|]. rewrite R. reflexivity. }
  intros [|p|p]; unfold itoa.
  - apply POS.
  - rewrite POS. reflexivity.
  - destruct (itoa_nat_cons (N.pos p)) as (b & t & E & H). pose proof (itoa_nat_read (N.pos p)) as R.
    unfold read_int. rewrite N.eqb_refl. rewrite E in *. rewrite R. reflexivity.
Qed.

(** Bytes that cannot end a token or a line. *)
Definition token (s : bytes) : Prop := s <> [] /\ Forall (fun b => b <> 32 /\ b <> 9 /\ b <> 10 /\ b <> 123) s.

Lemma itoa_token : forall z, token (itoa z).
Proof.
  assert (POS : forall n, token (itoa_nat n)).
  { intros n. split.
    - destruct (itoa_nat_cons n) as (b & t & -> & _). discriminate.
    - unfold itoa_nat. eapply Forall_impl; [|apply digits_chars]. cbn. lia. }
  intros [|p|p]; unfold itoa; auto.
  split; [discriminate|]. constructor; [lia|]. apply POS.
Qed.

(** ** Names *)

Lemma name_char_const : forall b, name_char b = const_metric_char b.
Proof. intros. unfold name_char, name_start, letter, digit, between, const_metric_char, in_range. lia. Qed.
Lemma label_rest_char : forall b, label_rest b = label_char b.
Proof. intros. unfold label_rest, label_start, letter, digit, between, label_char, in_range. lia. Qed.

Lemma span_forall : forall (p : N -> bool) x rest,
  Forall (fun b => p b = true) x -> (forall b t, rest = b :: t -> p b = false) ->
  span p (x ++ rest) = (x, rest).
Proof.
  induction x as [|b x IH]; intros rest F R; cbn [app span].
  - destruct rest as [|b t]; [reflexivity|]. cbn. rewrite (R b t eq_refl). reflexivity.
  - inversion F; subst. rewrite H1. rewrite IH; auto.
Qed.

Lemma valid_metric_name_cons : forall n, valid_metric_name n ->
  exists b t, n = b :: t /\ name_start b = true /\ Forall (fun b => name_char b = true) t.
Proof.
  intros n H. apply valid_metric_nameb_spec in H. destruct n as [|b t]; [discriminate|].
  exists b, t. unfold valid_metric_nameb in H. apply andb_true_iff in H as [H D].
  cbn [forallb] in H. apply andb_true_iff in H as [B T]. repeat split.
  - rewrite <- name_char_const in B. unfold name_char in B. unfold is_ascii_digit, in_range in D.
    unfold digit, between in B. lia.
  - apply Forall_forall. intros x X. rewrite name_char_const. eapply forallb_forall in T; eauto.
Qed.

Lemma valid_label_name_cons : forall n, valid_label_name n ->
  exists b t, n = b :: t /\ label_start b = true /\ Forall (fun b => label_rest b = true) t.
Proof.
  intros n H. apply valid_label_nameb_spec in H. destruct n as [|b t]; [discriminate|].
  exists b, t. unfold valid_label_nameb in H. apply andb_true_iff in H as [H D].
  cbn [forallb] in H. apply andb_true_iff in H as [B T]. repeat split.
  - rewrite <- label_rest_char in B. unfold label_rest in B. unfold is_ascii_digit, in_range in D.
    unfold digit, between in B. lia.
  - apply Forall_forall. intros x X. rewrite label_rest_char. eapply forallb_forall in T; eauto.
Qed.

Lemma take_metric_name : forall n rest, valid_metric_name n ->
  (forall b t, rest = b :: t -> name_char b = false) ->
  take_name name_start name_char (n ++ rest) = Some (n, rest).
Proof.
  intros n rest V R. destruct (valid_metric_name_cons n V) as (b & t & -> & B & T).
  cbn [app take_name]. rewrite B, span_forall; auto.
Qed.

Lemma take_label_name : forall n rest, valid_label_name n ->
  (forall b t, rest = b :: t -> label_rest b = false) ->
  take_name label_start label_rest (n ++ rest) = Some (n, rest).
Proof.
  intros n rest V R. destruct (valid_label_name_cons n V) as (b & t & -> & B & T).
  cbn [app take_name]. rewrite B, span_forall; auto.
Qed.

Lemma name_no_newline : forall n, valid_metric_name n -> ~ In 10 n.
Proof.
  intros n V I. apply valid_chars in V. rewrite Forall_forall in V. specialize (V _ I). discriminate.
Qed.
Lemma label_name_no_newline : forall n, valid_label_name n -> ~ In 10 n.
Proof.
  intros n V I. destruct (valid_label_name_cons n V) as (b & t & -> & B & T).
  destruct I as [->|I]; [discriminate|]. rewrite Forall_forall in T. specialize (T _ I). discriminate.
Qed.

Lemma skip_blanks_not : forall b t, blank b = false -> skip_blanks (b :: t) = b :: t.
Proof. intros. cbn [skip_blanks]. rewrite H. reflexivity. Qed.

Lemma expect_hit : forall c t, blank c = false -> expect c (c :: t) = Some t.
Proof. intros. unfold expect. rewrite skip_blanks_not by auto. rewrite N.eqb_refl. reflexivity. Qed.

Lemma expect_miss : forall c b t, blank b = false -> b <> c -> expect c (b :: t) = None.
Proof.
  intros. unfold expect. rewrite skip_blanks_not by auto.
  destruct (N.eqb_spec b c); congruence.
Qed.

Ltac norm_app := repeat (progress (rewrite <- ?app_assoc; cbn [app])).

Ltac take_it n b t E V :=
  match goal with |- context [take_name label_start label_rest (b :: t ++ ?r)] =>
    let T := fresh in
    assert (T : take_name label_start label_rest (b :: t ++ r) = Some (n, r)) by
      (change (b :: t ++ r) with ((b :: t) ++ r); rewrite <- E; apply take_label_name;
       [exact V|intros ? ? X; inversion X; reflexivity]);
    rewrite T; clear T
  end.

Section Text.
  Variable ryu : f64 -> bytes.
  Variable bd : build.
  Hypothesis RYU : float_text_ok ryu.

  Definition shown (ls : labels) : list (bytes * bytes) :=
    map (fun l => (fst l, lval_text ryu (snd l))) ls.

  (** A label without the leading brace or comma. *)
  Definition label_body (n : bytes) (v : lvalue) : bytes :=
    n ++ [61; 34] ++ esc (lval_text ryu v) ++ [34].

  Lemma labels_text_false : forall ls,
    labels_text ryu ls false = flat_map (fun l => 44 :: label_body (fst l) (snd l)) ls.
  Proof.
    induction ls as [|[n v] ls IH]; [reflexivity|].
    cbn [labels_text flat_map fst snd]. rewrite IH. reflexivity.
  Qed.

  Lemma label_start_not_blank : forall b, label_start b = true -> blank b = false /\ b <> 125.
  Proof. intros b. unfold label_start, letter, between, blank. lia. Qed.

  Lemma parse_labels_text : forall ls n v fuel rest,
    valid_label_name n -> labels_valid ls -> (length ls < fuel)%nat ->
    parse_labels fuel (label_body n v ++ labels_text ryu ls false ++ 125 :: rest) =
      Some (shown ((n, v) :: ls), rest).
  Proof.
    induction ls as [|[n' v'] ls IH]; intros n v fuel rest V VL L.
    - destruct fuel as [|fuel]; [lia|]. unfold label_body. cbn [labels_text app parse_labels].
      destruct (valid_label_name_cons n V) as (b & t & E & B & T).
      destruct (label_start_not_blank b B) as [NB N125].
      rewrite E. norm_app.
      rewrite expect_miss by auto. rewrite skip_blanks_not by auto.
      take_it n b t E V.
      rewrite !expect_hit by reflexivity. norm_app. rewrite quoted_esc.
      rewrite expect_hit by reflexivity. rewrite <- E. reflexivity.
    - destruct fuel as [|fuel]; [lia|]. unfold label_body. cbn [parse_labels].
      destruct (valid_label_name_cons n V) as (b & t & E & B & T).
      destruct (label_start_not_blank b B) as [NB N125].
      rewrite E. norm_app.
      rewrite expect_miss by auto. rewrite skip_blanks_not by auto.
      take_it n b t E V.
      rewrite !expect_hit by reflexivity. norm_app. rewrite quoted_esc.
      inversion VL; subst. cbn [labels_text]. unfold label_text. norm_app.
      rewrite expect_miss by (reflexivity || congruence).
      rewrite expect_hit by reflexivity.
      assert (I := IH n' v' fuel rest H1 H2 ltac:(cbn in L; lia)).
      unfold label_body in I. repeat (progress (rewrite <- ?app_assoc in I; cbn [app] in I)).
      norm_app. rewrite I.
      reflexivity.
  Qed.

  Lemma labels_text_length : forall ls, (length ls <= length (labels_text ryu ls false))%nat.
  Proof.
    induction ls as [|[n v] ls IH]; [auto|]. cbn [labels_text length]. rewrite app_length.
    unfold label_text. cbn [app length]. lia.
  Qed.

  Lemma token_span : forall v rest, token v -> (forall b t, rest = b :: t -> blank b = true) ->
    span (fun b => negb (blank b)) (v ++ rest) = (v, rest).
  Proof.
    intros v rest [_ F] R. apply span_forall.
    - eapply Forall_impl; [|exact F]. cbn. unfold blank. lia.
    - intros b t X. rewrite (R b t X). reflexivity.
  Qed.

  Lemma parse_value_text : forall n ts v, token v ->
    parse_value n ts (32 :: v) = Some (Sample n ts v None).
  Proof.
    intros n ts v T. unfold parse_value.
    assert (S : skip_blanks (32 :: v) = v).
    { destruct T as [NE F]. cbn [skip_blanks]. change (blank 32) with true. cbn.
      destruct v as [|b t]; [reflexivity|]. inversion F; subst. apply skip_blanks_not. unfold blank. lia. }
    rewrite S. rewrite <- (app_nil_r v) at 1. rewrite token_span; auto; [|discriminate].
    destruct T as [NE F]. destruct v; [congruence|]. reflexivity.
  Qed.

  Lemma ryu_token : forall x, token (ryu x).
  Proof.
    intros x. destruct (RYU x) as [NE F]. split; auto. apply Forall_forall. intros b I.
    rewrite forallb_forall in F. specialize (F b I). revert F.
    unfold float_char, digit, letter, between. lia.
  Qed.
  Lemma value_token : forall v, token (value_text ryu v).
  Proof. intros [z|x]; cbn [value_text]; [apply itoa_token|apply ryu_token]. Qed.

  Lemma name_start_props : forall b, name_start b = true -> blank b = false /\ b <> 35 /\ b <> 10.
  Proof. intros b. unfold name_start, letter, between, blank. lia. Qed.

  Lemma parse_sample_line : forall n ls v, valid_metric_name (name_bytes n) -> labels_valid ls ->
    parse_line (sample_line ryu n ls v) = Some (Sample (name_bytes n) (shown ls) (value_text ryu v) None).
  Proof.
    intros n ls v V VL. unfold sample_line.
    destruct (valid_metric_name_cons _ V) as (b & t & E & B & T).
    destruct (name_start_props b B) as (NB & N35 & N10).
    assert (P : forall rest, parse_line (name_bytes n ++ rest) = parse_sample (name_bytes n ++ rest)).
    { intros rest. unfold parse_line. rewrite E. cbn [app]. rewrite skip_blanks_not by auto.
      destruct (N.eqb_spec b 35); [congruence|reflexivity]. }
    rewrite P. unfold parse_sample. rewrite take_metric_name; auto.
    - destruct ls as [|[ln lv] ls].
      + cbn [labels_line app]. change (str " " ++ value_text ryu v) with (32 :: value_text ryu v).
        assert (X : expect 123 (32 :: value_text ryu v) = None).
        { pose proof (value_token v) as [NE F]. unfold expect. cbn [skip_blanks].
          change (blank 32) with true. cbn iota. destruct (value_text ryu v) as [|c u] eqn:Ev; [congruence|].
          inversion F; subst. rewrite skip_blanks_not by (unfold blank; lia).
          destruct (N.eqb_spec c 123); [lia|reflexivity]. }
        rewrite X. rewrite parse_value_text by apply value_token. reflexivity.
      + assert (LL : labels_line ryu ((ln, lv) :: ls) = 123 :: label_body ln lv ++ labels_text ryu ls false ++ [125]).
        { unfold labels_line. cbn [labels_text]. unfold label_text, label_body.
          rewrite <- !app_assoc. reflexivity. }
        rewrite LL. cbn [app]. rewrite expect_hit by reflexivity.
        inversion VL; subst.
        rewrite <- !app_assoc. cbn [app].
        rewrite parse_labels_text; auto.
        * apply parse_value_text. apply value_token.
        * pose proof (labels_text_length ls). rewrite !app_length. lia.
    - intros c u X. destruct ls as [|[ln lv] ls].
      + inversion X. reflexivity.
      + unfold labels_line in X. cbn [labels_text] in X. unfold label_text in X. inversion X. reflexivity.
  Qed.

  Lemma sample_line_no_newline : forall n ls v, valid_metric_name (name_bytes n) -> labels_valid ls ->
    ~ In 10 (sample_line ryu n ls v).
  Proof.
    intros n ls v V VL. unfold sample_line. rewrite !in_app_iff.
    assert (LT : forall f ls, labels_valid ls -> ~ In 10 (labels_text ryu ls f)).
    { clear - ryu. intros f ls. revert f. induction ls as [|[ln lv] ls IH]; intros f VL; [easy|].
      cbn [labels_text]. unfold label_text. rewrite !in_app_iff. inversion VL; subst.
      pose proof (label_name_no_newline ln H1). pose proof (esc_no_newline (lval_text ryu lv)).
      specialize (IH false H2).
      intros [[X|[X|[X|[X|X]]]]|X]; try tauto; [destruct f| |]; cbn in X; intuition congruence. }
    intros [X|[X|[X|X]]].
    - revert X. apply name_no_newline, V.
    - unfold labels_line in X. destruct ls as [|l ls]; [easy|]. rewrite in_app_iff in X.
      destruct X as [X|X]; [revert X; apply LT, VL|]. cbn in X. intuition congruence.
    - cbn in X. intuition congruence.
    - pose proof (value_token v) as [_ F]. rewrite Forall_forall in F. specialize (F _ X). lia.
  Qed.

  (** ** Headers *)

  Lemma unescape_plain : forall h, ~ In 92 h -> unescape_help h = Some h.
  Proof.
    induction h as [|b h IH]; intros H; [reflexivity|]. cbn [unescape_help].
    destruct (N.eqb_spec b 92); [exfalso; apply H; left; congruence|].
    rewrite IH; [reflexivity|]. intros X. apply H. right. exact X.
  Qed.

  Lemma skip_blanks_In : forall x h, In x (skip_blanks h) -> In x h.
  Proof.
    induction h as [|b h IH]; cbn [skip_blanks]; [auto|]. destruct (blank b); [|auto].
    intros X. right. auto.
  Qed.

  Lemma parse_help_line : forall n h, valid_metric_name (name_bytes n) -> plain_help h ->
    parse_line (help_line n h) = Some (Help (name_bytes n) (skip_blanks h)).
  Proof.
    intros n h V [H10 H92]. unfold help_line, parse_line.
    change (str "# HELP ") with [35; 32; 72; 69; 76; 80; 32]. cbn [app skip_blanks blank N.eqb Pos.eqb orb].
    unfold parse_comment. cbn [skip_blanks blank N.eqb Pos.eqb orb].
    cbn [span blank N.eqb Pos.eqb orb negb].
    change (beqb [72; 69; 76; 80] (str "HELP")) with true. cbn iota.
    cbn [skip_blanks blank N.eqb Pos.eqb orb].
    destruct (valid_metric_name_cons _ V) as (b & t & E & B & T).
    destruct (name_start_props b B) as (NB & N35 & N10).
    assert (S : skip_blanks (name_bytes n ++ str " " ++ h) = name_bytes n ++ str " " ++ h).
    { rewrite E. cbn [app]. apply skip_blanks_not, NB. }
    rewrite S. rewrite take_metric_name; auto; [|intros c u X; inversion X; reflexivity].
    change (str " " ++ h) with (32 :: h). cbn [blank N.eqb Pos.eqb orb].
    rewrite unescape_plain; [reflexivity|]. intros X. apply H92. eapply skip_blanks_In, X.
  Qed.

  Lemma help_line_no_newline : forall n h, valid_metric_name (name_bytes n) -> plain_help h ->
    ~ In 10 (help_line n h).
  Proof.
    intros n h V [H10 H92]. unfold help_line. rewrite !in_app_iff.
    pose proof (name_no_newline _ V). cbn. intuition congruence.
  Qed.

  Lemma parse_type_line : forall n k, valid_metric_name (name_bytes n) ->
    parse_line (type_line n k) = Some (Type_ (name_bytes n) (kind_word k)).
  Proof.
    intros n k V. unfold type_line, parse_line.
    change (str "# TYPE ") with [35; 32; 84; 89; 80; 69; 32]. cbn [app skip_blanks blank N.eqb Pos.eqb orb].
    unfold parse_comment. cbn [skip_blanks blank N.eqb Pos.eqb orb].
    cbn [span blank N.eqb Pos.eqb orb negb].
    change (beqb [84; 89; 80; 69] (str "HELP")) with false.
    change (beqb [84; 89; 80; 69] (str "TYPE")) with true. cbn iota.
    cbn [skip_blanks blank N.eqb Pos.eqb orb].
    destruct (valid_metric_name_cons _ V) as (b & t & E & B & T).
    destruct (name_start_props b B) as (NB & N35 & N10).
    assert (S : skip_blanks (name_bytes n ++ str " " ++ kind_word k) = name_bytes n ++ str " " ++ kind_word k).
    { rewrite E. cbn [app]. apply skip_blanks_not, NB. }
    rewrite S. rewrite take_metric_name; auto; [|intros c u X; inversion X; reflexivity].
    destruct k; reflexivity.
  Qed.

  Lemma type_line_no_newline : forall n k, valid_metric_name (name_bytes n) -> ~ In 10 (type_line n k).
  Proof.
    intros n k V. unfold type_line. rewrite !in_app_iff.
    pose proof (name_no_newline _ V). destruct k; cbn; intuition congruence.
  Qed.

  (** ** Names of events *)

  Lemma name_of_bytes : forall nss base, name_bytes (name_of nss base) = full_name nss base [].
  Proof.
    intros. rewrite name_bytes_full.
    assert (forall b, namespaces_of (name_of nss b) = nss /\ base_of (name_of nss b) = b /\ suffixes_of (name_of nss b) = []).
    { induction nss as [|ns nss IH]; intros b; [auto|]. destruct (IH b) as (A & B & C).
      cbn. unfold name_of in *. rewrite A, B, C. auto. }
    destruct (H base) as (-> & -> & ->). reflexivity.
  Qed.
  Lemma name_of_suffix : forall nss base s,
    name_bytes (NSuffix (name_of nss base) s) = full_name nss base [suffix_word s].
  Proof.
    intros. rewrite name_bytes_full.
    assert (forall b, namespaces_of (name_of nss b) = nss /\ base_of (name_of nss b) = b /\ suffixes_of (name_of nss b) = []).
    { induction nss as [|ns nss IH]; intros b; [auto|]. destruct (IH b) as (A & B & C).
      cbn. unfold name_of in *. rewrite A, B, C. auto. }
    cbn [namespaces_of base_of suffixes_of].
    destruct (H base) as (-> & -> & ->). reflexivity.
  Qed.

  Lemma name_of_valid : forall nss base, Forall valid_metric_name (base :: nss) ->
    parts_valid (name_of nss base).
  Proof.
    intros nss base F. inversion F; subst. clear F. unfold name_of.
    induction H2; cbn; auto.
  Qed.

  (** ** Labels shown *)

  Lemma lval_shows : forall v, label_shows ryu v (lval_text ryu v).
  Proof.
    intros [z|x|s]; cbn [label_shows lval_text]; [apply read_itoa| |reflexivity].
    unfold float_label_text, f_is_infinite, f_is_nan, f_is_sign_positive, f_decode.
    destruct (f_exp x =? 2047); cbn [andb].
    - destruct (f_mant x =? 0); cbn [negb]; [|reflexivity].
      destruct (f_sign x); reflexivity.
    - destruct (if f_exp x =? 0 then f_mant x else f_mant x + 2 ^ 52); reflexivity.
  Qed.

  Lemma shown_show : forall ls, labels_show ryu ls (shown ls).
  Proof.
    induction ls as [|[n v] ls IH]; constructor; auto. split; [reflexivity|]. apply lval_shows.
  Qed.

  (** ** Samples *)

  Definition lines_parse (ls : list bytes) (items : list item) : Prop :=
    parse_lines ls = Some items /\ Forall (fun x => ~ In 10 x) ls.

  Lemma parse_lines_app : forall a b x y, parse_lines a = Some x -> parse_lines b = Some y ->
    parse_lines (a ++ b) = Some (x ++ y).
  Proof.
    induction a as [|l a IH]; intros b x y A B; cbn [app parse_lines] in *.
    - inversion A; subst. exact B.
    - destruct (parse_line l) as [i|]; [|discriminate]. destruct (parse_lines a) as [r|] eqn:E; [|discriminate].
      inversion A; subst. rewrite (IH b r y eq_refl B). reflexivity.
  Qed.

  Lemma lines_parse_app : forall a b x y, lines_parse a x -> lines_parse b y -> lines_parse (a ++ b) (x ++ y).
  Proof.
    intros a b x y [A A'] [B B']. split; [apply parse_lines_app; auto|]. apply Forall_app; auto.
  Qed.

  Lemma lines_parse_one : forall l i, parse_line l = Some i -> ~ In 10 l -> lines_parse [l] [i].
  Proof. intros l i P N. split; [cbn; rewrite P; reflexivity|auto]. Qed.

  Lemma lines_parse_cons : forall l i ls is, parse_line l = Some i -> ~ In 10 l -> lines_parse ls is ->
    lines_parse (l :: ls) (i :: is).
  Proof. intros. apply (lines_parse_app [l] ls [i] is); auto. apply lines_parse_one; auto. Qed.

  Lemma sample_lines_parse : forall n ls v, valid_metric_name (name_bytes n) -> labels_valid ls ->
    lines_parse [sample_line ryu n ls v] [Sample (name_bytes n) (shown ls) (value_text ryu v) None].
  Proof.
    intros. apply lines_parse_one; [apply parse_sample_line|apply sample_line_no_newline]; auto.
  Qed.

  Lemma u64_small : forall c, c < 2 ^ 63 -> u64_as_i64 c = Z.of_N c.
  Proof.
    intros c H. unfold u64_as_i64, to_i64. change (Z.of_N W64) with (2 ^ 64)%Z.
    assert ((Z.of_N c < 2 ^ 63)%Z) by (change (2 ^ 63)%Z with (Z.of_N (2 ^ 63)); lia).
    rewrite Z.mod_small by (change (2 ^ 64)%Z with (2 * 2 ^ 63)%Z; lia).
    destruct (Z.ltb_spec (Z.of_N c) (2 ^ 63)); lia.
  Qed.

  Lemma u64_add_small : forall a b, a + b < 2 ^ 63 -> u_add bd a b = Done (a + b).
  Proof.
    intros. apply u_add_small. rewrite W64_eq. change (2 ^ 64) with (2 * 2 ^ 63). lia.
  Qed.

  Definition le_valid : valid_label_name (str "le").
  Proof. apply valid_label_nameb_spec. reflexivity. Qed.

  Lemma labels_valid_le : forall ls t, labels_valid ls -> labels_valid (ls ++ [(str "le", LFloat t)]).
  Proof. intros ls t V. apply Forall_app. split; [exact V|]. constructor; [apply le_valid|constructor]. Qed.

  (** The bucket lines, the accumulated count being [val] before them. *)
  Definition bucket_item (name : bytes) (ls : labels) (t : f64) (v : N) : item :=
    Sample name (shown (ls ++ [(str "le", LFloat t)])) (itoa (Z.of_N v)) None.

  Fixpoint bucket_items (name : bytes) (ls : labels) (ts : list f64) (bs : list N) (val : N) : list item :=
    match ts, bs with
    | t :: ts', b :: bs' => bucket_item name ls t (val + b) :: bucket_items name ls ts' bs' (val + b)
    | _, _ => []
    end.

  Lemma sum_le : forall bs : list N, fold_right N.add 0 bs = first_buckets (length bs) bs.
  Proof. intros. unfold first_buckets. rewrite firstn_all. reflexivity. Qed.

  Lemma histogram_lines_text : forall ts bs inf sum val ls nss base,
    Forall valid_metric_name (base :: nss) -> labels_valid ls ->
    length ts = length bs -> val + fold_right N.add 0 bs + inf < 2 ^ 63 ->
    exists l, histogram_text ryu bd ts bs inf sum val ls (name_of nss base) = Some l /\
      lines_parse l (bucket_items (full_name nss base [str "bucket"]) ls ts bs val ++
        [bucket_item (full_name nss base [str "bucket"]) ls f_infinity (val + fold_right N.add 0 bs + inf);
         Sample (full_name nss base [str "sum"]) (shown ls) (ryu sum) None;
         Sample (full_name nss base [str "count"]) (shown ls) (itoa (Z.of_N (val + fold_right N.add 0 bs + inf))) None]).
  Proof.
    intros ts bs inf sum val ls nss base FV VL. revert bs val.
    pose proof (name_of_valid nss base FV) as PV.
    assert (NV : forall s, valid_metric_name (name_bytes (NSuffix (name_of nss base) s))).
    { intros s. apply name_bytes_valid. exact PV. }
    induction ts as [|t ts IH]; intros [|b bs] val L T; try discriminate.
    - cbn [histogram_text fold_right bucket_items app] in *. rewrite N.add_0_r in *.
      rewrite u64_add_small by lia. eexists. split; [reflexivity|].
      rewrite u64_small by lia.
      apply lines_parse_cons; [|apply sample_line_no_newline; auto; apply labels_valid_le, VL|].
      { rewrite parse_sample_line; auto; [|apply labels_valid_le, VL]. rewrite name_of_suffix. reflexivity. }
      apply lines_parse_cons; [|apply sample_line_no_newline; auto|].
      { rewrite parse_sample_line; auto. rewrite name_of_suffix. reflexivity. }
      apply lines_parse_one; [|apply sample_line_no_newline; auto].
      rewrite parse_sample_line; auto. rewrite name_of_suffix. reflexivity.
    - cbn [histogram_text fold_right bucket_items app] in *.
      rewrite u64_add_small by lia.
      destruct (IH bs (val + b) ltac:(cbn in L; lia) ltac:(lia)) as (l & E & P).
      rewrite E. eexists. split; [reflexivity|].
      rewrite u64_small by lia. rewrite !N.add_assoc in *.
      apply lines_parse_cons; [|apply sample_line_no_newline; auto; apply labels_valid_le, VL|].
      { rewrite parse_sample_line; auto; [|apply labels_valid_le, VL]. rewrite name_of_suffix. reflexivity. }
      exact P.
  Qed.

  Lemma bucket_items_nth : forall name ls ts bs val k t i, length ts = length bs ->
    nth_error ts k = Some t -> nth_error (bucket_items name ls ts bs val) k = Some i ->
    i = bucket_item name ls t (val + first_buckets (S k) bs).
  Proof.
    induction ts as [|t0 ts IH]; intros [|b bs] val k t i L T I; try discriminate; [destruct k; discriminate|].
    cbn [bucket_items] in I. destruct k as [|k]; cbn [nth_error] in *.
    - inversion T; inversion I; subst. unfold first_buckets. cbn [firstn fold_right]. rewrite N.add_0_r. reflexivity.
    - rewrite (IH bs (val + b) k t i ltac:(cbn in L; lia) T I). unfold first_buckets. cbn [firstn fold_right].
      rewrite N.add_assoc. reflexivity.
  Qed.

  Lemma bucket_items_length : forall name ls ts bs val, length ts = length bs ->
    length (bucket_items name ls ts bs val) = length ts.
  Proof.
    induction ts as [|t ts IH]; intros [|b bs] val L; try discriminate; [reflexivity|].
    cbn [bucket_items length] in *. rewrite IH; lia.
  Qed.

  Lemma bucket_item_shows : forall name ls t v,
    int_sample ryu name (ls ++ [(str "le", LFloat t)]) (Z.of_N v) (bucket_item name ls t v).
  Proof.
    intros. eexists _, _. split; [reflexivity|]. split; [apply shown_show|apply read_itoa].
  Qed.

  Lemma metric_lines_text : forall m ls nss base,
    Forall valid_metric_name (base :: nss) -> labels_valid ls -> metric_in_range m ->
    exists l items, metric_text ryu bd m ls (name_of nss base) = Some l /\ lines_parse l items /\
      metric_lines ryu nss base ls m items /\ items <> [] /\ Forall is_sample items.
  Proof.
    intros m ls nss base FV VL R.
    pose proof (name_bytes_valid _ (name_of_valid nss base FV)) as NV.
    assert (ONE : forall v, exists i, lines_parse [sample_line ryu (name_of nss base) ls v] [i] /\ is_sample i /\
        i = Sample (full_name nss base []) (shown ls) (value_text ryu v) None).
    { intros v. eexists. split; [apply sample_lines_parse; auto|]. rewrite name_of_bytes. split; [exact I|reflexivity]. }
    destruct m as [c|z|x|ts bs inf sum]; cbn [metric_text metric_in_range] in *.
    - destruct (ONE (VInt (u64_as_i64 c))) as (i & P & S & E). eexists _, [i]. split; [reflexivity|].
      split; [exact P|]. split; [|split; [discriminate|auto]].
      exists i. split; auto. subst i. cbn [value_text]. rewrite u64_small by auto.
      eexists _, _. split; [reflexivity|]. split; [apply shown_show|apply read_itoa].
    - destruct (ONE (VInt z)) as (i & P & S & E). eexists _, [i]. split; [reflexivity|].
      split; [exact P|]. split; [|split; [discriminate|auto]].
      exists i. split; auto. subst i. cbn [value_text].
      eexists _, _. split; [reflexivity|]. split; [apply shown_show|apply read_itoa].
    - destruct (ONE (VFloat x)) as (i & P & S & E). eexists _, [i]. split; [reflexivity|].
      split; [exact P|]. split; [|split; [discriminate|auto]].
      exists i. split; auto. subst i. cbn [value_text].
      eexists _. split; [reflexivity|]. apply shown_show.
    - destruct R as [L T]. rewrite <- sum_le in T.
      destruct (histogram_lines_text ts bs inf sum 0 ls nss base FV VL L ltac:(lia)) as (l & E & P).
      eexists l, _. split; [exact E|]. split; [exact P|]. split; [|split].
      + unfold metric_lines, histogram_lines. rewrite <- sum_le. rewrite N.add_0_l in *.
        eexists _, _, _, _. split; [reflexivity|]. split; [apply bucket_items_length, L|].
        split; [|split; [apply bucket_item_shows|split]].
        * intros k t i Ht Hi. rewrite (bucket_items_nth _ _ _ _ _ _ _ _ L Ht Hi). apply bucket_item_shows.
        * eexists. split; [reflexivity|apply shown_show].
        * eexists _, _. split; [reflexivity|]. split; [apply shown_show|apply read_itoa].
      + intros X. apply app_eq_nil in X. destruct X; discriminate.
      + apply Forall_app. split; [|repeat constructor].
        generalize 0. clear. revert bs. induction ts as [|t ts IH]; intros [|b bs] val; constructor; auto.
        exact I.
  Qed.

  (** ** Events *)

  Definition gap_items (t : tstate) : list item := match t with TMetrics => [Blank] | TInfo => [] end.

  (** The items of one event: a gap, then headers or samples. *)
  Definition event_items (t : tstate) (ev : event) (items : list item) (t' : tstate) : Prop :=
    exists part, event_lines ryu ev part /\
      ((exists h, part = [h] /\ is_header h /\ items = gap_items t ++ part /\ t' = TInfo) \/
       (part <> [] /\ Forall is_sample part /\ items = part /\ t' = TMetrics)).

  Lemma gap_parse : forall t, lines_parse (gap t) (gap_items t).
  Proof. destruct t; split; cbn; auto. Qed.

  Lemma event_text_parse : forall t ev, event_ok ev ->
    exists l t' items, event_text ryu bd t ev = Some (l, t') /\ lines_parse l items /\ event_items t ev items t'.
  Proof.
    intros t ev OK. destruct ev as [nss base h|nss base k|nss base ls m|]; cbn [event_ok event_text] in *.
    - destruct OK as [FV PH]. pose proof (name_bytes_valid _ (name_of_valid nss base FV)) as NV.
      eexists _, _, _. split; [reflexivity|]. split.
      + apply lines_parse_app; [apply gap_parse|].
        apply lines_parse_one; [apply parse_help_line|apply help_line_no_newline]; auto.
      + eexists. split.
        * cbn [event_lines]. reflexivity.
        * left. eexists. split; [reflexivity|]. split; [exact I|]. rewrite name_of_bytes. auto.
    - pose proof (name_bytes_valid _ (name_of_valid nss base OK)) as NV.
      eexists _, _, _. split; [reflexivity|]. split.
      + apply lines_parse_app; [apply gap_parse|].
        apply lines_parse_one; [apply parse_type_line|apply type_line_no_newline]; auto.
      + eexists. split.
        * cbn [event_lines]. reflexivity.
        * left. eexists. split; [reflexivity|]. split; [exact I|]. rewrite name_of_bytes. auto.
    - destruct OK as (FV & VL & R).
      destruct (metric_lines_text m ls nss base FV VL R) as (l & items & E & P & M & NE & S).
      rewrite E. eexists _, _, items. split; [reflexivity|]. split; [exact P|].
      exists items. split; [exact M|]. right. auto.
    - contradiction.
  Qed.

  Inductive events_items : tstate -> list event -> list item -> tstate -> Prop :=
  | EI_nil : forall t, events_items t [] [] t
  | EI_cons : forall t ev items t' evs rest t'', event_items t ev items t' ->
      events_items t' evs rest t'' -> events_items t (ev :: evs) (items ++ rest) t''.

  Lemma events_text_parse : forall evs t, Forall event_ok evs ->
    exists l t' items, events_text ryu bd t evs = Some (l, t') /\ lines_parse l items /\ events_items t evs items t'.
  Proof.
    induction evs as [|ev evs IH]; intros t F.
    - exists [], t, []. split; [reflexivity|]. split; [split; [reflexivity|constructor]|constructor].
    - inversion F; subst. destruct (event_text_parse t ev H1) as (l & t1 & i & E & P & EI).
      destruct (IH t1 H2) as (l2 & t2 & i2 & E2 & P2 & EI2).
      exists (l ++ l2), t2, (i ++ i2). cbn [events_text]. rewrite E, E2.
      split; [reflexivity|]. split; [apply lines_parse_app; auto|]. econstructor; eauto.
  Qed.

  Lemma filter_gap : forall t, filter meaningful (gap_items t) = [].
  Proof. destruct t; reflexivity. Qed.
  Lemma filter_samples : forall l, Forall is_sample l -> filter meaningful l = l.
  Proof.
    induction l as [|i l IH]; intros F; [reflexivity|]. inversion F; subst. cbn [filter].
    destruct i; try contradiction. cbn [meaningful]. rewrite IH; auto.
  Qed.
  Lemma header_meaningful : forall h, is_header h -> meaningful h = true.
  Proof. destruct h; cbn; tauto. Qed.

  Lemma events_items_exposes : forall t evs items t', events_items t evs items t' -> exposes ryu evs items.
  Proof.
    intros t evs items t' H. induction H as [|t ev items t' evs rest t'' EI _ (parts & F & E)].
    - exists []. split; [constructor|reflexivity].
    - destruct EI as (part & EL & C). exists (part :: parts). split; [constructor; auto|].
      rewrite filter_app, E. cbn [concat]. f_equal.
      destruct C as [(h & -> & H & -> & _)|(NE & S & -> & _)].
      + rewrite filter_app, filter_gap. cbn [app filter]. rewrite header_meaningful by auto. reflexivity.
      + apply filter_samples, S.
  Qed.

  (** ** Framing *)

  (** One pass: [prev] is the previous item. *)
  Definition sample_before (prev : option item) : Prop :=
    match prev with Some i => is_sample i | None => False end.

  Fixpoint frames (prev : option item) (items : list item) : Prop :=
    match items with
    | [] => prev <> Some Blank
    | x :: rest =>
      (x = Blank -> sample_before prev) /\
      (is_header x -> ~ sample_before prev) /\
      (prev = Some Blank -> is_header x) /\
      frames (Some x) rest
    end.

  Lemma frames_app : forall a prev x b, frames prev (a ++ x :: b) ->
    let p := match rev a with [] => prev | y :: _ => Some y end in
    (x = Blank -> sample_before p) /\ (is_header x -> ~ sample_before p) /\
    (p = Some Blank -> is_header x) /\ frames (Some x) b.
  Proof.
    induction a as [|y a IH]; intros prev x b F.
    - exact F.
    - cbn [app frames] in F. destruct F as (_ & _ & _ & F). specialize (IH (Some y) x b F).
      cbn [rev]. destruct (rev a) as [|z r]; exact IH.
  Qed.

  Lemma frames_framed : forall items, frames None items -> framed items.
  Proof.
    intros items F. split.
    - intros a b x y -> S H. change (a ++ x :: y :: b) with (a ++ [x] ++ y :: b) in F.
      rewrite app_assoc in F. apply frames_app in F. destruct F as (_ & F & _).
      rewrite rev_app_distr in F. cbn in F. apply F; auto.
    - intros a b ->. destruct (frames_app _ _ _ _ F) as (S & _ & _ & Fb). specialize (S eq_refl).
      destruct (rev a) as [|x r] eqn:R; [contradiction|].
      destruct b as [|y b']; [cbn in Fb; congruence|].
      destruct Fb as (_ & _ & Hy & _).
      exists (rev r), x, y, b'. split; [|auto]. apply (f_equal (@rev item)) in R.
      rewrite rev_involutive in R. exact R.
  Qed.

  Lemma frames_samples : forall part prev rest, Forall is_sample part -> part <> [] ->
    prev <> Some Blank ->
    (forall p, is_sample p -> frames (Some p) rest) -> frames prev (part ++ rest).
  Proof.
    induction part as [|x part IH]; intros prev rest F NE NB K; [congruence|].
    inversion F; subst. cbn [app frames].
    split; [intros ->; contradiction|]. split; [destruct x; cbn in *; tauto|].
    split; [congruence|]. destruct part as [|y part].
    - apply K; auto.
    - apply IH; auto; [discriminate|]. intros E. inversion E; subst. contradiction.
  Qed.

  Lemma events_items_frames : forall t evs items t', events_items t evs items t' ->
    forall prev, prev <> Some Blank -> (t = TMetrics -> sample_before prev) ->
      (t = TInfo -> ~ sample_before prev) -> frames prev items.
  Proof.
    intros t evs items t' H. induction H as [|t ev items t' evs rest t'' EI _ IH]; intros prev NB M I.
    - exact NB.
    - destruct EI as (part & EL & [(h & -> & Hh & -> & ->)|(NE & S & -> & ->)]).
      + assert (K : frames (Some h) rest).
        { apply IH; [intros E; inversion E; subst; contradiction|discriminate|].
          intros _ X. destruct h; contradiction. }
        destruct t; cbn [gap_items app frames].
        * split; [intros ->; contradiction|]. split; [intros _; auto|]. split; [congruence|exact K].
        * split; [intros _; apply M; reflexivity|]. split; [intros []|]. split; [congruence|].
          split; [intros ->; contradiction|]. split; [intros _ []|]. split; [auto|exact K].
      + apply frames_samples; auto. intros p Sp. apply IH; [intros E; inversion E; subst; contradiction|auto|discriminate].
  Qed.

  (** ** Putting it together *)

  Lemma text_run_parses : forall evs t w s r, Forall event_ok evs -> reliable w ->
    do_events (text_encoder ryu bd) evs (mk t w) = (s, r) ->
    exists out items, r = ROk /\ w_out (te_writer s) = w_out w ++ out /\ reliable (te_writer s) /\
      parse out = Some items /\ events_items t evs items (te_state s).
  Proof.
    intros evs t w s r F R E. pose proof (events_reliable ryu bd evs t w s r R E) as H.
    destruct (events_text_parse evs t F) as (l & t' & items & X & [P NL] & EI).
    rewrite X in H. destruct H as (-> & T & R' & O). exists (unlines l), items.
    repeat split; auto.
    - unfold parse. rewrite split_unlines by exact NL. exact P.
    - rewrite T. exact EI.
  Qed.
End Text.
