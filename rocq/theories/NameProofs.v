(** Proofs about names. *)
From Coq Require Import List NArith ZArith Bool Lia String Ascii ZifyBool ZifyN.
From Verif Require Import Base BaseFacts Writer NameModel NameSpec.
Import ListNotations.
Local Open Scope N_scope.

(** The bytes a name stands for. *)
Fixpoint name_bytes (n : mname) : bytes :=
  match n with
  | NBase b => b
  | NNamespace ns i => ns ++ str "_" ++ name_bytes i
  | NSuffix i s => name_bytes i ++ suffix_text s
  end.

Lemma matches_class : forall rs w,
  matches (RClass rs) w <->
  exists b lo hi, w = [b] /\ In (lo, hi) rs /\ N_of_ascii lo <= b <= N_of_ascii hi.
Proof.
  split.
  - intros H. inversion H; subst. eauto 8.
  - intros (b & lo & hi & -> & H1 & H2). econstructor; eauto.
Qed.

Lemma star_class : forall rs w,
  matches (RStar (RClass rs)) w <->
  Forall (fun b => exists lo hi, In (lo, hi) rs /\ N_of_ascii lo <= b <= N_of_ascii hi) w.
Proof.
  split.
  - intros H. remember (RStar (RClass rs)) as r eqn:E. revert E.
    induction H; intros E; inversion E; subst.
    + constructor.
    + apply matches_class in H as (b & lo & hi & -> & ? & ?). simpl. constructor; eauto.
  - induction 1 as [|b w (lo & hi & ? & ?) _ IH].
    + constructor.
    + change (b :: w) with ([b] ++ w). constructor; [econstructor; eauto | auto].
Qed.

Lemma seq_class_star : forall r1 r2 w,
  matches (RSeq (RClass r1) (RStar (RClass r2))) w <->
  exists b t, w = b :: t /\
    (exists lo hi, In (lo, hi) r1 /\ N_of_ascii lo <= b <= N_of_ascii hi) /\
    Forall (fun b => exists lo hi, In (lo, hi) r2 /\ N_of_ascii lo <= b <= N_of_ascii hi) t.
Proof.
  split.
  - intros H. inversion H; subst. apply matches_class in H2 as (b & lo & hi & -> & ? & ?).
    apply star_class in H4. simpl. eauto 10.
  - intros (b & t & -> & (lo & hi & ? & ?) & F). change (b :: t) with ([b] ++ t).
    constructor; [econstructor; eauto | now apply star_class].
Qed.

Ltac ranges :=
  repeat match goal with
  | H : _ \/ _ |- _ => destruct H
  | H : exists _, _ |- _ => destruct H
  | H : _ /\ _ |- _ => destruct H
  | H : (_, _) = (_, _) |- _ => injection H as <- <-
  | H : False |- _ => destruct H
  end.

Ltac norm_ascii :=
  repeat match goal with
  | H : context [N_of_ascii ?c] |- _ =>
      let v := eval vm_compute in (N_of_ascii c) in change (N_of_ascii c) with v in H
  | |- context [N_of_ascii ?c] =>
      let v := eval vm_compute in (N_of_ascii c) in change (N_of_ascii c) with v
  end.

Ltac pick_range :=
  first [ (eexists; eexists; split; [left; reflexivity|]; norm_ascii; lia)
        | (eexists; eexists; split; [right; left; reflexivity|]; norm_ascii; lia)
        | (eexists; eexists; split; [right; right; left; reflexivity|]; norm_ascii; lia)
        | (eexists; eexists; split; [right; right; right; left; reflexivity|]; norm_ascii; lia)
        | (eexists; eexists; split; [right; right; right; right; left; reflexivity|]; norm_ascii; lia) ].

Lemma metric_rest_class : forall b,
  const_metric_char b = true <->
  exists lo hi, In (lo, hi) [("a","z"); ("A","Z"); ("0","9"); ("_","_"); (":",":")]%char /\
    N_of_ascii lo <= b <= N_of_ascii hi.
Proof.
  intros b. unfold const_metric_char, in_range. split.
  - intros H.
    assert (97 <= b <= 122 \/ 65 <= b <= 90 \/ 48 <= b <= 57 \/ b = 95 \/ b = 58) as D by lia.
    destruct D as [D|[D|[D|[D|D]]]]; pick_range.
  - intros (lo & hi & I & H). simpl in I. ranges; norm_ascii; lia.
Qed.

Lemma metric_first_class : forall b,
  const_metric_char b && negb (is_ascii_digit b) = true <->
  exists lo hi, In (lo, hi) [("a","z"); ("A","Z"); ("_","_"); (":",":")]%char /\
    N_of_ascii lo <= b <= N_of_ascii hi.
Proof.
  intros b. unfold const_metric_char, is_ascii_digit, in_range. split.
  - intros H.
    assert (97 <= b <= 122 \/ 65 <= b <= 90 \/ b = 95 \/ b = 58) as D by lia.
    destruct D as [D|[D|[D|D]]]; pick_range.
  - intros (lo & hi & I & H). simpl in I. ranges; norm_ascii; lia.
Qed.

Lemma label_rest_class : forall b,
  label_char b = true <->
  exists lo hi, In (lo, hi) [("a","z"); ("A","Z"); ("0","9"); ("_","_")]%char /\
    N_of_ascii lo <= b <= N_of_ascii hi.
Proof.
  intros b. unfold label_char, in_range. split.
  - intros H.
    assert (97 <= b <= 122 \/ 65 <= b <= 90 \/ 48 <= b <= 57 \/ b = 95) as D by lia.
    destruct D as [D|[D|[D|D]]]; pick_range.
  - intros (lo & hi & I & H). simpl in I. ranges; norm_ascii; lia.
Qed.

Lemma label_first_class : forall b,
  label_char b && negb (is_ascii_digit b) = true <->
  exists lo hi, In (lo, hi) [("a","z"); ("A","Z"); ("_","_")]%char /\
    N_of_ascii lo <= b <= N_of_ascii hi.
Proof.
  intros b. unfold label_char, is_ascii_digit, in_range. split.
  - intros H.
    assert (97 <= b <= 122 \/ 65 <= b <= 90 \/ b = 95) as D by lia.
    destruct D as [D|[D|D]]; pick_range.
  - intros (lo & hi & I & H). simpl in I. ranges; norm_ascii; lia.
Qed.

Lemma Forall_iff_forallb : forall (p : N -> bool) (P : N -> Prop) l,
  (forall b, p b = true <-> P b) -> (forallb p l = true <-> Forall P l).
Proof.
  intros p P l H. rewrite forallb_forall, Forall_forall. split; intros G x Hx; apply H; auto.
Qed.

Definition valid_metric_nameb (n : bytes) : bool :=
  match n with [] => false | b0 :: _ => forallb const_metric_char n && negb (is_ascii_digit b0) end.

Lemma valid_metric_nameb_spec : forall n, valid_metric_nameb n = true <-> valid_metric_name n.
Proof.
  intros n. unfold valid_metric_name, metric_name_regex. rewrite seq_class_star.
  destruct n as [|b0 t]; simpl.
  - split; [easy|]. intros (b & t & E & _). easy.
  - split.
    + intros H. rewrite !andb_true_iff in H. destruct H as [[H1 H2] H3].
      exists b0, t. split; [easy|]. split.
      * apply metric_first_class. now rewrite H1, H3.
      * eapply Forall_iff_forallb; [apply metric_rest_class | easy].
    + intros (b & t' & E & H1 & H2). injection E as <- <-.
      apply metric_first_class in H1. apply andb_true_iff in H1 as [H1 H3].
      rewrite H1, H3, andb_true_r. simpl.
      eapply Forall_iff_forallb; [apply metric_rest_class | easy].
Qed.

Definition valid_label_nameb (n : bytes) : bool :=
  match n with [] => false | b0 :: _ => forallb label_char n && negb (is_ascii_digit b0) end.

Lemma valid_label_nameb_spec : forall n, valid_label_nameb n = true <-> valid_label_name n.
Proof.
  intros n. unfold valid_label_name, label_name_regex. rewrite seq_class_star.
  destruct n as [|b0 t]; simpl.
  - split; [easy|]. intros (b & t & E & _). easy.
  - split.
    + intros H. rewrite !andb_true_iff in H. destruct H as [[H1 H2] H3].
      exists b0, t. split; [easy|]. split.
      * apply label_first_class. now rewrite H1, H3.
      * eapply Forall_iff_forallb; [apply label_rest_class | easy].
    + intros (b & t' & E & H1 & H2). injection E as <- <-.
      apply label_first_class in H1. apply andb_true_iff in H1 as [H1 H3].
      rewrite H1, H3, andb_true_r. simpl.
      eapply Forall_iff_forallb; [apply label_rest_class | easy].
Qed.

Lemma metric_from_str_exact : forall n,
  (valid_metric_name n -> metric_name_from_str n = Done n) /\
  (~ valid_metric_name n -> metric_name_from_str n = Panic).
Proof.
  intros n. rewrite <- valid_metric_nameb_spec. unfold metric_name_from_str, const_assert_metric_name, valid_metric_nameb.
  destruct n as [|b t]; [now split|].
  destruct (forallb const_metric_char (b :: t)), (is_ascii_digit b); simpl; split; intros; easy.
Qed.

Lemma label_from_str_exact : forall n,
  (valid_label_name n -> label_name_from_str n = Done n) /\
  (~ valid_label_name n -> label_name_from_str n = Panic).
Proof.
  intros n. rewrite <- valid_label_nameb_spec. unfold label_name_from_str, assert_label_name, valid_label_nameb.
  destruct n as [|b t]; [now split|].
  destruct (forallb label_char (b :: t)), (is_ascii_digit b); simpl; split; intros; easy.
Qed.

Lemma try_char_dash : forall b, try_metric_char b = const_metric_char (if b =? 45 then 95 else b).
Proof.
  intros b. unfold try_metric_char, const_metric_char, in_range.
  destruct (N.eqb_spec b 45); [subst; easy|]. now rewrite orb_false_r.
Qed.

Lemma try_from_str_exact : forall n,
  (valid_metric_name (dash_to_underscore n) -> metric_name_try_from_str n = inl n) /\
  (~ valid_metric_name (dash_to_underscore n) -> exists e, metric_name_try_from_str n = inr e).
Proof.
  intros n. rewrite <- valid_metric_nameb_spec.
  unfold metric_name_try_from_str, try_assert_metric_name.
  destruct n as [|b t]; [split; [easy|intros _; eexists; reflexivity]|].
  assert (forallb try_metric_char (b :: t) = forallb const_metric_char (dash_to_underscore (b :: t))) as ->.
  { generalize (b :: t). intro l. induction l as [|x l IH]; simpl; [easy|]. now rewrite IH, try_char_dash. }
  assert (exists b' t', dash_to_underscore (b :: t) = b' :: t' /\ is_ascii_digit b = is_ascii_digit b') as (b' & t' & E & ->).
  { exists (if b =? 45 then 95 else b), (dash_to_underscore t). split; [easy|].
    destruct (N.eqb_spec b 45); [now subst|easy]. }
  rewrite E. unfold valid_metric_nameb.
  destruct (forallb const_metric_char (b' :: t')), (is_ascii_digit b'); split; intros; try easy;
    eexists; reflexivity.
Qed.

Lemma try_from_str_valid : forall n, valid_metric_name n -> metric_name_try_from_str n = inl n.
Proof.
  intros n H. apply try_from_str_exact.
  replace (dash_to_underscore n) with n; [easy|].
  apply valid_metric_nameb_spec in H. destruct n as [|b t]; [easy|].
  unfold valid_metric_nameb in H. apply andb_true_iff in H as [H _].
  revert H. generalize (b :: t). intro l. induction l as [|x l IH]; simpl; intros H; [easy|].
  apply andb_true_iff in H as [H1 H2]. rewrite <- (IH H2).
  destruct (N.eqb_spec x 45); [subst; easy|easy].
Qed.

(** Which error is reported. *)
Lemma try_from_str_error : forall n e, metric_name_try_from_str n = inr e ->
  match e with
  | Empty => n = []
  | InvalidChars => exists b, In b n /\ ~ matches lenient_class [b]
  | StartsWithNumber => exists b t, n = b :: t /\ (48 <= b <= 57)
  end.
Proof.
  intros n e. unfold metric_name_try_from_str, try_assert_metric_name.
  destruct n as [|b t]; [intro H; injection H as <-; easy|].
  destruct (forallb try_metric_char (b :: t)) eqn:E; simpl negb.
  - destruct (is_ascii_digit b) eqn:D; intro H; [injection H as <-; exists b, t; split; [easy|] | easy].
    unfold is_ascii_digit, in_range in D. lia.
  - intro H; injection H as <-. clear - E.
    revert E. generalize (b :: t). intro l. induction l as [|a l IH]; simpl; [easy|].
    intros E. destruct (try_metric_char a) eqn:F;
    [|exists a; split; [now left|]; intro M; apply matches_class in M as (c & lo & hi & Ec & I & R);
      injection Ec as <-; unfold try_metric_char, in_range in F; simpl in I; ranges; norm_ascii; lia].
    destruct (IH E) as (x & ? & ?). eauto.
Qed.

(* ------------------------------------------------------------------ *)
(** Composition of names *)

Lemma encode_len_correct : forall n, encode_len n = nlen (name_bytes n).
Proof.
  induction n; cbn [encode_len name_bytes]; rewrite ?nlen_app, ?IHn; [easy| |].
  - change (nlen (str "_")) with 1. lia.
  - now destruct s.
Qed.

Lemma join_cons : forall p q r, join_underscore (p :: q :: r) = p ++ str "_" ++ join_underscore (q :: r).
Proof. easy. Qed.

Lemma join_snoc : forall l p, l <> [] -> join_underscore (l ++ [p]) = join_underscore l ++ str "_" ++ p.
Proof.
  induction l as [|a l IH]; intros p H; [easy|].
  destruct l as [|b l].
  - easy.
  - change ((a :: b :: l) ++ [p]) with (a :: (b :: l) ++ [p]).
    change ((b :: l) ++ [p]) with (b :: (l ++ [p])). rewrite join_cons.
    change (b :: (l ++ [p])) with ((b :: l) ++ [p]). rewrite IH by easy.
    rewrite join_cons. now rewrite <- !app_assoc.
Qed.

Lemma name_bytes_full : forall n,
  name_bytes n = full_name (namespaces_of n) (base_of n) (suffixes_of n).
Proof.
  unfold full_name. induction n; simpl.
  - easy.
  - rewrite IHn. destruct (namespaces_of n); easy.
  - rewrite IHn.
    replace (namespaces_of n ++ base_of n :: suffixes_of n ++ [suffix_word s])
      with ((namespaces_of n ++ base_of n :: suffixes_of n) ++ [suffix_word s])
      by now rewrite <- app_assoc.
    rewrite join_snoc.
    + now destruct s.
    + destruct (namespaces_of n); easy.
Qed.

(** Writing a name to a writer that does not fail appends exactly its bytes. *)
Lemma write_all_good : forall b w, (forall n, w_plan w n = None) ->
  exists w', write_all b w = (w', ROk) /\ w_out w' = w_out w ++ b /\ (forall n, w_plan w' n = None).
Proof.
  intros b w H. unfold write_all. destruct b.
  - exists w. now rewrite app_nil_r.
  - rewrite H. eexists; split; [reflexivity|]. easy.
Qed.

Lemma encode_utf8_good : forall n w, (forall k, w_plan w k = None) ->
  exists w', encode_utf8 write_all n w = (w', ROk) /\ w_out w' = w_out w ++ name_bytes n
             /\ (forall k, w_plan w' k = None).
Proof.
  induction n as [b|ns n IH|n IH s]; intros w H; simpl.
  - now apply write_all_good.
  - unfold bindr.
    destruct (write_all_good ns w H) as (w1 & -> & E1 & H1).
    destruct (write_all_good (str "_") w1 H1) as (w2 & -> & E2 & H2).
    destruct (IH w2 H2) as (w3 & -> & E3 & H3).
    exists w3. rewrite E3, E2, E1, <- !app_assoc. easy.
  - unfold bindr.
    destruct (IH w H) as (w1 & -> & E1 & H1).
    destruct (write_all_good (suffix_text s) w1 H1) as (w2 & -> & E2 & H2).
    exists w2. rewrite E2, E1, <- !app_assoc. easy.
Qed.

Fixpoint parts_valid (n : mname) : Prop :=
  match n with
  | NBase b => valid_metric_name b
  | NNamespace ns i => valid_metric_name ns /\ parts_valid i
  | NSuffix i _ => parts_valid i
  end.

Lemma valid_app : forall a b, valid_metric_name a -> Forall (fun x => const_metric_char x = true) b ->
  valid_metric_name (a ++ b).
Proof.
  intros a b Ha Hb. apply valid_metric_nameb_spec in Ha. apply valid_metric_nameb_spec.
  destruct a as [|x a]; [easy|]. unfold valid_metric_nameb in *.
  change ((x :: a) ++ b) with (x :: (a ++ b)).
  apply andb_true_iff in Ha as [H1 H2]. rewrite H2, andb_true_r.
  simpl in *. apply andb_true_iff in H1 as [H1 H3]. rewrite H1. simpl.
  rewrite forallb_app, H3. simpl. apply forallb_forall. now apply Forall_forall.
Qed.

Lemma valid_chars : forall a, valid_metric_name a -> Forall (fun x => const_metric_char x = true) a.
Proof.
  intros a H. apply valid_metric_nameb_spec in H. destruct a as [|x a]; [easy|].
  unfold valid_metric_nameb in H. apply andb_true_iff in H as [H _].
  apply Forall_forall. now apply forallb_forall.
Qed.

Lemma name_bytes_valid : forall n, parts_valid n -> valid_metric_name (name_bytes n).
Proof.
  induction n; simpl; intros H.
  - easy.
  - destruct H as [H1 H2]. apply valid_app; [easy|]. constructor; [easy|].
    apply valid_chars. auto.
  - apply valid_app; [auto|]. destruct s; repeat constructor.
Qed.

Lemma encode_exact : forall (n : mname) (w : writer), (forall k, w_plan w k = None) ->
  exists w', encode_utf8 write_all n w = (w', ROk) /\
    w_out w' = w_out w ++ full_name (namespaces_of n) (base_of n) (suffixes_of n) /\
    nlen (full_name (namespaces_of n) (base_of n) (suffixes_of n)) = encode_len n.
Proof.
  intros n w H. destruct (encode_utf8_good n w H) as (w' & E & O & _).
  exists w'. rewrite <- name_bytes_full. rewrite encode_len_correct. auto.
Qed.

Lemma composed_names_valid : forall n : mname,
  Forall valid_metric_name (base_of n :: namespaces_of n) ->
  valid_metric_name (full_name (namespaces_of n) (base_of n) (suffixes_of n)).
Proof.
  intros n H. rewrite <- name_bytes_full. apply name_bytes_valid.
  induction n; simpl in *; inversion H; subst; auto.
  inversion H3; subst. auto.
Qed.

Lemma try_from_str_dash :
  exists n, metric_name_try_from_str n = inl n /\ ~ valid_metric_name n.
Proof.
  exists (str "http-requests"). split; [reflexivity|].
  rewrite <- valid_metric_nameb_spec. discriminate.
Qed.

Lemma try_from_str_all : forall n : bytes,
  (valid_metric_name (dash_to_underscore n) -> metric_name_try_from_str n = inl n) /\
  (~ valid_metric_name (dash_to_underscore n) -> exists e, metric_name_try_from_str n = inr e) /\
  (valid_metric_name n -> metric_name_try_from_str n = inl n).
Proof.
  intro n. destruct (try_from_str_exact n). auto using try_from_str_valid.
Qed.

Lemma in_namespace_exact : forall ns n,
  (valid_metric_name ns -> in_namespace ns n = Done (NNamespace ns n)) /\
  (~ valid_metric_name ns -> in_namespace ns n = Panic).
Proof.
  intros ns n. destruct (metric_from_str_exact ns) as [A B]. unfold in_namespace.
  split; intros H; [rewrite (A H) | rewrite (B H)]; reflexivity.
Qed.

Lemma built_parts : forall n, built n -> Forall valid_metric_name (base_of n :: namespaces_of n).
Proof.
  induction 1 as [s b E | n ns m B IH E | n s B IH].
  - destruct (valid_metric_nameb s) eqn:V.
    + apply valid_metric_nameb_spec in V. rewrite (proj1 (metric_from_str_exact s) V) in E.
      injection E as <-. cbn. auto.
    + rewrite (proj2 (metric_from_str_exact s)) in E; [discriminate|].
      rewrite <- valid_metric_nameb_spec. congruence.
  - destruct (valid_metric_nameb ns) eqn:V.
    + apply valid_metric_nameb_spec in V. rewrite (proj1 (in_namespace_exact ns n) V) in E.
      injection E as <-. cbn. inversion IH; subst. auto.
    + rewrite (proj2 (in_namespace_exact ns n)) in E; [discriminate|].
      rewrite <- valid_metric_nameb_spec. congruence.
  - exact IH.
Qed.

Lemma built_names_valid : forall n, built n ->
  valid_metric_name (full_name (namespaces_of n) (base_of n) (suffixes_of n)).
Proof. intros n H. apply composed_names_valid, built_parts, H. Qed.
