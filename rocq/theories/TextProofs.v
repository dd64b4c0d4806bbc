(** The text encoder writes, on a writer that never fails, a sequence of lines
    that depends only on the events; on a writer that fails and keeps failing,
    a prefix of it. *)
From Coq Require Import String List NArith ZArith Bool Lia.
From Verif Require Import Base BaseFacts Writer NameModel NameSpec NameProofs LabelModel FloatModel
  EncoderModel TextModel TextSpec EncoderSpec EncoderProofs.
Import ListNotations.
Local Open Scope N_scope.

Definition mk (t : tstate) (w : writer) : text_enc := {| te_state := t; te_writer := w |}.

(** Started without earlier failure in state [t], [a] writes [B] and ends in
    state [t'], or fails after a prefix of it. *)
Definition writes (t : tstate) (a : io text_enc) (B : bytes) (t' : tstate) : Prop :=
  forall w s' r, sticky w -> ~ failed w -> a (mk t w) = (s', r) ->
    w_plan (te_writer s') = w_plan w /\ (w_calls w <= w_calls (te_writer s'))%nat /\
    ((~ failed (te_writer s') /\ r = ROk /\ w_out (te_writer s') = w_out w ++ B /\ te_state s' = t') \/
     (failed (te_writer s') /\ r = RErr /\ exists p q, B = p ++ q /\ w_out (te_writer s') = w_out w ++ p)).

(** After a failure, [a] writes nothing; [strict] if it then reports an error. *)
Definition silent (strict : bool) (a : io text_enc) : Prop :=
  forall s s' r, sticky (te_writer s) -> failed (te_writer s) -> a s = (s', r) ->
    w_plan (te_writer s') = w_plan (te_writer s) /\ (w_calls (te_writer s) <= w_calls (te_writer s'))%nat /\
    w_out (te_writer s') = w_out (te_writer s) /\ failed (te_writer s') /\
    r <> RPanic /\ (strict = true -> r = RErr).

Lemma sticky_plan : forall w w', w_plan w' = w_plan w -> sticky w -> sticky w'.
Proof. unfold sticky. intros w w' E H. rewrite E. exact H. Qed.

Lemma failed_mono : forall w w', w_plan w' = w_plan w -> (w_calls w <= w_calls w')%nat ->
  failed w -> failed w'.
Proof. unfold failed. intros w w' E L (i & k & H & P). exists i, k. rewrite E. split; [lia|exact P]. Qed.

Lemma wr_writes : forall t b, writes t (wr b) b t.
Proof.
  intros t b w s' r S F E. unfold wr, write_all, mk in E. cbn [te_writer te_state] in E.
  destruct b as [|x b].
  - inversion E; subst; cbn. repeat split; auto. left. rewrite app_nil_r. auto.
  - destruct (w_plan w (w_calls w)) as [k|] eqn:P; inversion E; subst; cbn [te_writer w_plan w_calls w_out te_state];
      (split; [reflexivity|]); (split; [lia|]).
    + right. repeat split.
      * exists (w_calls w), k. cbn. split; [lia|exact P].
      * exists (firstn k (x :: b)), (skipn k (x :: b)). rewrite firstn_skipn. auto.
    + left. repeat split. intros (i & k & L & Q). cbn in L, Q.
      destruct (Nat.eq_dec i (w_calls w)); [subst; congruence|].
      apply F. exists i, k. split; [lia|exact Q].
Qed.

Lemma wr_silent : forall b, silent (match b with [] => false | _ => true end) (wr b).
Proof.
  intros b s s' r S F E. unfold wr, write_all in E.
  destruct b as [|x b].
  - inversion E; subst; cbn. repeat split; auto; discriminate.
  - pose proof F as (i & k & L & P). specialize (S i k P (w_calls (te_writer s)) L).
    rewrite S in E. inversion E; subst; cbn. repeat split; auto; try discriminate.
    + apply app_nil_r.
    + exists i, k. cbn. split; [lia|exact P].
Qed.

Lemma bindr_writes : forall t a B t1 b C t2, writes t a B t1 -> writes t1 b C t2 ->
  writes t (a ;;? b) (B ++ C) t2.
Proof.
  intros t a B t1 b C t2 Ha Hb w s' r S F E. rewrite bindr_ok in E.
  destruct (a (mk t w)) as [s1 r1] eqn:Ea.
  destruct (Ha w s1 r1 S F Ea) as (P1 & L1 & [(NF & -> & O1 & T1)|(FF & -> & p & q & EB & O1)]).
  - assert (Es : s1 = mk t1 (te_writer s1)) by (destruct s1; cbn in *; subst; reflexivity).
    rewrite Es in E.
    destruct (Hb (te_writer s1) s' r (sticky_plan _ _ P1 S) NF E)
      as (P2 & L2 & [(NF2 & -> & O2 & T2)|(FF2 & -> & p & q & EC & O2)]);
      (split; [congruence|]); (split; [lia|]).
    + left. repeat split; auto. rewrite O2, O1, app_assoc. reflexivity.
    + right. repeat split; auto. exists (B ++ p), q. rewrite EC, <- app_assoc. split; auto.
      rewrite O2, O1, app_assoc. reflexivity.
  - inversion E; subst. split; [auto|]. split; [auto|]. right. repeat split; auto.
    exists p, (q ++ C). rewrite app_assoc. auto.
Qed.

Lemma bindr_silent : forall x y a b, silent x a -> silent y b -> silent (x || y) (a ;;? b).
Proof.
  intros x y a b Ha Hb s s' r S F E. rewrite bindr_ok in E.
  destruct (a s) as [s1 r1] eqn:Ea.
  destruct (Ha s s1 r1 S F Ea) as (P1 & L1 & O1 & F1 & NP1 & St1).
  destruct r1.
  - destruct (Hb s1 s' r (sticky_plan _ _ P1 S) F1 E) as (P2 & L2 & O2 & F2 & NP2 & St2).
    repeat split; try congruence; auto; try lia.
    intros H. destruct x; [specialize (St1 eq_refl); discriminate|auto].
  - inversion E; subst. repeat split; auto.
  - congruence.
Qed.

Lemma writes_eq : forall t a B B' t', writes t a B t' -> B = B' -> writes t a B' t'.
Proof. intros; subst; auto. Qed.

Lemma silent_weaken : forall x a, silent x a -> silent false a.
Proof. intros x a H s s' r S F E. destruct (H s s' r S F E) as (A & B & C & D & N & _).
  repeat split; auto. discriminate. Qed.

Lemma set_state_writes : forall t t', writes t (set_state t') [] t'.
Proof.
  intros t t' w s' r S F E. inversion E; subst; cbn. repeat split; auto. left.
  rewrite app_nil_r. repeat split; auto.
Qed.
Lemma set_state_silent : forall t, silent false (set_state t).
Proof. intros t s s' r S F E. inversion E; subst; cbn. repeat split; auto; discriminate. Qed.

Lemma ret_writes : forall t, writes t ret_ok [] t.
Proof.
  intros t w s' r S F E. inversion E; subst; cbn. repeat split; auto. left.
  rewrite app_nil_r. repeat split; auto.
Qed.
Lemma ret_silent : silent false ret_ok.
Proof. intros s s' r S F E. inversion E; subst; cbn. repeat split; auto; discriminate. Qed.

Lemma name_writes : forall n t, writes t (encode_utf8 wr n) (name_bytes n) t.
Proof.
  induction n; intros t; cbn [encode_utf8 name_bytes].
  - apply wr_writes.
  - eapply bindr_writes; [apply wr_writes|]. eapply bindr_writes; [apply wr_writes|apply IHn].
  - eapply bindr_writes; [apply IHn|apply wr_writes].
Qed.
Lemma name_silent : forall n, silent false (encode_utf8 wr n).
Proof.
  induction n; cbn [encode_utf8].
  - eapply silent_weaken, wr_silent.
  - eapply silent_weaken. eapply bindr_silent; [apply wr_silent|]. eapply bindr_silent; [apply wr_silent|apply IHn].
  - eapply silent_weaken. eapply bindr_silent; [apply IHn|apply wr_silent].
Qed.

(** ** Escaping *)

Definition esc1 (b : N) : bytes := match escape_byte b with Some e => e | None => [b] end.
Definition esc (s : bytes) : bytes := flat_map esc1 s.

Lemma escaped_writes : forall s p t, writes t (write_escaped s p) (p ++ esc s) t.
Proof.
  induction s as [|b s IH]; intros p t; cbn [write_escaped esc flat_map].
  - rewrite app_nil_r. apply wr_writes.
  - unfold esc1. destruct (escape_byte b) as [e|].
    + eapply writes_eq.
      * eapply bindr_writes; [apply wr_writes|]. eapply bindr_writes; [apply wr_writes|]. apply IH.
      * reflexivity.
    + eapply writes_eq; [apply IH|]. rewrite <- app_assoc. reflexivity.
Qed.
Lemma escaped_silent : forall s p, silent false (write_escaped s p).
Proof.
  induction s as [|b s IH]; intros p; cbn [write_escaped].
  - eapply silent_weaken, wr_silent.
  - destruct (escape_byte b) as [e|]; auto. eapply silent_weaken.
    eapply bindr_silent; [apply wr_silent|]. eapply bindr_silent; [apply wr_silent|]. apply IH.
Qed.

Section Text.
  Variable ryu : f64 -> bytes.
  Variable bd : build.

  (** ** Pure rendering *)

  Definition lval_text (v : lvalue) : bytes :=
    match v with
    | LInt x => itoa x
    | LFloat x => float_label_text ryu x
    | LStr s => s
    end.

  Definition label_text (first : bool) (n : bytes) (v : lvalue) : bytes :=
    (if first then [123] else [44]) ++ n ++ [61; 34] ++ esc (lval_text v) ++ [34].

  Fixpoint labels_text (ls : labels) (first : bool) : bytes :=
    match ls with
    | [] => []
    | (n, v) :: rest => label_text first n v ++ labels_text rest false
    end.

  Definition labels_line (ls : labels) : bytes :=
    match ls with [] => [] | _ => labels_text ls true ++ [125] end.

  Definition sample_line (n : mname) (ls : labels) (v : mvalue) : bytes :=
    name_bytes n ++ labels_line ls ++ str " " ++ value_text ryu v.

  Definition unlines (l : list bytes) : bytes := concat (map (fun x => x ++ [10]) l).

  (** [None]: panics. *)
  Fixpoint histogram_text (ts : list f64) (bs : list N) (inf : N) (sum : f64) (val : N)
      (ls : labels) (n : mname) : option (list bytes) :=
    match ts, bs with
    | le :: ts', b :: bs' =>
      match u_add bd val b with
      | Panic => None
      | Done val' =>
        option_map (cons (sample_line (NSuffix n Bucket) (ls ++ le_label le) (VInt (u64_as_i64 val'))))
          (histogram_text ts' bs' inf sum val' ls n)
      end
    | _, _ =>
      match u_add bd val inf with
      | Panic => None
      | Done count =>
        Some [sample_line (NSuffix n Bucket) (ls ++ le_label f_infinity) (VInt (u64_as_i64 count));
              sample_line (NSuffix n Sum) ls (VFloat sum);
              sample_line (NSuffix n Count) ls (VInt (u64_as_i64 count))]
      end
    end.

  Definition metric_text (m : metric) (ls : labels) (n : mname) : option (list bytes) :=
    match m with
    | MCounter c => Some [sample_line n ls (VInt (u64_as_i64 c))]
    | MGauge z => Some [sample_line n ls (VInt z)]
    | MFloatGauge x => Some [sample_line n ls (VFloat x)]
    | MHistogram ts bs inf sum => histogram_text ts bs inf sum 0 ls n
    end.

  Definition gap (t : tstate) : list bytes := match t with TMetrics => [[]] | TInfo => [] end.

  Definition help_line (n : mname) (h : bytes) : bytes := str "# HELP " ++ name_bytes n ++ str " " ++ h.
  Definition type_line (n : mname) (k : kind) : bytes :=
    str "# TYPE " ++ name_bytes n ++ str " " ++ kind_word k.

  Definition event_text (t : tstate) (ev : event) : option (list bytes * tstate) :=
    match ev with
    | EvHelp nss base h => Some (gap t ++ [help_line (name_of nss base) h], TInfo)
    | EvType nss base k => Some (gap t ++ [type_line (name_of nss base) k], TInfo)
    | EvSample nss base ls m => option_map (fun l => (l, TMetrics)) (metric_text m ls (name_of nss base))
    | EvPanic => None
    end.

  Fixpoint events_text (t : tstate) (evs : list event) : option (list bytes * tstate) :=
    match evs with
    | [] => Some ([], t)
    | ev :: rest =>
      match event_text t ev with
      | None => None
      | Some (l, t') =>
        match events_text t' rest with
        | None => None
        | Some (l', t'') => Some (l ++ l', t'')
        end
      end
    end.

  (** ** The encoder writes it *)

  Lemma visit_value_writes : forall v t,
    writes t (visit_value ryu v) ([61; 34] ++ esc (lval_text v) ++ [34]) t.
  Proof.
    intros v t. assert (forall x, writes t (visitor_write_str x) ([61;34] ++ esc x ++ [34]) t).
    { intros x. unfold visitor_write_str.
      eapply bindr_writes; [apply wr_writes|].
      eapply bindr_writes; [apply (escaped_writes x [])|apply wr_writes]. }
    destruct v; cbn [visit_value lval_text]; auto.
  Qed.

  Lemma visit_value_silent : forall v, silent true (visit_value ryu v).
  Proof.
    intros v. assert (forall x, silent true (visitor_write_str x)).
    { intros x. unfold visitor_write_str.
      apply (bindr_silent true true); [apply (wr_silent [61;34])|].
      apply (bindr_silent false true); [apply escaped_silent|apply (wr_silent [34])]. }
    destruct v; cbn [visit_value]; auto.
  Qed.

  Lemma write_value_writes : forall first n v t,
    writes t (write_value ryu first n v) (label_text first n v) t.
  Proof.
    intros. unfold write_value, label_text.
    eapply bindr_writes; [apply wr_writes|].
    eapply bindr_writes; [apply wr_writes|apply visit_value_writes].
  Qed.

  Lemma write_value_silent : forall first n v, silent false (write_value ryu first n v).
  Proof.
    intros. unfold write_value. eapply silent_weaken.
    eapply bindr_silent; [apply wr_silent|].
    eapply bindr_silent; [apply wr_silent|apply visit_value_silent].
  Qed.

  (** Visiting labels in a failed state. *)
  Lemma visit_values_silent : forall ls first s f s',
    sticky (te_writer s) -> failed (te_writer s) -> visit_values ryu ls first s = (f, s') ->
    w_plan (te_writer s') = w_plan (te_writer s) /\ (w_calls (te_writer s) <= w_calls (te_writer s'))%nat /\
    w_out (te_writer s') = w_out (te_writer s) /\ failed (te_writer s') /\
    f = match ls with [] => first | _ => false end.
  Proof.
    induction ls as [|[n v] ls IH]; intros first s f s' S F E; cbn [visit_values] in E.
    - inversion E; subst. repeat split; auto.
    - destruct (write_value ryu first n v s) as [s1 r1] eqn:E1. cbn [fst] in E.
      destruct (write_value_silent first n v s s1 r1 S F E1) as (P1 & L1 & O1 & F1 & _).
      destruct (IH false s1 f s' (sticky_plan _ _ P1 S) F1 E) as (P2 & L2 & O2 & F2 & Ef).
      repeat split; try congruence; try lia; auto. subst f. destruct ls; reflexivity.
  Qed.

  Lemma visit_values_writes : forall ls first t w f s',
    sticky w -> ~ failed w -> visit_values ryu ls first (mk t w) = (f, s') ->
    w_plan (te_writer s') = w_plan w /\ (w_calls w <= w_calls (te_writer s'))%nat /\
    f = (match ls with [] => first | _ => false end) /\
    ((~ failed (te_writer s') /\ w_out (te_writer s') = w_out w ++ labels_text ls first /\ te_state s' = t) \/
     (failed (te_writer s') /\ exists p q, labels_text ls first = p ++ q /\ w_out (te_writer s') = w_out w ++ p)).
  Proof.
    induction ls as [|[n v] ls IH]; intros first t w f s' S F E; cbn [visit_values labels_text] in *.
    - inversion E; subst. cbn. repeat split; auto. left. rewrite app_nil_r. auto.
    - destruct (write_value ryu first n v (mk t w)) as [s1 r1] eqn:E1. cbn [fst] in E.
      destruct (write_value_writes first n v t w s1 r1 S F E1)
        as (P1 & L1 & [(NF & -> & O1 & T1)|(FF & -> & p & q & EB & O1)]).
      + assert (Es : s1 = mk t (te_writer s1)) by (destruct s1; cbn in *; subst; reflexivity).
        rewrite Es in E.
        destruct (IH false t (te_writer s1) f s' (sticky_plan _ _ P1 S) NF E)
          as (P2 & L2 & Ef & [(NF2 & O2 & T2)|(FF2 & p & q & EB & O2)]);
          (split; [congruence|]); (split; [lia|]); (split; [subst f; destruct ls; reflexivity|]).
        * left. repeat split; auto. rewrite O2, O1, app_assoc. reflexivity.
        * right. split; auto. exists (label_text first n v ++ p), q. rewrite EB, <- app_assoc. split; auto.
          rewrite O2, O1, app_assoc. reflexivity.
      + destruct (visit_values_silent ls false s1 f s' (sticky_plan _ _ P1 S) FF E) as (P2 & L2 & O2 & F2 & Ef).
        split; [congruence|]. split; [lia|]. split; [subst f; destruct ls; reflexivity|].
        right. split; auto. exists p, (q ++ labels_text ls false). rewrite EB, <- app_assoc. split; auto.
        congruence.
  Qed.

  Lemma sample_writes : forall n ls v t,
    writes t (write_metric_value ryu n ls v) (sample_line n ls v ++ [10]) TMetrics.
  Proof.
    intros n ls v t. unfold write_metric_value.
    eapply writes_eq.
    { eapply bindr_writes; [apply set_state_writes|].
      eapply (bindr_writes _ _ _ _ _ (labels_line ls ++ str " " ++ value_text ryu v ++ [10]) TMetrics);
        [apply name_writes|].
      intros w s' r S F E.
      destruct (visit_values ryu ls true (mk TMetrics w)) as [f s1] eqn:E1.
      destruct (visit_values_writes ls true TMetrics w f s1 S F E1) as (P1 & L1 & Ef & C).
      assert (W2 : forall t, writes t
         ((if f then ret_ok else wr [125]) ;;? wr (str " ") ;;? wr (value_text ryu v) ;;? wr [10])
         ((if f then [] else [125]) ++ str " " ++ value_text ryu v ++ [10]) t).
      { intros t0. eapply bindr_writes; [destruct f; [apply ret_writes|apply wr_writes]|].
        eapply bindr_writes; [apply wr_writes|].
        eapply bindr_writes; [apply wr_writes|apply wr_writes]. }
      assert (S2 : silent true
         ((if f then ret_ok else wr [125]) ;;? wr (str " ") ;;? wr (value_text ryu v) ;;? wr [10])).
      { assert (S0 : silent true (wr (str " ") ;;? wr (value_text ryu v) ;;? wr [10])).
        { apply (bindr_silent true false _ _ (wr_silent (str " "))).
          eapply silent_weaken. eapply bindr_silent; apply wr_silent. }
        destruct f.
        - apply (bindr_silent false true); [apply ret_silent|exact S0].
        - apply (bindr_silent true true); [apply (wr_silent [125])|exact S0]. }
      assert (LL : labels_line ls = labels_text ls true ++ (if f then [] else [125])).
      { subst f. unfold labels_line. destruct ls; reflexivity. }
      destruct C as [(NF & O1 & T1)|(FF & p & q & EB & O1)].
      - assert (Es : s1 = mk TMetrics (te_writer s1)) by (destruct s1; cbn in *; subst; reflexivity).
        rewrite Es in E.
        destruct (W2 TMetrics (te_writer s1) s' r (sticky_plan _ _ P1 S) NF E)
          as (P2 & L2 & [(NF2 & -> & O2 & T2)|(FF2 & -> & p & q & EB & O2)]);
          (split; [congruence|]); (split; [lia|]).
        + left. repeat split; auto. rewrite O2, O1, LL, <- !app_assoc. reflexivity.
        + right. repeat split; auto. exists (labels_text ls true ++ p), q.
          rewrite LL, <- !app_assoc, EB. split; auto. rewrite O2, O1, app_assoc. reflexivity.
      - destruct (S2 s1 s' r (sticky_plan _ _ P1 S) FF E) as (P2 & L2 & O2 & F2 & NP & St).
        split; [congruence|]. split; [lia|]. right. split; [auto|]. split; [auto|].
        exists p, (q ++ (if f then [] else [125]) ++ str " " ++ value_text ryu v ++ [10]).
        rewrite LL, EB, <- !app_assoc. split; auto. congruence. }
    { unfold sample_line. rewrite <- !app_assoc. reflexivity. }
  Qed.

  Lemma unlines_cons : forall x l, unlines (x :: l) = (x ++ [10]) ++ unlines l.
  Proof. reflexivity. Qed.

  Lemma unlines_one : forall x, unlines [x] = x ++ [10].
  Proof. intros. unfold unlines. cbn [map concat]. apply app_nil_r. Qed.

  Lemma histogram_writes : forall ts bs inf sum val ls n l t,
    histogram_text ts bs inf sum val ls n = Some l ->
    writes t (collect_histogram ryu bd ts bs inf sum val ls n) (unlines l) TMetrics.
  Proof.
    assert (END : forall inf sum val ls n l t,
      match u_add bd val inf with
      | Panic => None
      | Done count =>
        Some [sample_line (NSuffix n Bucket) (ls ++ le_label f_infinity) (VInt (u64_as_i64 count));
              sample_line (NSuffix n Sum) ls (VFloat sum);
              sample_line (NSuffix n Count) ls (VInt (u64_as_i64 count))]
      end = Some l ->
      writes t (fun s =>
        match u_add bd val inf with
        | Panic => (s, RPanic)
        | Done count =>
          (write_metric_value ryu (NSuffix n Bucket) (compose_labels ls (le_label f_infinity))
             (VInt (u64_as_i64 count)) ;;?
           write_metric_value ryu (NSuffix n Sum) ls (VFloat sum) ;;?
           write_metric_value ryu (NSuffix n Count) ls (VInt (u64_as_i64 count))) s
        end) (unlines l) TMetrics).
    { intros inf sum val ls n l t E. destruct (u_add bd val inf) as [count|]; [|discriminate].
      inversion E; subst. rewrite !unlines_cons. unfold unlines. cbn [map concat]. rewrite app_nil_r.
      intros w s' r S F E'. revert w s' r S F E'.
      change (writes t (write_metric_value ryu (NSuffix n Bucket) (ls ++ le_label f_infinity)
             (VInt (u64_as_i64 count)) ;;?
           write_metric_value ryu (NSuffix n Sum) ls (VFloat sum) ;;?
           write_metric_value ryu (NSuffix n Count) ls (VInt (u64_as_i64 count)))
        ((sample_line (NSuffix n Bucket) (ls ++ le_label f_infinity) (VInt (u64_as_i64 count)) ++ [10]) ++
         (sample_line (NSuffix n Sum) ls (VFloat sum) ++ [10]) ++
         sample_line (NSuffix n Count) ls (VInt (u64_as_i64 count)) ++ [10]) TMetrics).
      eapply bindr_writes; [apply sample_writes|].
      eapply bindr_writes; [apply sample_writes|apply sample_writes]. }
    induction ts as [|le ts IH]; intros bs inf sum val ls n l t E.
    - cbn [collect_histogram histogram_text] in *. apply END. exact E.
    - destruct bs as [|b bs]; cbn [collect_histogram histogram_text] in *.
      + apply END. exact E.
      + destruct (u_add bd val b) as [val'|]; [|discriminate].
        destruct (histogram_text ts bs inf sum val' ls n) as [l'|] eqn:H; [|discriminate].
        inversion E; subst. rewrite unlines_cons.
        intros w s' r S F E'. revert w s' r S F E'.
        change (writes t (write_metric_value ryu (NSuffix n Bucket) (ls ++ le_label le)
             (VInt (u64_as_i64 val')) ;;? collect_histogram ryu bd ts bs inf sum val' ls n)
         ((sample_line (NSuffix n Bucket) (ls ++ le_label le) (VInt (u64_as_i64 val')) ++ [10]) ++ unlines l') TMetrics).
        eapply bindr_writes; [apply sample_writes|]. apply IH. exact H.
  Qed.

  Lemma metric_writes : forall m ls n l t, metric_text m ls n = Some l ->
    writes t (text_collect ryu bd m ls n) (unlines l) TMetrics.
  Proof.
    intros m ls n l t E. destruct m; cbn [metric_text text_collect] in *;
      try (inversion E; subst; rewrite unlines_one; apply sample_writes).
    apply histogram_writes. exact E.
  Qed.

  Lemma gap_writes : forall t, writes t line_if_metrics (unlines (gap t)) t.
  Proof.
    intros t w s' r S F E. destruct t; unfold line_if_metrics, mk in E; cbn [te_state] in E.
    - inversion E; subst. apply (ret_writes TInfo w _ ROk S F eq_refl).
    - apply (wr_writes TMetrics [10] w s' r S F E).
  Qed.

  Lemma unlines_app : forall a b, unlines (a ++ b) = unlines a ++ unlines b.
  Proof. intros. unfold unlines. rewrite map_app, concat_app. reflexivity. Qed.

  Lemma event_writes : forall t ev l t', event_text t ev = Some (l, t') ->
    writes t (do_event (text_encoder ryu bd) ev) (unlines l) t'.
  Proof.
    intros t ev l t' E. destruct ev; cbn [event_text do_event text_encoder e_help e_type e_collect] in *.
    - inversion E; subst. rewrite unlines_app. unfold text_write_help.
      eapply writes_eq.
      { eapply bindr_writes; [apply gap_writes|].
        eapply bindr_writes; [apply set_state_writes|].
        eapply bindr_writes; [apply wr_writes|].
        eapply bindr_writes; [apply name_writes|].
        eapply bindr_writes; [apply wr_writes|].
        eapply bindr_writes; [apply wr_writes|apply wr_writes]. }
      { rewrite unlines_one. unfold help_line. rewrite <- !app_assoc. reflexivity. }
    - inversion E; subst. rewrite unlines_app. unfold text_write_type.
      eapply writes_eq.
      { eapply bindr_writes; [apply gap_writes|].
        eapply bindr_writes; [apply set_state_writes|].
        eapply bindr_writes; [apply wr_writes|].
        eapply bindr_writes; [apply name_writes|apply wr_writes]. }
      { rewrite unlines_one. unfold type_line. rewrite <- !app_assoc. cbn [app]. destruct k; reflexivity. }
    - destruct (metric_text m ls (name_of namespaces base)) as [l0|] eqn:M; [|discriminate].
      inversion E; subst. apply metric_writes. exact M.
    - discriminate.
  Qed.

  Lemma events_writes : forall evs t l t', events_text t evs = Some (l, t') ->
    writes t (do_events (text_encoder ryu bd) evs) (unlines l) t'.
  Proof.
    induction evs as [|ev evs IH]; intros t l t' E; cbn [events_text] in E.
    - inversion E; subst. apply ret_writes.
    - destruct (event_text t ev) as [[l1 t1]|] eqn:E1; [|discriminate].
      destruct (events_text t1 evs) as [[l2 t2]|] eqn:E2; [|discriminate].
      inversion E; subst. rewrite unlines_app.
      intros w s' r S F R. cbn [do_events] in R.
      assert (B := bindr_writes _ _ _ _ _ _ _ (event_writes _ _ _ _ E1) (IH _ _ _ E2)).
      apply (B w s' r S F). rewrite bindr_ok. exact R.
  Qed.

  (** ** Writers that never fail *)

  Lemma reliable_sticky : forall w, reliable w -> sticky w.
  Proof. intros w H i k E. rewrite H in E. discriminate. Qed.
  Lemma reliable_not_failed : forall w, reliable w -> ~ failed w.
  Proof. intros w H (i & k & _ & E). rewrite H in E. discriminate. Qed.

  Lemma writes_reliable : forall t a B t' w, writes t a B t' -> reliable w ->
    exists w', a (mk t w) = (mk t' w', ROk) /\ reliable w' /\ w_out w' = w_out w ++ B.
  Proof.
    intros t a B t' w H R. destruct (a (mk t w)) as [s' r] eqn:E.
    destruct (H w s' r (reliable_sticky w R) (reliable_not_failed w R) E)
      as (P & L & [(NF & -> & O & T)|(FF & _)]).
    - exists (te_writer s'). repeat split; auto.
      + destruct s'; cbn in *; subst; reflexivity.
      + intros k. rewrite P. apply R.
    - exfalso. destruct FF as (i & k & _ & Q). rewrite P in Q. rewrite R in Q. discriminate.
  Qed.

  Lemma histogram_panics : forall ts bs inf sum val ls n t w, reliable w ->
    histogram_text ts bs inf sum val ls n = None ->
    exists s', collect_histogram ryu bd ts bs inf sum val ls n (mk t w) = (s', RPanic).
  Proof.
    induction ts as [|le ts IH]; intros bs inf sum val ls n t w R E.
    - cbn [collect_histogram histogram_text] in *. destruct (u_add bd val inf); [discriminate|eauto].
    - destruct bs as [|b bs]; cbn [collect_histogram histogram_text] in *.
      + destruct (u_add bd val inf); [discriminate|eauto].
      + destruct (u_add bd val b) as [val'|]; [|eauto].
        destruct (histogram_text ts bs inf sum val' ls n) as [l'|] eqn:H; [discriminate|].
        rewrite bindr_ok. unfold compose_labels.
        destruct (writes_reliable _ _ _ _ w (sample_writes (NSuffix n Bucket) (ls ++ le_label le)
            (VInt (u64_as_i64 val')) t) R) as (w' & -> & R' & _).
        apply IH; auto.
  Qed.

  Lemma event_panics : forall t ev w, reliable w -> event_text t ev = None ->
    exists s', do_event (text_encoder ryu bd) ev (mk t w) = (s', RPanic).
  Proof.
    intros t ev w R E. destruct ev; cbn [event_text do_event text_encoder e_help e_type e_collect] in *;
      try discriminate; [|eauto].
    destruct (metric_text m ls (name_of namespaces base)) eqn:M; [discriminate|].
    destruct m; cbn [metric_text text_collect] in *; try discriminate.
    apply histogram_panics; auto.
  Qed.

  Lemma events_panics : forall evs t w, reliable w -> events_text t evs = None ->
    exists s', do_events (text_encoder ryu bd) evs (mk t w) = (s', RPanic).
  Proof.
    induction evs as [|ev evs IH]; intros t w R E; cbn [events_text] in E; [discriminate|].
    cbn [do_events]. destruct (event_text t ev) as [[l1 t1]|] eqn:E1.
    - destruct (events_text t1 evs) as [[l2 t2]|] eqn:E2; [discriminate|].
      destruct (writes_reliable _ _ _ _ w (event_writes _ _ _ _ E1) R) as (w' & -> & R' & _).
      apply IH; auto.
    - destruct (event_panics t ev w R E1) as (s' & ->). eauto.
  Qed.

  Lemma events_reliable : forall evs t w s r, reliable w ->
    do_events (text_encoder ryu bd) evs (mk t w) = (s, r) ->
    match events_text t evs with
    | Some (l, t') => r = ROk /\ te_state s = t' /\ reliable (te_writer s) /\
        w_out (te_writer s) = w_out w ++ unlines l
    | None => r = RPanic
    end.
  Proof.
    intros evs t w s r R E. destruct (events_text t evs) as [[l t']|] eqn:X.
    - destruct (writes_reliable _ _ _ _ w (events_writes _ _ _ _ X) R) as (w' & E' & R' & O).
      rewrite E in E'. inversion E'; subst. cbn. auto.
    - destruct (events_panics evs t w R X) as (s' & E'). congruence.
  Qed.
End Text.
