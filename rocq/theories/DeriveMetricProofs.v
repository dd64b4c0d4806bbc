(** Attribute parsing of derive(MetricGroup) and derive(FixedCardinalityLabel)
    (C57). *)
From Coq Require Import String List NArith ZArith Bool Lia.
From Verif Require Import Base BaseFacts NameModel NameSpec NameProofs LabelModel LabelSpec EncoderModel
  DeriveModel DeriveSpec DeriveProofs.
Import ListNotations.

Lemma label_from_str_done : forall n n', label_name_from_str n = Done n' -> n' = n /\ valid_label_name n.
Proof.
  intros n n' E. destruct (label_from_str_exact n) as [H1 H2].
  destruct (valid_label_nameb n) eqn:V.
  - apply valid_label_nameb_spec in V. rewrite (H1 V) in E. injection E as <-. auto.
  - assert (~ valid_label_name n) as NV by (rewrite <- valid_label_nameb_spec; congruence).
    rewrite (H2 NV) in E. discriminate.
Qed.
Lemma label_from_str_panic : forall n, label_name_from_str n = Panic -> ~ valid_label_name n.
Proof. intros n E V. apply label_from_str_exact in V. congruence. Qed.

(** ** Metric group fields *)

Inductive mitem := MK (k : mkind) | MRaw (e : tok) | MMd (e : tok) | MLs (e : tok).
Definition metric_item (m : meta) : option mitem :=
  if is "rename" (mt_path m) then option_map (fun s => MK (KMetric (Some s))) (value_of as_str m)
  else if is "namespace" (mt_path m) then option_map (fun s => MK (KGroup (Some s))) (value_of as_str m)
  else if is "flatten" (mt_path m) then option_map (fun _ => MK (KGroup None)) (flag m)
  else if is "init" (mt_path m) then option_map MRaw (value_of Some m)
  else if is "metadata" (mt_path m) then option_map MMd (value_of Some m)
  else if is "label_set" (mt_path m) then option_map MLs (value_of Some m)
  else None.

Definition m_kind (i : mitem) : list mkind := match i with MK k => [k] | _ => [] end.
Definition m_raw (i : mitem) : list tok := match i with MRaw e => [e] | _ => [] end.
Definition m_md (i : mitem) : list tok := match i with MMd e => [e] | _ => [] end.
Definition m_ls (i : mitem) : list tok := match i with MLs e => [e] | _ => [] end.

Definition i_raw (o : option minit) : list tok := match o with Some (IRaw e) => [e] | _ => [] end.
Definition i_md (o : option minit) : list tok := match o with Some (IMetric (Some e) _) => [e] | _ => [] end.
Definition i_ls (o : option minit) : list tok := match o with Some (IMetric _ (Some e)) => [e] | _ => [] end.
Definition init_wf (o : option minit) : Prop := o <> Some (IMetric None None).

Definition metric_slots (a : metric_args) (is : list mitem) (a' : metric_args) : Prop :=
  ma_docs a' = ma_docs a /\
  ol (ma_kind a') = ol (ma_kind a) ++ flat_map m_kind is /\
  i_raw (ma_init a') = i_raw (ma_init a) ++ flat_map m_raw is /\
  i_md (ma_init a') = i_md (ma_init a) ++ flat_map m_md is /\
  i_ls (ma_init a') = i_ls (ma_init a) ++ flat_map m_ls is /\
  init_wf (ma_init a').

Lemma init_inj : forall o o', init_wf o -> init_wf o' ->
  i_raw o = i_raw o' -> i_md o = i_md o' -> i_ls o = i_ls o' -> o = o'.
Proof.
  unfold init_wf. intros [[e|[a|] [b|]]|] [[e'|[a'|] [b'|]]|] W W'; cbn; congruence.
Qed.

Lemma metric_step_sound : forall m a a', init_wf (ma_init a) -> metric_step m a = Some a' ->
  exists i, metric_item m = Some i /\ metric_slots a [i] a'.
Proof.
  intros m [k d i] a' W. unfold metric_step, metric_item, metric_slots. cbn [ma_kind ma_docs ma_init] in *.
  repeat match goal with |- context [if is ?n (mt_path m) then _ else _] => destruct (is n (mt_path m)) end;
    intros E.
  1, 2: destruct (value_of as_str m) as [s|]; cbn [option_map] in *; [|discriminate];
    destruct k; cbn in E; [discriminate|]; injection E as <-; eexists; (split; [reflexivity|]);
    cbn; rewrite !app_nil_r; auto 10.
  1: destruct (flag m) as [s|]; cbn [option_map] in *; [|discriminate];
    destruct k; cbn in E; [discriminate|]; injection E as <-; eexists; (split; [reflexivity|]);
    cbn; rewrite !app_nil_r; auto 10.
  4: discriminate.
  all: destruct (value_of Some m) as [e|]; cbn [option_map] in *;
    [|destruct i as [[?|[?|] [?|]]|]; discriminate];
    destruct i as [[?|[?|] [?|]]|]; try discriminate; try (exfalso; now apply W);
    injection E as <-; eexists; (split; [reflexivity|]); cbn; unfold init_wf; rewrite !app_nil_r;
    repeat match goal with |- _ /\ _ => split end; try reflexivity; discriminate.
Qed.

Lemma metric_step_complete : forall m a i a', init_wf (ma_init a) -> metric_item m = Some i ->
  metric_slots a [i] a' -> metric_step m a = Some a'.
Proof.
  intros m [k d o] i [k' d' o'] W E (D & K & R & M & L & W'). cbn [ma_kind ma_docs ma_init] in *. subst d'.
  cbn [flat_map] in *. rewrite !app_nil_r in *.
  assert (NK : m_kind i = [] -> k' = k) by (intros Z; rewrite Z, app_nil_r in K; now apply ol_inj).
  assert (NI : m_raw i = [] -> m_md i = [] -> m_ls i = [] -> o' = o).
  { intros Z1 Z2 Z3. rewrite Z1, Z2, Z3, !app_nil_r in *. now apply init_inj. }
  unfold metric_step, metric_item in *. cbn [ma_kind ma_docs ma_init].
  repeat match goal with |- context [if is ?n (mt_path m) then _ else _] => destruct (is n (mt_path m)) end.
  1, 2: destruct (value_of as_str m) as [s|]; cbn [option_map] in *; [|discriminate]; injection E as <-;
    rewrite (NI eq_refl eq_refl eq_refl); cbn [m_kind] in K; apply put_once_ol in K; rewrite K; reflexivity.
  1: destruct (flag m) as [s|]; cbn [option_map] in *; [|discriminate]; injection E as <-;
    rewrite (NI eq_refl eq_refl eq_refl); cbn [m_kind] in K; apply put_once_ol in K; rewrite K; reflexivity.
  4: discriminate.
  all: destruct (value_of Some m) as [e|]; cbn [option_map] in *; [|discriminate]; injection E as <-;
    rewrite (NK eq_refl); unfold init_wf in *;
    destruct o as [[?|[?|] [?|]]|]; destruct o' as [[?|[?|] [?|]]|]; cbn in *; congruence.
Qed.

Lemma init_exists : forall raw md ls, length raw <= 1 -> length md <= 1 -> length ls <= 1 ->
  (raw = [] \/ (md = [] /\ ls = [])) ->
  exists o, init_wf o /\ i_raw o = raw /\ i_md o = md /\ i_ls o = ls.
Proof.
  unfold init_wf.
  intros [|r [|r' raw]] [|a [|a' md]] [|b [|b' ls]] H1 H2 H3 H; cbn in H1, H2, H3; try lia.
  - exists None. repeat split; discriminate.
  - exists (Some (IMetric None (Some b))). repeat split; discriminate.
  - exists (Some (IMetric (Some a) None)). repeat split; discriminate.
  - exists (Some (IMetric (Some a) (Some b))). repeat split; discriminate.
  - exists (Some (IRaw r)). repeat split; discriminate.
  - destruct H as [H|[H H']]; discriminate.
  - destruct H as [H|[H H']]; discriminate.
  - destruct H as [H|[H H']]; discriminate.
Qed.

Lemma i_short : forall o, length (i_raw o) <= 1 /\ length (i_md o) <= 1 /\ length (i_ls o) <= 1 /\
  (i_raw o = [] \/ (i_md o = [] /\ i_ls o = [])).
Proof. intros [[e|[a|] [b|]]|]; cbn; auto 10. Qed.

Lemma nested_metric : forall ms a a', init_wf (ma_init a) ->
  (nested metric_step ms a = Some a' <->
   exists is, collect_all metric_item ms = Some is /\ metric_slots a is a').
Proof.
  induction ms as [|m ms IH]; intros a a' W; cbn [nested collect_all].
  - split.
    + intros E. injection E as <-. exists []. split; [reflexivity|]. unfold metric_slots. cbn. rewrite !app_nil_r. auto 10.
    + intros (is & E & D & K & R & M & L & W'). injection E as <-. cbn in *. rewrite !app_nil_r in *.
      apply ol_inj in K. destruct a, a'. cbn in *. subst. f_equal. f_equal. now apply init_inj.
  - split.
    + destruct (metric_step m a) as [b|] eqn:B; [|discriminate]. intros E.
      apply metric_step_sound in B; [|exact W]. destruct B as (i & I & D & K & R & M & L & Wb).
      apply IH in E; [|exact Wb]. destruct E as (is & C & D' & K' & R' & M' & L' & W').
      rewrite I, C. exists (i :: is). split; [reflexivity|]. unfold metric_slots.
      cbn [flat_map] in *. rewrite app_nil_r in *. rewrite D', K', R', M', L', D, K, R, M, L, <- !app_assoc. auto 10.
    + intros (is & C & D & K & R & M & L & W'). destruct (metric_item m) as [i|] eqn:I; [|discriminate].
      destruct (collect_all metric_item ms) as [is'|] eqn:C'; [|discriminate]. cbn in C. injection C as <-.
      cbn [flat_map] in *.
      destruct (ol_app_mid _ _ _ _ K) as (b1 & A1 & B1).
      assert (X : exists o, init_wf o /\ i_raw o = i_raw (ma_init a) ++ m_raw i /\
                    i_md o = i_md (ma_init a) ++ m_md i /\ i_ls o = i_ls (ma_init a) ++ m_ls i).
      { destruct (i_short (ma_init a')) as (L1 & L2 & L3 & L4). rewrite R, M, L in *.
        rewrite !app_assoc in L1, L2, L3, L4. rewrite app_length in L1, L2, L3.
        apply init_exists; try lia.
        assert (Z : forall (A : Type) (x y z : list A), x ++ y ++ z = [] -> x ++ y = []).
        { intros A x y z E. rewrite app_assoc in E. now apply app_eq_nil in E. }
        rewrite <- !app_assoc in L4.
        destruct L4 as [H|[H H']]; [left; exact (Z _ _ _ _ H)|right; split; [exact (Z _ _ _ _ H)|exact (Z _ _ _ _ H')]]. }
      destruct X as (o & Wo & X1 & X2 & X3).
      assert (E : metric_step m a = Some {| ma_kind := b1; ma_docs := ma_docs a; ma_init := o |}).
      { eapply metric_step_complete; [exact W|exact I|]. unfold metric_slots. cbn [flat_map ma_kind ma_docs ma_init].
        rewrite !app_nil_r. auto 10. }
      rewrite E. apply IH; [exact Wo|]. exists is'. split; [reflexivity|]. unfold metric_slots.
      cbn [ma_kind ma_docs ma_init]. rewrite X1, X2, X3, <- !app_assoc. auto 10.
Qed.

Lemma metric_item_form : forall m i, metric_item m = Some i ->
  (exists s, m = equals "rename" (TStr s) /\ i = MK (KMetric (Some s))) \/
  (exists s, m = equals "namespace" (TStr s) /\ i = MK (KGroup (Some s))) \/
  (m = plain "flatten" /\ i = MK (KGroup None)) \/
  (exists e, m = equals "init" e /\ i = MRaw e) \/
  (exists e, m = equals "metadata" e /\ i = MMd e) \/
  (exists e, m = equals "label_set" e /\ i = MLs e).
Proof.
  intros [p a] i. unfold metric_item. cbn [mt_path]. intros E.
  repeat match type of E with context [if is ?n p then _ else _] =>
    let H := fresh in destruct (is n p) eqn:H; [apply is_spec in H; subst p|clear H] end; try discriminate;
    destruct a as [|v|args]; cbn in E; try discriminate.
  1, 2: destruct v; try discriminate; injection E as <-; unfold plain, equals; eauto 10.
  all: injection E as <-; unfold plain, equals; eauto 12.
Qed.

Ltac metric_cases E :=
  apply metric_item_form in E;
  destruct E as [(?s & -> & ->)|[(?s & -> & ->)|[(-> & ->)|[(?e & -> & ->)|[(?e & -> & ->)|(?e & -> & ->)]]]]].

Lemma metric_item_ok : forall m, metric_argument m <-> exists i, metric_item m = Some i.
Proof.
  intros m. split.
  - intros []; eexists; reflexivity.
  - intros [i E]. metric_cases E; constructor.
Qed.

Lemma metric_items_times : forall ms is, Forall2 (fun m i => metric_item m = Some i) ms is ->
  length (flat_map m_kind is) = times ["rename"; "namespace"; "flatten"]%string ms /\
  length (flat_map m_raw is) = times ["init"]%string ms /\
  length (flat_map m_md is) = times ["metadata"]%string ms /\
  length (flat_map m_ls is) = times ["label_set"]%string ms /\
  length (flat_map m_md is) + length (flat_map m_ls is) = times ["metadata"; "label_set"]%string ms.
Proof.
  induction 1 as [|m i ms is E F (H1 & H2 & H3 & H4 & H5)]; [cbn; auto|].
  cbn [flat_map]. rewrite !app_length, !times_cons. metric_cases E; cbn - [times]; lia.
Qed.

Lemma metric_in_kind : forall ms is, Forall2 (fun m i => metric_item m = Some i) ms is -> forall k,
  In k (flat_map m_kind is) <->
  match k with
  | KMetric (Some s) => In (equals "rename" (TStr s)) ms
  | KMetric None => False
  | KGroup (Some s) => In (equals "namespace" (TStr s)) ms
  | KGroup None => In (plain "flatten") ms
  end.
Proof.
  intros ms is F k. rewrite (items_in _ _ _ _ F). split.
  - intros (m & i & I & E & H). metric_cases E; cbn in H; try tauto; destruct H as [<-|[]]; auto.
  - destruct k as [[s|]|[s|]]; [intros I|intros []|intros I|intros I]; eexists; eexists;
      (split; [exact I|split; [reflexivity|left; reflexivity]]).
Qed.
Lemma metric_in_raw : forall ms is, Forall2 (fun m i => metric_item m = Some i) ms is -> forall e,
  In e (flat_map m_raw is) <-> In (equals "init" e) ms.
Proof.
  intros ms is F k. rewrite (items_in _ _ _ _ F). split.
  - intros (m & i & I & E & H). metric_cases E; cbn in H; try tauto; destruct H as [<-|[]]; auto.
  - intros I; eexists; eexists; (split; [exact I|split; [reflexivity|left; reflexivity]]).
Qed.
Lemma metric_in_md : forall ms is, Forall2 (fun m i => metric_item m = Some i) ms is -> forall e,
  In e (flat_map m_md is) <-> In (equals "metadata" e) ms.
Proof.
  intros ms is F k. rewrite (items_in _ _ _ _ F). split.
  - intros (m & i & I & E & H). metric_cases E; cbn in H; try tauto; destruct H as [<-|[]]; auto.
  - intros I; eexists; eexists; (split; [exact I|split; [reflexivity|left; reflexivity]]).
Qed.
Lemma metric_in_ls : forall ms is, Forall2 (fun m i => metric_item m = Some i) ms is -> forall e,
  In e (flat_map m_ls is) <-> In (equals "label_set" e) ms.
Proof.
  intros ms is F k. rewrite (items_in _ _ _ _ F). split.
  - intros (m & i & I & E & H). metric_cases E; cbn in H; try tauto; destruct H as [<-|[]]; auto.
  - intros I; eexists; eexists; (split; [exact I|split; [reflexivity|left; reflexivity]]).
Qed.

(** The loop over attributes: arguments and doc comments do not interfere. *)
Definition with_docs (d : option bytes) (a : metric_args) : metric_args :=
  {| ma_kind := ma_kind a; ma_docs := d; ma_init := ma_init a |}.

Lemma step_docs : forall m a d, metric_step m (with_docs d a) = option_map (with_docs d) (metric_step m a).
Proof.
  intros m [k dd i] d. unfold metric_step, with_docs. cbn [ma_kind ma_docs ma_init].
  repeat match goal with |- context [if is ?n (mt_path m) then _ else _] => destruct (is n (mt_path m)) end;
    try reflexivity.
  1, 2: destruct (value_of as_str m); destruct k; reflexivity.
  1: destruct (flag m); destruct k; reflexivity.
  all: destruct (value_of Some m); destruct i as [[?|[?|] [?|]]|]; reflexivity.
Qed.

Lemma nested_docs : forall ms a d, nested metric_step ms (with_docs d a) = option_map (with_docs d) (nested metric_step ms a).
Proof.
  induction ms as [|m ms IH]; intros a d; cbn [nested]; [reflexivity|].
  rewrite step_docs. destruct (metric_step m a); cbn [option_map]; [apply IH|reflexivity].
Qed.

Definition docs_with (d : option bytes) (ds : list bytes) : option bytes :=
  match d, ds with
  | d, [] => d
  | None, ds => Some (concat ds)
  | Some x, ds => Some (x ++ concat ds)
  end.
Definition docs_only (l : list attribute) : Prop :=
  forall a, In a l -> at_path a = str "doc" -> exists s, at_body a = AValue (TStr s).

Lemma docs_with_cons : forall d s ds,
  docs_with (Some (match d with Some x => x ++ s | None => s end)) ds = docs_with d (s :: ds).
Proof.
  intros [x|] s [|t ds]; cbn; rewrite ?app_nil_r, ?app_assoc; reflexivity.
Qed.

Lemma with_docs_self : forall a, with_docs (ma_docs a) a = a.
Proof. intros []; reflexivity. Qed.
Lemma with_docs_twice : forall d d' a, with_docs d (with_docs d' a) = with_docs d a.
Proof. reflexivity. Qed.
Lemma step_keeps_docs : forall m a b, metric_step m a = Some b -> ma_docs b = ma_docs a.
Proof.
  intros m a b E. pose proof (step_docs m a (ma_docs a)) as S. rewrite with_docs_self, E in S. cbn in S.
  injection S as ->. reflexivity.
Qed.
Lemma nested_keeps_docs : forall ms a b, nested metric_step ms a = Some b -> ma_docs b = ma_docs a.
Proof.
  intros ms a b E. pose proof (nested_docs ms a (ma_docs a)) as S. rewrite with_docs_self, E in S. cbn in S.
  injection S as ->. reflexivity.
Qed.

Lemma docs_only_cons : forall x l, docs_only (x :: l) <->
  (at_path x = str "doc" -> exists s, at_body x = AValue (TStr s)) /\ docs_only l.
Proof.
  intros. unfold docs_only. split.
  - intros H. split; [intros E; apply H; [now left|exact E]|]. intros a I. apply H. now right.
  - intros [H1 H2] a [<-|I]; auto.
Qed.

Lemma metric_loop_nested : forall l a r, metric_attr_loop l a = Some r <->
  list_only "metric" l /\ docs_only l /\
  exists b, nested metric_step (arguments "metric" l) a = Some b /\ r = with_docs (docs_with (ma_docs a) (doc_texts l)) b.
Proof.
  induction l as [|x l IH]; intros a r; cbn [metric_attr_loop arguments doc_texts].
  - split.
    + intros E. injection E as <-. split; [intros ? []|]. split; [intros ? []|].
      exists a. split; [reflexivity|]. destruct a as [? [?|] ?]; reflexivity.
    + intros (_ & _ & b & E & ->). injection E as <-. destruct a as [? [?|] ?]; reflexivity.
  - rewrite list_only_cons, docs_only_cons. unfold is.
    destruct (beqb (at_path x) (str "metric")) eqn:B.
    + apply beqb_spec in B. rewrite B.
      change (beqb (str "metric") (str "doc")) with false. cbn [app].
      destruct (at_body x) as [|ms t|v] eqn:Bd.
      * split; [discriminate|]. intros [[H _] _]. destruct (H eq_refl) as (ms & t & E). discriminate.
      * rewrite nested_app. destruct (nested metric_step ms a) as [a'|] eqn:N.
        -- rewrite IH, (nested_keeps_docs _ _ _ N). split.
           ++ intros (H1 & H2 & H3). split; [split; [eauto|exact H1]|]. split; [split; [intros E; discriminate|exact H2]|exact H3].
           ++ intros ((_ & H1) & (_ & H2) & H3). auto.
        -- split; [discriminate|]. intros (_ & _ & b & E & _). discriminate.
      * split; [discriminate|]. intros [[H _] _]. destruct (H eq_refl) as (ms & t & E). discriminate.
    + apply beqb_neq in B. cbn [app].
      destruct (beqb (at_path x) (str "doc")) eqn:D.
      * apply beqb_spec in D. destruct (at_body x) as [|ms t|[s|s|s|s]] eqn:Bd;
          try (split; [discriminate|]; intros (_ & [H _] & _); destruct (H D) as (s' & E); discriminate).
        cbn [app].
        change {| ma_kind := ma_kind a; ma_docs := Some (match ma_docs a with Some d => d ++ s | None => s end); ma_init := ma_init a |}
          with (with_docs (Some (match ma_docs a with Some d => d ++ s | None => s end)) a).
        rewrite IH, nested_docs. cbn [with_docs ma_docs]. rewrite docs_with_cons. split.
        -- intros (H1 & H2 & b & E & ->). destruct (nested metric_step (arguments "metric" l) a) as [c|] eqn:N; [|discriminate].
           cbn in E. injection E as <-. split; [split; [intros E; contradiction|exact H1]|].
           split; [split; [eauto|exact H2]|]. exists c. auto.
        -- intros ((_ & H1) & (_ & H2) & b & E & ->). split; [exact H1|]. split; [exact H2|].
           rewrite E. cbn [option_map]. eexists. split; [reflexivity|]. reflexivity.
      * apply beqb_neq in D. cbn [app]. rewrite IH. split.
        -- intros (H1 & H2 & H3). split; [split; [intros E; contradiction|exact H1]|].
           split; [split; [intros E; contradiction|exact H2]|exact H3].
        -- intros ((_ & H1) & (_ & H2) & H3). auto.
Qed.

Theorem metric_attrs_exact : forall l,
  ((exists r, metric_field_attrs l = Some r) <-> metric_attrs_ok l) /\
  (forall r, metric_field_attrs l = Some r -> metric_attrs_mean l r).
Proof.
  intros l.
  set (a0 := {| ma_kind := None; ma_docs := None; ma_init := None |}).
  assert (W0 : init_wf (ma_init a0)) by discriminate.
  assert (M : forall r, metric_field_attrs l = Some r <-> list_only "metric" l /\ docs_only l /\ exists is b,
     collect_all metric_item (arguments "metric" l) = Some is /\ metric_slots a0 is b /\
     r = {| mf_kind := match ma_kind b with Some k => k | None => KMetric None end;
            mf_docs := docs_with None (doc_texts l); mf_init := ma_init b |}).
  { intros r. unfold metric_field_attrs. fold a0.
    assert (E0 : forall X, metric_attr_loop l a0 = Some X <-> list_only "metric" l /\ docs_only l /\ exists is b,
     collect_all metric_item (arguments "metric" l) = Some is /\ metric_slots a0 is b /\ X = with_docs (docs_with None (doc_texts l)) b).
    { intros X. rewrite metric_loop_nested. split.
      - intros (H1 & H2 & b & N & ->). apply nested_metric in N; [|exact W0]. destruct N as (is & C & S). eauto 10.
      - intros (H1 & H2 & is & b & C & S & ->). split; [exact H1|]. split; [exact H2|]. exists b. split; [|reflexivity].
        apply nested_metric; [exact W0|]. eauto. }
    destruct (metric_attr_loop l a0) as [X|].
    - destruct (proj1 (E0 X) eq_refl) as (H1 & H2 & is & b & C & S & ->). split.
      + intros E. injection E as <-. cbn. eauto 10.
      + intros (_ & _ & is' & b' & C' & S' & ->).
        assert (Q : Some (with_docs (docs_with None (doc_texts l)) b) = Some (with_docs (docs_with None (doc_texts l)) b')).
        { apply E0. eauto 10. }
        injection Q as Q1 Q2. cbn. now rewrite Q1, Q2.
    - split; [discriminate|]. intros (H1 & H2 & is & b & C & S & _).
      assert (Q : None = Some (with_docs (docs_with None (doc_texts l)) b)) by (apply E0; eauto 10). discriminate. }
  split.
  - split.
    + intros [r R]. apply M in R. destruct R as (LO & DO & is & b & C & (D & K & R & Md & L & W) & ->).
      apply collect_all_Forall2 in C. destruct (metric_items_times _ _ C) as (T1 & T2 & T3 & T4 & T5).
      unfold metric_attrs_ok. rewrite <- T1, <- T2, <- T3, <- T4, <- T5. cbn [a0 ma_kind ma_docs ma_init ol i_raw i_md i_ls app] in *.
      split; [exact LO|]. split; [exact DO|]. split.
      * apply Forall_forall. intros m I. apply metric_item_ok.
        clear - C I. induction C as [|m' i ms is E F IH]; [destruct I|destruct I as [<-|I]; eauto].
      * rewrite <- K, <- R, <- Md, <- L. destruct (i_short (ma_init b)) as (L1 & L2 & L3 & L4).
        split; [destruct (ma_kind b); cbn; auto|]. split; [exact L1|]. split; [exact L2|]. split; [exact L3|].
        destruct L4 as [H|[H H']]; rewrite ?H, ?H'; auto.
    + intros (LO & DO & FA & T1 & T2 & T3 & T4 & T5).
      assert (C : exists is, collect_all metric_item (arguments "metric" l) = Some is).
      { destruct (collect_all metric_item (arguments "metric" l)) as [is|] eqn:C; [eauto|].
        apply collect_all_None in C. destruct C as (m & I & E). rewrite Forall_forall in FA.
        apply FA, metric_item_ok in I. destruct I as [i I]. congruence. }
      destruct C as [is C]. pose proof C as C'. apply collect_all_Forall2 in C'.
      destruct (metric_items_times _ _ C') as (U1 & U2 & U3 & U4 & U5).
      destruct (short_ol (flat_map m_kind is)) as [k K]; [lia|].
      destruct (init_exists (flat_map m_raw is) (flat_map m_md is) (flat_map m_ls is)) as (o & Wo & X1 & X2 & X3); try lia.
      { destruct T5 as [T5|T5]; [left|right]; [|split]; apply length_zero_iff_nil; lia. }
      eexists. apply M. split; [exact LO|]. split; [exact DO|].
      exists is, {| ma_kind := k; ma_docs := None; ma_init := o |}. split; [exact C|]. split; [|reflexivity].
      unfold metric_slots. cbn. auto 10.
  - intros r R. apply M in R. destruct R as (LO & DO & is & b & C & (D & K & R & Md & L & W) & ->).
    apply collect_all_Forall2 in C. cbn [a0 ma_kind ma_docs ma_init ol i_raw i_md i_ls app] in *.
    unfold metric_attrs_mean. cbn [mf_kind mf_docs mf_init].
    pose proof (metric_in_kind _ _ C) as IK. pose proof (metric_in_raw _ _ C) as IR.
    pose proof (metric_in_md _ _ C) as IM. pose proof (metric_in_ls _ _ C) as IL.
    rewrite <- K in IK. rewrite <- R in IR. rewrite <- Md in IM. rewrite <- L in IL.
    assert (KK : forall k, k <> KMetric None -> (match ma_kind b with Some k => k | None => KMetric None end) = k <-> In k (ol (ma_kind b))).
    { intros k NE. rewrite ol_in. destruct (ma_kind b) as [k'|]; split; congruence. }
    split; [|split; [|split; [|split; [|split; [|split; [|split]]]]]].
    + intros s. rewrite KK by discriminate. apply (IK (KMetric (Some s))).
    + intros s. rewrite KK by discriminate. apply (IK (KGroup (Some s))).
    + rewrite KK by discriminate. apply (IK (KGroup None)).
    + unfold docs_with. destruct (doc_texts l); reflexivity.
    + intros e. rewrite <- (IR e). destruct (ma_init b) as [[e'|[x|] [y|]]|]; cbn; split; try discriminate; try tauto;
        intros H; [injection H as ->; auto|destruct H as [->|[]]; reflexivity].
    + intros e. rewrite <- (IM e). destruct (ma_init b) as [[e'|[x|] [y|]]|]; cbn;
        (split; intros H; [destruct H as [z H]; try discriminate; inversion H; subst; auto|
                   try contradiction; destruct H as [->|[]]; eauto]).
    + intros e. rewrite <- (IL e). destruct (ma_init b) as [[e'|[x|] [y|]]|]; cbn;
        (split; intros H; [destruct H as [z H]; try discriminate; inversion H; subst; auto|
                   try contradiction; destruct H as [->|[]]; eauto]).
    + exact W.
Qed.

(** ** Enums *)

Inductive eitem := ECrate (p : bytes) | ERename (r : rename_all) | ESingle (s : bytes).
Definition enum_item (m : meta) : option eitem :=
  if is "crate" (mt_path m) then option_map ECrate (value_of as_path m)
  else if is "rename_all" (mt_path m) then
    option_map ERename (match value_of as_str m with None => None | Some s => parse_rename_all s end)
  else if is "singleton" (mt_path m) then option_map ESingle (value_of as_str m)
  else None.
Definition e_crate (i : eitem) : list bytes := match i with ECrate k => [k] | _ => [] end.
Definition e_ren (i : eitem) : list rename_all := match i with ERename k => [k] | _ => [] end.
Definition e_sing (i : eitem) : list bytes := match i with ESingle k => [k] | _ => [] end.

Definition enum_slots (a : enum_args) (is : list eitem) (a' : enum_args) : Prop :=
  ol (ea_crate a') = ol (ea_crate a) ++ flat_map e_crate is /\
  ol (ea_rename_all a') = ol (ea_rename_all a) ++ flat_map e_ren is /\
  ol (ea_singleton a') = ol (ea_singleton a) ++ flat_map e_sing is.

Lemma enum_step_iff : forall m a a', enum_step m a = Some a' <->
  exists i, enum_item m = Some i /\ enum_slots a [i] a'.
Proof.
  intros m [k d s] [k' d' s']. unfold enum_step, enum_item, enum_slots.
  cbn [ea_crate ea_rename_all ea_singleton].
  repeat match goal with |- context [if is ?n (mt_path m) then _ else _] => destruct (is n (mt_path m)) end.
  4: split; [discriminate|intros (i & E & _); discriminate].
  all: match goal with |- context [put_once _ ?v] => destruct v as [x|] end; cbn [option_map put_once];
    [|split; [discriminate|intros (i & E & _); discriminate]]; split.
  - destruct k as [y|]; [discriminate|]. intros E. injection E as <- <- <-. eexists. split; [reflexivity|].
    cbn. rewrite !app_nil_r. auto.
  - intros (i & E & K & D & S). injection E as <-. cbn in *. rewrite !app_nil_r in *.
    apply ol_inj in D. apply ol_inj in S. destruct k as [y|], k' as [y'|]; cbn in *; congruence.
  - destruct d as [y|]; [discriminate|]. intros E. injection E as <- <- <-. eexists. split; [reflexivity|].
    cbn. rewrite !app_nil_r. auto.
  - intros (i & E & K & D & S). injection E as <-. cbn in *. rewrite !app_nil_r in *.
    apply ol_inj in K. apply ol_inj in S. destruct d as [y|], d' as [y'|]; cbn in *; congruence.
  - destruct s as [y|]; [discriminate|]. intros E. injection E as <- <- <-. eexists. split; [reflexivity|].
    cbn. rewrite !app_nil_r. auto.
  - intros (i & E & K & D & S). injection E as <-. cbn in *. rewrite !app_nil_r in *.
    apply ol_inj in K. apply ol_inj in D. destruct s as [y|], s' as [y'|]; cbn in *; congruence.
Qed.

Lemma nested_enum : forall ms a a', nested enum_step ms a = Some a' <->
  exists is, collect_all enum_item ms = Some is /\ enum_slots a is a'.
Proof.
  induction ms as [|m ms IH]; intros a a'; cbn [nested collect_all].
  - split.
    + intros E. injection E as <-. exists []. split; [reflexivity|]. unfold enum_slots. cbn. rewrite !app_nil_r. auto.
    + intros (is & E & K & D & S). injection E as <-. cbn in *. rewrite !app_nil_r in *.
      apply ol_inj in K. apply ol_inj in D. apply ol_inj in S. destruct a, a'. cbn in *. congruence.
  - split.
    + destruct (enum_step m a) as [b|] eqn:B; [|discriminate]. intros E.
      apply enum_step_iff in B. destruct B as (i & I & K & D & S).
      apply IH in E. destruct E as (is & C & K' & D' & S').
      rewrite I, C. exists (i :: is). split; [reflexivity|]. unfold enum_slots.
      cbn [flat_map] in *. rewrite app_nil_r in *. rewrite K', D', S', K, D, S, <- !app_assoc. auto.
    + intros (is & C & K & D & S). destruct (enum_item m) as [i|] eqn:I; [|discriminate].
      destruct (collect_all enum_item ms) as [is'|] eqn:C'; [|discriminate]. cbn in C. injection C as <-.
      cbn [flat_map] in *.
      destruct (ol_app_mid _ _ _ _ K) as (b1 & A1 & B1).
      destruct (ol_app_mid _ _ _ _ D) as (b2 & A2 & B2).
      destruct (ol_app_mid _ _ _ _ S) as (b3 & A3 & B3).
      assert (E : enum_step m a = Some {| ea_crate := b1; ea_rename_all := b2; ea_singleton := b3 |}).
      { apply enum_step_iff. exists i. split; [exact I|]. unfold enum_slots. cbn. rewrite !app_nil_r. auto. }
      rewrite E. apply IH. exists is'. split; [reflexivity|]. unfold enum_slots. cbn. auto.
Qed.

Lemma rename_all_spec : forall s r, parse_rename_all s = Some r <-> exists n, s = str n /\ In (n, r) case_names.
Proof.
  intros s r. unfold parse_rename_all. split.
  - repeat match goal with |- context [if is ?n s then _ else _] =>
      let H := fresh in destruct (is n s) eqn:H; [apply is_spec in H; subst s; intros E; injection E as <-;
        eexists; split; [reflexivity|cbn; tauto]|clear H] end. discriminate.
  - intros (n & -> & I). cbn in I.
    repeat (destruct I as [I|I]; [injection I as <- <-; reflexivity|]). destruct I.
Qed.

Lemma enum_item_form : forall m i, enum_item m = Some i ->
  (exists p, (m = equals "crate" (TIdent p) \/ m = equals "crate" (TPath p)) /\ i = ECrate p) \/
  (exists n r, In (n, r) case_names /\ m = equals "rename_all" (TStr (str n)) /\ i = ERename r) \/
  (exists s, m = equals "singleton" (TStr s) /\ i = ESingle s).
Proof.
  intros [p a] i. unfold enum_item. cbn [mt_path]. intros E.
  repeat match type of E with context [if is ?n p then _ else _] =>
    let H := fresh in destruct (is n p) eqn:H; [apply is_spec in H; subst p|clear H] end; try discriminate;
    destruct a as [|v|args]; cbn in E; try discriminate; destruct v; try discriminate.
  - injection E as <-. unfold equals. eauto 10.
  - injection E as <-. unfold equals. eauto 10.
  - cbn in E. destruct (parse_rename_all s) as [r|] eqn:R; [|discriminate]. cbn in E. injection E as <-.
    apply rename_all_spec in R. destruct R as (n & -> & I). right. left. exists n, r. unfold equals. auto.
  - injection E as <-. unfold equals. eauto 10.
Qed.
Ltac enum_cases E :=
  apply enum_item_form in E;
  destruct E as [(?p & [-> | ->] & ->)|[(?n & ?r & ?I & -> & ->)|(?s & -> & ->)]].

Lemma enum_item_ok : forall m, enum_argument m <-> exists i, enum_item m = Some i.
Proof.
  intros m. split.
  - intros [p|p|n r I|s].
    + eexists; reflexivity.
    + eexists; reflexivity.
    + assert (R : parse_rename_all (str n) = Some r) by (apply rename_all_spec; eauto).
      unfold enum_item. cbn - [parse_rename_all str]. rewrite R. eexists. reflexivity.
    + eexists; reflexivity.
  - intros [i E]. enum_cases E; econstructor; eauto.
Qed.

Lemma enum_items_times : forall ms is, Forall2 (fun m i => enum_item m = Some i) ms is ->
  length (flat_map e_crate is) = times ["crate"]%string ms /\
  length (flat_map e_ren is) = times ["rename_all"]%string ms /\
  length (flat_map e_sing is) = times ["singleton"]%string ms.
Proof.
  induction 1 as [|m i ms is E F (H1 & H2 & H3)]; [cbn; auto|].
  cbn [flat_map]. rewrite !app_length, !times_cons. enum_cases E; cbn - [times]; lia.
Qed.

Lemma enum_in_ren : forall ms is, Forall2 (fun m i => enum_item m = Some i) ms is -> forall r,
  In r (flat_map e_ren is) <-> exists n, In (n, r) case_names /\ In (equals "rename_all" (TStr (str n))) ms.
Proof.
  intros ms is F k. rewrite (items_in _ _ _ _ F). split.
  - intros (m & i & I & E & H). enum_cases E; cbn in H; try tauto; destruct H as [<-|[]]; eauto.
  - intros (n & N & I). exists (equals "rename_all" (TStr (str n))), (ERename k). split; [exact I|].
    split; [|left; reflexivity].
    assert (R : parse_rename_all (str n) = Some k) by (apply rename_all_spec; eauto).
    unfold enum_item. cbn - [parse_rename_all str]. rewrite R. reflexivity.
Qed.
Lemma enum_in_sing : forall ms is, Forall2 (fun m i => enum_item m = Some i) ms is -> forall s,
  In s (flat_map e_sing is) <-> In (equals "singleton" (TStr s)) ms.
Proof.
  intros ms is F k. rewrite (items_in _ _ _ _ F). split.
  - intros (m & i & I & E & H). enum_cases E; cbn in H; try tauto; destruct H as [<-|[]]; auto.
  - intros I; eexists; eexists; (split; [exact I|split; [reflexivity|left; reflexivity]]).
Qed.

Lemma enum_attrs_nested : forall l a a', enum_attrs l a = Some a' <->
  list_only "label" l /\ no_trailing_comma "label" l /\ nested enum_step (arguments "label" l) a = Some a'.
Proof.
  induction l as [|x l IH]; intros a a'; cbn [enum_attrs arguments].
  - split; [|tauto]. intros E. split; [intros ? []|]. split; [intros ? ? []|exact E].
  - rewrite list_only_cons.
    assert (TC : no_trailing_comma "label" (x :: l) <->
      (at_path x = str "label" -> forall ms, at_body x <> AList ms true) /\ no_trailing_comma "label" l).
    { unfold no_trailing_comma. split.
      - intros H. split; [intros E ms; apply H; [now left|exact E]|]. intros b ms I. apply H. now right.
      - intros [H1 H2] b ms [<-|I] E; [now apply H1|now apply H2]. }
    rewrite TC. unfold is. destruct (beqb (at_path x) (str "label")) eqn:B.
    + apply beqb_spec in B. destruct (at_body x) as [|ms t|v] eqn:Bd.
      * split; [discriminate|]. intros [[H _] _]. destruct (H B) as (ms & t & E). discriminate.
      * rewrite nested_app. destruct (nested enum_step ms a) as [b|].
        -- destruct t.
           ++ split; [discriminate|]. intros (_ & [H _] & _). destruct (H B ms). reflexivity.
           ++ rewrite IH. split.
              ** intros (H1 & H2 & H3). split; [split; [eauto|exact H1]|]. split; [split; [intros _ ms' E; discriminate|exact H2]|exact H3].
              ** tauto.
        -- split; [discriminate|]. intros (_ & _ & E). discriminate.
      * split; [discriminate|]. intros [[H _] _]. destruct (H B) as (ms & t & E). discriminate.
    + apply beqb_neq in B. cbn [app]. rewrite IH. split; [|tauto].
      intros (H1 & H2 & H3). split; [split; [intros E; contradiction|exact H1]|].
      split; [split; [intros E; contradiction|exact H2]|exact H3].
Qed.

(** Variants *)
Lemma variant_nested : forall ms a r, nested variant_step ms a = Some r <->
  Forall (fun m => exists s, m = equals "rename" (TStr s)) ms /\
  exists ss, ms = map (fun s => equals "rename" (TStr s)) ss /\ ol r = ol a ++ ss.
Proof.
  induction ms as [|m ms IH]; intros a r; cbn [nested].
  - split.
    + intros E. injection E as <-. split; [constructor|]. exists []. rewrite app_nil_r. auto.
    + intros (_ & ss & E & H). destruct ss; [|discriminate]. rewrite app_nil_r in H. apply ol_inj in H. now subst.
  - split.
    + unfold variant_step at 1. destruct (is "rename" (mt_path m)) eqn:P; [|discriminate]. apply is_spec in P.
      destruct m as [p [|v|args]]; cbn in P; subst p; cbn; try discriminate.
      destruct v; cbn; try discriminate. destruct a as [x|]; [discriminate|]. intros E. apply IH in E.
      destruct E as (F & ss & -> & E). split; [constructor; [exists s; reflexivity|exact F]|].
      exists (s :: ss). split; [reflexivity|exact E].
    + intros (F & ss & E & H). destruct ss as [|s ss]; [discriminate|]. injection E as -> ->. inversion F; subst.
      unfold variant_step at 1. cbn. destruct a as [x|]; cbn in *.
      * destruct r as [y|]; cbn in H; [injection H as _ H; discriminate|discriminate].
      * apply IH. split; [assumption|]. exists ss. auto.
Qed.

Lemma rename_inj : forall ss ss', map (fun s => equals "rename" (TStr s)) ss = map (fun s => equals "rename" (TStr s)) ss' -> ss = ss'.
Proof. induction ss as [|s ss IH]; intros [|s' ss'] E; try discriminate; [reflexivity|]. injection E as -> E. f_equal. auto. Qed.

Theorem variant_exact : forall v,
  ((exists r, variant_of v = Some r) <-> variant_ok v) /\
  (forall r, variant_of v = Some r -> variant_means v r).
Proof.
  intros v. unfold variant_of, variant_ok, variant_means, variant_attrs.
  assert (M := fun r => list_attrs_nested "label"%string variant_step (vi_attrs v) None r).
  destruct (list_attrs "label" variant_step (vi_attrs v) None) as [rn|].
  - destruct (proj1 (M rn) eq_refl) as (LO & N). apply variant_nested in N.
    destruct N as (F & ss & E & R). cbn in R. subst ss. split.
    + split.
      * intros [r H]. split; [exact LO|]. split; [exact F|]. split.
        -- rewrite E. destruct rn; cbn; auto.
        -- destruct (vi_unit v); [|discriminate]. split; [reflexivity|]. destruct (vi_disc v); try discriminate.
      * intros (_ & _ & _ & U & D). rewrite U. destruct (vi_disc v) eqn:Dv; cbn; [eauto|eauto|contradiction].
    + intros r. destruct (vi_unit v); [|discriminate]. cbn [negb].
      assert (X : forall s, rn = Some s <-> In (equals "rename" (TStr s)) (arguments "label" (vi_attrs v))).
      { intros s. rewrite E. destruct rn as [x|]; cbn; split; try discriminate; try tauto.
        - intros H. injection H as ->. auto.
        - intros [H|[]]. injection H as ->. reflexivity. }
      destruct (vi_disc v); try discriminate; intros H; injection H as <-; cbn; (split; [reflexivity|]);
        (split; [|exact X]); intros z'; split; congruence.
  - split; [|discriminate]. split; [intros [r H]; discriminate|]. intros (LO & F & L & _).
    assert (exists ss, arguments "label" (vi_attrs v) = map (fun s => equals "rename" (TStr s)) ss) as [ss E].
    { clear - F. induction F as [|m ms [s ->] F [ss ->]]; [now exists []|now exists (s :: ss)]. }
    destruct (short_ol ss) as [r R]; [rewrite E, map_length in L; exact L|].
    assert (Q : None = Some r) by (apply M; split; [exact LO|]; apply variant_nested; split; [exact F|]; exists ss; auto).
    discriminate.
Qed.

Lemma collect_variants : forall vs,
  ((exists l, collect_all variant_of vs = Some l) <-> Forall variant_ok vs) /\
  (forall l, collect_all variant_of vs = Some l -> Forall2 variant_means vs l).
Proof.
  induction vs as [|v vs [IH1 IH2]]; cbn [collect_all].
  - split; [split; [constructor|eauto]|]. intros l E. injection E as <-. constructor.
  - destruct (variant_exact v) as [E1 E2]. split.
    + split.
      * intros [l H]. destruct (variant_of v) as [r|]; [|discriminate].
        destruct (collect_all variant_of vs) as [l'|]; [|discriminate]. constructor; [apply E1; eauto|apply IH1; eauto].
      * intros F. inversion F as [|? ? F1 F2]; subst. apply E1 in F1. apply IH1 in F2.
        destruct F1 as [r ->], F2 as [l ->]. cbn. eauto.
    + intros l H. destruct (variant_of v) as [r|]; [|discriminate].
      destruct (collect_all variant_of vs) as [l'|]; [|discriminate]. cbn in H. injection H as <-.
      constructor; auto.
Qed.

Theorem enum_exact : forall (F : Type) attrs (d : data F),
  ((exists r, derive_enum attrs d = Some r) <->
   enum_attrs_ok attrs /\ exists vs, d = DataEnum vs /\ Forall variant_ok vs) /\
  (forall e n vs, derive_enum attrs d = Some (e, n) -> d = DataEnum vs -> enum_means attrs vs e n).
Proof.
  intros F l d.
  set (a0 := {| ea_crate := None; ea_rename_all := None; ea_singleton := None |}).
  assert (M : forall a, enum_attrs l a0 = Some a <->
    list_only "label" l /\ no_trailing_comma "label" l /\ exists is, collect_all enum_item (arguments "label" l) = Some is /\ enum_slots a0 is a).
  { intros a. rewrite enum_attrs_nested, nested_enum. reflexivity. }
  unfold derive_enum. fold a0. destruct (enum_attrs l a0) as [a|].
  - destruct (proj1 (M a) eq_refl) as (LO & TC & is & C & K & R & S). cbn [a0 ea_crate ea_rename_all ea_singleton ol app] in *.
    apply collect_all_Forall2 in C. destruct (enum_items_times _ _ C) as (T1 & T2 & T3).
    pose proof (enum_in_ren _ _ C) as IR. pose proof (enum_in_sing _ _ C) as IS. rewrite <- R in IR. rewrite <- S in IS.
    assert (OK : (forall s, ea_singleton a = Some s -> valid_label_name s) <-> enum_attrs_ok l).
    { unfold enum_attrs_ok. rewrite <- T1, <- T2, <- T3, <- K, <- R, <- S. split.
      - intros H. split; [exact LO|]. split; [exact TC|]. split.
        + apply Forall_forall. intros m I. apply enum_item_ok.
          clear - C I. induction C as [|m' i ms is E F IH]; [destruct I|destruct I as [<-|I]; eauto].
        + split; [destruct (ea_crate a); cbn; auto|]. split; [destruct (ea_rename_all a); cbn; auto|].
          split; [destruct (ea_singleton a); cbn; auto|]. intros s I. apply IS, ol_in in I. auto.
      - intros (_ & _ & _ & _ & _ & _ & H) s E. apply H, IS, ol_in, E. }
    destruct d as [vs|fs|]; [|split; [split; [intros [r H]; discriminate|intros (_ & vs & H & _); discriminate]|discriminate]..].
    destruct (collect_variants vs) as [V1 V2].
    destruct (collect_all variant_of vs) as [vars|].
    + assert (FV : Forall variant_ok vs) by (apply V1; eauto). specialize (V2 _ eq_refl).
      assert (MEAN : forall e n, en_variants e = vars -> n = ea_singleton a ->
         en_rename_all e = match ea_rename_all a with Some r => r | None => default_rename_all end -> enum_means l vs e n).
      { intros e n E1 E2 E3. unfold enum_means. rewrite E1, E3. subst n. split; [|split; [|split; [|exact V2]]].
        - intros n r N I. assert (In r (ol (ea_rename_all a))) as H by (apply IR; eauto). apply ol_in in H. now rewrite H.
        - intros Z. rewrite <- T2, <- R in Z. destruct (ea_rename_all a); [discriminate|reflexivity].
        - intros s. rewrite <- IS, ol_in. reflexivity. }
      destruct (ea_singleton a) as [n|] eqn:SG.
      * destruct (label_name_from_str n) as [n'|] eqn:NM.
        -- split.
           ++ split; [intros _|eauto]. split; [|eauto]. apply OK. intros s E. injection E as <-.
              apply label_from_str_done in NM. tauto.
           ++ intros e n0 vs' H Q. injection Q as <-. injection H as <- <-. apply label_from_str_done in NM.
              destruct NM as [-> _]. apply MEAN; reflexivity.
        -- split; [|discriminate]. split; [intros [r H]; discriminate|]. intros (H & _).
           assert (V : valid_label_name n) by (apply OK; auto). destruct (label_from_str_panic _ NM V).
      * split.
        -- split; [intros _|eauto]. split; [|eauto]. apply OK. discriminate.
        -- intros e n0 vs' H Q. injection Q as <-. injection H as <- <-. apply MEAN; reflexivity.
    + split; [|discriminate]. split; [intros [r H]; discriminate|]. intros (_ & vs' & Q & H). injection Q as <-.
      apply V1 in H. destruct H as [? H]. discriminate.
  - split; [|discriminate]. split; [intros [r H]; discriminate|].
    intros ((LO & TC & FA & T1 & T2 & T3 & H) & _).
    assert (C : exists is, collect_all enum_item (arguments "label" l) = Some is).
    { destruct (collect_all enum_item (arguments "label" l)) as [is|] eqn:C; [eauto|].
      apply collect_all_None in C. destruct C as (m & I & E). rewrite Forall_forall in FA.
      apply FA, enum_item_ok in I. destruct I as [i I]. congruence. }
    destruct C as [is C]. pose proof C as C'. apply collect_all_Forall2 in C'.
    destruct (enum_items_times _ _ C') as (U1 & U2 & U3).
    destruct (short_ol (flat_map e_crate is)) as [k K]; [lia|].
    destruct (short_ol (flat_map e_ren is)) as [r R]; [lia|].
    destruct (short_ol (flat_map e_sing is)) as [s S]; [lia|].
    assert (Q : None = Some {| ea_crate := k; ea_rename_all := r; ea_singleton := s |}).
    { apply M. split; [exact LO|]. split; [exact TC|]. exists is. split; [exact C|]. unfold enum_slots. cbn. auto. }
    discriminate.
Qed.
