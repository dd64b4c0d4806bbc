(** Generated constructors (C61). *)
From Coq Require Import String List NArith ZArith Bool Lia Permutation.
From Verif Require Import Base BaseFacts NameModel NameSpec LabelModel LabelSpec EncoderModel
  DeriveModel DeriveSpec DeriveProofs DeriveMetricProofs.
Import ListNotations.

(** The sort is stable, with two keys. *)
Lemma linsert_dyn : forall f l, dynamic_field f = true -> linsert f l = f :: l.
Proof.
  intros f [|g t] H; [reflexivity|]. cbn [linsert]. unfold dynamic_field, lkey in *.
  destruct (lb_kind (lf_attrs f)); try discriminate. destruct (lb_kind (lf_attrs g)); reflexivity.
Qed.
Lemma linsert_fix : forall f l1 l2, dynamic_field f = false ->
  Forall (fun g => dynamic_field g = true) l1 -> Forall (fun g => dynamic_field g = false) l2 ->
  linsert f (l1 ++ l2) = l1 ++ f :: l2.
Proof.
  intros f l1 l2 Hf F1 F2. induction F1 as [|g l1 G F1 IH]; cbn [app].
  - destruct l2 as [|g t]; [reflexivity|]. inversion F2; subst. cbn [linsert].
    unfold dynamic_field, lkey in *. destruct (lb_kind (lf_attrs f)), (lb_kind (lf_attrs g)); try discriminate; reflexivity.
  - cbn [linsert]. rewrite IH. unfold dynamic_field, lkey in *.
    destruct (lb_kind (lf_attrs f)), (lb_kind (lf_attrs g)); try discriminate; reflexivity.
Qed.

Lemma lsort_split : forall l,
  lsort l = filter dynamic_field l ++ filter (fun f => negb (dynamic_field f)) l.
Proof.
  induction l as [|f l IH]; [reflexivity|]. cbn [lsort filter]. rewrite IH.
  destruct (dynamic_field f) eqn:D; cbn [negb app].
  - now apply linsert_dyn.
  - apply linsert_fix; [exact D|..]; apply Forall_forall; intros g I; apply filter_In in I; destruct I as [_ I];
      [exact I|destruct (dynamic_field g); [discriminate|reflexivity]].
Qed.

Lemma filter_twice : forall {A} (p q : A -> bool) l, filter p (filter q l) = filter (fun x => p x && q x) l.
Proof.
  induction l as [|x l IH]; [reflexivity|]. cbn [filter]. destruct (q x), (p x) eqn:P; cbn [filter andb]; rewrite ?P, IH; reflexivity.
Qed.

Lemma sorted_wanted : forall l, filter wanted (lsort l) = new_parameters l.
Proof. intros. rewrite lsort_split, filter_app, !filter_twice. reflexivity. Qed.

Theorem new_arguments : forall l, new_args l = map lf_name (new_parameters l).
Proof. intros. unfold new_args. f_equal. apply sorted_wanted. Qed.

Lemma lsort_perm : forall l, Permutation (lsort l) l.
Proof.
  intros. rewrite lsort_split. induction l as [|f l IH]; [constructor|]. cbn [filter].
  destruct (dynamic_field f); cbn [negb app]; [now constructor|].
  rewrite <- Permutation_middle. now constructor.
Qed.

Section Values.
  Variable V : Type.
  Variable static_new : V.
  Variable path_default : bytes -> V.

  Lemma bind_args_combine : forall ns vs, length ns = length vs -> bind_args V ns vs = Some (combine ns vs).
  Proof.
    induction ns as [|n ns IH]; intros [|v vs] H; try discriminate; [reflexivity|]. cbn. rewrite IH by (cbn in H; lia). reflexivity.
  Qed.
  Lemma bind_args_length : forall ns vs e, bind_args V ns vs = Some e -> length ns = length vs.
  Proof.
    induction ns as [|n ns IH]; intros [|v vs] e H; try discriminate; [reflexivity|]. cbn in *.
    destruct (bind_args V ns vs) eqn:E; [|discriminate]. f_equal. eauto.
  Qed.

  Lemma fst_combine : forall (ns : list bytes) (vs : list V), length ns = length vs -> map fst (combine ns vs) = ns.
  Proof. induction ns as [|n ns IH]; intros [|v vs] H; try discriminate; [reflexivity|]. cbn in *. rewrite IH by lia. reflexivity. Qed.

  Lemma nth_combine : forall (ns : list bytes) (vs : list V) k n v,
    nth_error ns k = Some n -> nth_error vs k = Some v -> In (n, v) (combine ns vs).
  Proof.
    induction ns as [|m ns IH]; intros vs [|k] n v A B; try discriminate; destruct vs as [|w vs]; try discriminate; cbn in *.
    - left. congruence.
    - right. eauto.
  Qed.

  Lemma wanted_nodup : forall l, NoDup (map lf_name l) -> NoDup (map lf_name (new_parameters l)).
  Proof.
    intros l N. rewrite <- sorted_wanted.
    assert (H : NoDup (map lf_name (lsort l))).
    { eapply Permutation_NoDup; [|exact N]. apply Permutation_map, Permutation_sym, lsort_perm. }
    clear N. induction (lsort l) as [|f t IH]; [constructor|]. cbn in H. inversion H as [|? ? NI ND]; subst.
    cbn [filter]. destruct (wanted f); [|auto]. cbn. constructor; [|auto].
    intros I. apply NI. apply in_map_iff in I. destruct I as (g & E & I). apply filter_In in I. rewrite <- E. apply in_map. tauto.
  Qed.

  Definition field_value_after (l : list lfield) (args : list V) (f : lfield) (v : V) : Prop :=
    if wanted f then exists k, nth_error (new_parameters l) k = Some f /\ nth_error args k = Some v
    else v = match lb_kind (lf_attrs f) with LFixed => static_new | LFixedWith p | LDynamicWith p => path_default p end.

  Theorem set_new_exact : forall l args, NoDup (map lf_name l) ->
    ((exists r, set_new V static_new path_default l args = Some r) <-> length args = length (new_parameters l)) /\
    (forall r, set_new V static_new path_default l args = Some r ->
       Permutation (map fst r) (map lf_name l) /\
       forall f, In f l -> exists v, In (lf_name f, v) r /\
         if wanted f then exists k, nth_error (new_parameters l) k = Some f /\ nth_error args k = Some v
         else v = match lb_kind (lf_attrs f) with LFixed => static_new | LFixedWith p | LDynamicWith p => path_default p end).
  Proof.
    intros l args N. unfold set_new. rewrite new_arguments.
    pose proof (wanted_nodup l N) as NW.
    destruct (bind_args V (map lf_name (new_parameters l)) args) as [env|] eqn:B.
    - pose proof (bind_args_length _ _ _ B) as LN. rewrite bind_args_combine in B by exact LN. injection B as <-.
      rewrite map_length in LN.
      set (env := combine (map lf_name (new_parameters l)) args).
      assert (KEY : map fst env = map lf_name (new_parameters l)) by (apply fst_combine; rewrite map_length; exact LN).
      assert (G : forall f, In f l -> exists v, init_field V static_new path_default env f = Some v /\
         if wanted f then exists k, nth_error (new_parameters l) k = Some f /\ nth_error args k = Some v
         else v = match lb_kind (lf_attrs f) with LFixed => static_new | LFixedWith p | LDynamicWith p => path_default p end).
      { intros f I. unfold init_field. unfold wanted at 1. destruct (lb_default (lf_attrs f)) eqn:D; cbn [negb]; [eauto|].
        assert (W : In f (new_parameters l)).
        { rewrite <- sorted_wanted. apply filter_In. split; [|unfold wanted; now rewrite D].
          eapply Permutation_in; [apply Permutation_sym, lsort_perm|exact I]. }
        apply In_nth_error in W. destruct W as [k W].
        assert (exists v, nth_error args k = Some v) as [v A].
        { destruct (nth_error args k) eqn:A; [eauto|]. apply nth_error_None in A.
          assert (k < length (new_parameters l)) by (apply nth_error_Some; congruence). lia. }
        exists v. split; [|eauto]. apply assoc_In_NoDup; [now rewrite KEY|].
        eapply nth_combine; [|exact A]. now apply map_nth_error. }
      assert (C : exists r, collect_all (fun f => option_map (pair (lf_name f)) (init_field V static_new path_default env f)) (lsort l) = Some r).
      { destruct (collect_all _ (lsort l)) as [r|] eqn:C; [eauto|]. apply collect_all_None in C. destruct C as (f & I & E).
        destruct (G f) as (v & Gv & _); [eapply Permutation_in; [apply lsort_perm|exact I]|]. rewrite Gv in E. discriminate. }
      destruct C as [r C]. rewrite C. split; [split; [intros _; lia|eauto]|]. intros r' E. injection E as <-.
      apply collect_all_Forall2 in C. split.
      + rewrite <- (lsort_perm l) at 1. replace (map fst r) with (map lf_name (lsort l)); [reflexivity|].
        clear - C. induction C as [|f p fs ps E F IH]; [reflexivity|]. cbn. rewrite IH. f_equal.
        destruct (init_field V static_new path_default env f); [|discriminate]. cbn in E. injection E as <-. reflexivity.
      + intros f I. destruct (G f I) as (v & Gv & Hv). exists v. split; [|exact Hv].
        assert (I' : In f (lsort l)) by (eapply Permutation_in; [apply Permutation_sym, lsort_perm|exact I]).
        clear - C I' Gv. induction C as [|g p fs ps E F IH]; [destruct I'|]. destruct I' as [->|I'].
        * rewrite Gv in E. cbn in E. injection E as <-. now left.
        * right. auto.
    - split; [|discriminate]. split; [intros [r H]; discriminate|]. intros H.
      rewrite bind_args_combine in B by (rewrite map_length; lia). discriminate.
  Qed.
End Values.

(** The [unreachable!] in the code that writes the argument types. *)
Theorem fixed_is_default : forall l r, label_field_attrs l = Some r -> lb_default r = false -> lb_kind r <> LFixed.
Proof.
  intros l r E D K. destruct (label_attrs_exact l) as [_ M]. specialize (M r E). destruct M as (_ & _ & M & _).
  assert (lb_default r = true) by (apply M; auto). congruence.
Qed.

Lemma times_zero : forall ns ms m, times ns ms = 0 -> In m ms -> existsb (fun n => beqb (mt_path m) (str n)) ns = false.
Proof.
  intros ns ms m Z I. unfold times in Z. apply length_zero_iff_nil in Z.
  destruct (existsb (fun n => beqb (mt_path m) (str n)) ns) eqn:E; [|reflexivity].
  assert (In m []) by (rewrite <- Z; apply filter_In; auto). contradiction.
Qed.
Lemma times_nonzero : forall ns ms, times ns ms <> 0 -> exists m, In m ms /\ existsb (fun n => beqb (mt_path m) (str n)) ns = true.
Proof.
  intros ns ms Z. unfold times in Z. destruct (filter _ ms) as [|m t] eqn:F; [cbn in Z; lia|].
  exists m. assert (I : In m (m :: t)) by now left. rewrite <- F in I. now apply filter_In in I.
Qed.

Theorem struct_new_exact : forall name attrs a, metric_field_attrs attrs = Some a ->
  forall i, field_init {| mg_name := name; mg_attrs := a |} = i <-> initialised_by (arguments "metric" attrs) i.
Proof.
  intros name attrs a E. destruct (metric_attrs_exact attrs) as [OK M]. specialize (M a E).
  assert (Hok : metric_attrs_ok attrs) by (apply OK; eauto).
  destruct Hok as (_ & _ & FA & T0 & T1 & T2 & T3 & T4).
  destruct M as (_ & _ & _ & _ & MI & MM & ML & MW).
  set (ms := arguments "metric" attrs) in *.
  assert (L0 : times ["label_set"]%string ms = 0 <-> forall e, ~ In (equals "label_set" e) ms).
  { split.
    - intros Z e I. apply (times_zero _ _ _ Z) in I. discriminate.
    - intros H. destruct (Nat.eq_dec (times ["label_set"]%string ms) 0) as [Z|Z]; [exact Z|].
      apply times_nonzero in Z. destruct Z as (m & I & X). rewrite Forall_forall in FA. pose proof (FA m I) as A.
      destruct A; try discriminate X. exfalso. eapply H. exact I. }
  assert (A0 : times ["init"; "metadata"; "label_set"]%string ms = 0 <-> mf_init a = None).
  { split.
    - intros Z. destruct (mf_init a) as [[x|[x|] [y|]]|] eqn:I; [..|reflexivity].
      + pose proof (proj1 (MI x) eq_refl) as J. apply (times_zero _ _ _ Z) in J. discriminate.
      + pose proof (proj1 (MM x) (ex_intro _ _ eq_refl)) as J. apply (times_zero _ _ _ Z) in J. discriminate.
      + pose proof (proj1 (MM x) (ex_intro _ _ eq_refl)) as J. apply (times_zero _ _ _ Z) in J. discriminate.
      + pose proof (proj1 (ML y) (ex_intro _ _ eq_refl)) as J. apply (times_zero _ _ _ Z) in J. discriminate.
      + exfalso. now apply MW.
    - intros Z. destruct (Nat.eq_dec (times ["init"; "metadata"; "label_set"]%string ms) 0) as [Q|Q]; [exact Q|].
      apply times_nonzero in Q. destruct Q as (m & I & X). rewrite Forall_forall in FA. pose proof (FA m I) as A.
      rewrite Z in *. destruct A; try discriminate X.
      + apply MI in I. discriminate.
      + apply MM in I. destruct I. discriminate.
      + apply ML in I. destruct I. discriminate. }
  unfold field_init. cbn [mg_attrs]. intros i. destruct i as [e|ls md|md|]; cbn [initialised_by].
  - rewrite <- MI. destruct (mf_init a) as [[x|[x|] [y|]]|]; split; congruence.
  - rewrite <- ML. destruct (mf_init a) as [[x|x [y|]]|] eqn:I.
    + split; [congruence|]. intros [(z & H) _]. discriminate.
    + split.
      * intros H. injection H as -> ->. split; [eauto|]. intros z. rewrite <- MM. split.
        -- intros ->. eauto.
        -- intros (w & H). congruence.
      * intros [(z & H) P]. injection H as -> ->. f_equal. destruct z as [z|].
        -- symmetry. apply P, MM. eauto.
        -- destruct md as [w|]; [|reflexivity]. exfalso.
           assert (J : exists l', Some (IMetric None (Some ls)) = Some (IMetric (Some w) l')) by (apply MM, P; reflexivity).
           destruct J. discriminate.
    + split; [congruence|]. intros [(z & H) _]. discriminate.
    + split; [congruence|]. intros [(z & H) _]. discriminate.
  - rewrite L0. destruct (mf_init a) as [[x|x [y|]]|] eqn:I.
    + split; [congruence|]. intros [_ (e & _ & J)]. apply MM in J. destruct J. discriminate.
    + split; [congruence|]. intros [H _]. exfalso. eapply H. apply ML. eauto.
    + split.
      * intros H. injection H as ->. split.
        -- intros e J. apply ML in J. destruct J as (z & J). discriminate.
        -- destruct md as [e|]; [|exfalso; now apply MW]. exists e. split; [reflexivity|]. apply MM. eauto.
      * intros [_ (e & -> & J)]. apply MM in J. destruct J as (z & J). congruence.
    + split; [congruence|]. intros [_ (e & _ & J)]. apply MM in J. destruct J. discriminate.
  - rewrite A0. destruct (mf_init a) as [[x|x [y|]]|]; split; congruence.
Qed.
