(** Which structs the derives accept (C57), and the names they show (C58). *)
From Coq Require Import String List NArith ZArith Bool Lia.
From Verif Require Import Base BaseFacts NameModel NameSpec NameProofs LabelModel LabelSpec EncoderModel
  DeriveModel DeriveSpec DeriveProofs DeriveMetricProofs DeriveNewProofs.
Import ListNotations.

(** ** Two slots *)

Section Two.
  Variables (A B : Type) (n1 n2 : string) (p1 : meta -> option A) (p2 : meta -> option B).
  Hypothesis n12 : str n2 <> str n1.

  Definition two (m : meta) (a : option A * option B) : option (option A * option B) :=
    if is n1 (mt_path m) then option_map (fun c => (c, snd a)) (put_once (fst a) (p1 m))
    else if is n2 (mt_path m) then option_map (fun c => (fst a, c)) (put_once (snd a) (p2 m))
    else None.
  Definition v1 (m : meta) : list A := if is n1 (mt_path m) then ol (p1 m) else [].
  Definition v2 (m : meta) : list B := if is n2 (mt_path m) then ol (p2 m) else [].
  Definition ok (m : meta) : Prop :=
    (mt_path m = str n1 /\ p1 m <> None) \/ (mt_path m = str n2 /\ p2 m <> None).

  Lemma two_nested : forall ms a r, nested two ms a = Some r <->
    Forall ok ms /\ ol (fst r) = ol (fst a) ++ flat_map v1 ms /\ ol (snd r) = ol (snd a) ++ flat_map v2 ms.
  Proof.
    induction ms as [|m ms IH]; intros [x y] [x' y']; cbn [nested flat_map fst snd].
    - rewrite !app_nil_r. split.
      + intros E. injection E as <- <-. auto.
      + intros (_ & E1 & E2). apply ol_inj in E1. apply ol_inj in E2. congruence.
    - unfold two at 1, v1 at 1, v2 at 1. destruct (is n1 (mt_path m)) eqn:I1.
      + apply is_spec in I1. assert (I2 : is n2 (mt_path m) = false).
        { destruct (is n2 (mt_path m)) eqn:I2; [|reflexivity]. apply is_spec in I2. congruence. }
        rewrite I2. cbn [app fst snd]. destruct (p1 m) as [v|] eqn:P; cbn [put_once ol app].
        * destruct x as [w|]; cbn [option_map ol app].
          -- split; [discriminate|]. intros (_ & E & _). destruct x'; discriminate.
          -- rewrite IH. cbn [fst snd ol app]. split.
             ++ intros (F & E1 & E2). split; [|auto]. constructor; [left; split; congruence|exact F].
             ++ intros (F & E1 & E2). inversion F; subst. auto.
        * cbn [option_map]. split; [discriminate|]. intros (F & _). inversion F as [|? ? [[_ H]|[H _]] _]; subst; congruence.
      + cbn [app fst snd]. destruct (is n2 (mt_path m)) eqn:I2.
        * apply is_spec in I2. destruct (p2 m) as [v|] eqn:P; cbn [put_once ol app].
          -- destruct y as [w|]; cbn [option_map ol app].
             ++ split; [discriminate|]. intros (_ & _ & E). destruct y'; discriminate.
             ++ rewrite IH. cbn [fst snd ol app]. split.
                ** intros (F & E1 & E2). split; [|auto]. constructor; [right; split; congruence|exact F].
                ** intros (F & E1 & E2). inversion F; subst. auto.
          -- cbn [option_map]. split; [discriminate|]. intros (F & _). inversion F as [|? ? [[H _]|[_ H]] _]; subst; congruence.
        * split; [discriminate|]. intros (F & _).
          inversion F as [|? ? [[H _]|[H _]] _]; subst; [rewrite (proj2 (is_spec n1 _) H) in I1|rewrite (proj2 (is_spec n2 _) H) in I2]; discriminate.
  Qed.

  Lemma v_times : forall ms, Forall ok ms ->
    length (flat_map v1 ms) = times [n1] ms /\ length (flat_map v2 ms) = times [n2] ms.
  Proof.
    induction 1 as [|m ms H F (IH1 & IH2)]; [cbn; auto|]. cbn [flat_map]. rewrite !app_length, !times_cons, IH1, IH2.
    unfold v1, v2, is, existsb. rewrite !orb_false_r. destruct H as [[H P]|[H P]].
    - rewrite H, beqb_refl. destruct (p1 m); [|congruence]. destruct (beqb (str n1) (str n2)) eqn:E; [apply beqb_spec in E; congruence|cbn; lia].
    - rewrite H, beqb_refl. destruct (p2 m); [|congruence]. destruct (beqb (str n2) (str n1)) eqn:E; [apply beqb_spec in E; congruence|cbn; lia].
  Qed.

  Lemma two_ok : forall ms, (exists r, nested two ms (None, None) = Some r) <->
    Forall ok ms /\ times [n1] ms <= 1 /\ times [n2] ms <= 1.
  Proof.
    intros ms. split.
    - intros [[x y] E]. apply two_nested in E. destruct E as (F & E1 & E2). cbn in E1, E2.
      destruct (v_times ms F) as [T1 T2]. rewrite <- T1, <- T2, <- E1, <- E2.
      split; [exact F|]. destruct x, y; cbn; auto.
    - intros (F & T1 & T2). destruct (v_times ms F) as [U1 U2].
      destruct (short_ol (flat_map v1 ms)) as [x X]; [lia|]. destruct (short_ol (flat_map v2 ms)) as [y Y]; [lia|].
      exists (x, y). apply two_nested. auto.
  Qed.
  Lemma two_second : forall ms x y, nested two ms (None, None) = Some (x, y) ->
    times [n2] ms = match y with Some _ => 1 | None => 0 end.
  Proof.
    intros ms x y E. apply two_nested in E. destruct E as (F & _ & E2). cbn in E2.
    destruct (v_times ms F) as [_ T2]. rewrite <- T2, <- E2. destruct y; reflexivity.
  Qed.
End Two.

Lemma nested_map : forall {A B} (f : A -> B) (stepA : meta -> A -> option A) (stepB : meta -> B -> option B),
  (forall m a, stepB m (f a) = option_map f (stepA m a)) ->
  forall ms a, nested stepB ms (f a) = option_map f (nested stepA ms a).
Proof.
  intros A B f sA sB H. induction ms as [|m ms IH]; intros a; cbn [nested]; [reflexivity|].
  rewrite H. destruct (sA m a); cbn [option_map]; [apply IH|reflexivity].
Qed.

Definition lc_two := two bytes bytes "crate" "set" (value_of as_path) (value_of as_ident).
Definition lc_of (a : option bytes * option bytes) : label_container := {| lc_crate := fst a; lc_set := snd a |}.
Lemma lc_step : forall m a, label_container_step m (lc_of a) = option_map lc_of (lc_two m a).
Proof.
  intros m [x y]. unfold label_container_step, lc_two, two, lc_of. cbn [fst snd lc_crate lc_set].
  destruct (is "crate" (mt_path m)); [destruct (put_once x _); reflexivity|].
  destruct (is "set" (mt_path m)); [destruct (put_once y _); reflexivity|reflexivity].
Qed.

Lemma label_container_arg : forall m, label_container_argument m <->
  ok bytes bytes "crate" "set" (value_of as_path) (value_of as_ident) m.
Proof.
  intros [p a]. unfold ok. cbn [mt_path]. split.
  - intros H. inversion H; subst; [left|left|right]; split; discriminate || reflexivity.
  - intros [[-> H]|[-> H]]; destruct a as [|v|args]; try (exfalso; now apply H); destruct v; try (exfalso; now apply H); constructor.
Qed.
Lemma Forall_iff : forall {A} (P Q : A -> Prop) l, (forall x, P x <-> Q x) -> Forall P l <-> Forall Q l.
Proof. intros A P Q l H. rewrite !Forall_forall. firstorder. Qed.

Lemma label_container_exact : forall l,
  (exists a, list_attrs "label" label_container_step l {| lc_crate := None; lc_set := None |} = Some a /\ lc_set a <> None) <->
  label_container_ok l.
Proof.
  intros l. change {| lc_crate := None; lc_set := None |} with (lc_of (None, None)).
  assert (D : str "set" <> str "crate") by discriminate.
  unfold label_container_ok. rewrite (Forall_iff _ _ _ label_container_arg). split.
  - intros (a & E & S). apply list_attrs_nested in E. destruct E as [LO E].
    rewrite (nested_map lc_of lc_two _ lc_step) in E.
    destruct (nested lc_two (arguments "label" l) (None, None)) as [[x y]|] eqn:N; [|discriminate].
    cbn in E. injection E as <-. cbn in S.
    pose proof (proj1 (two_ok _ _ _ _ _ _ D _) (ex_intro _ _ N)) as (F & T1 & T2).
    pose proof (two_second _ _ _ _ _ _ D _ _ _ N) as T. destruct y; [|congruence]. auto.
  - intros (LO & F & T1 & T2).
    assert (T2' : times ["set"]%string (arguments "label" l) <= 1) by lia.
    pose proof (proj2 (two_ok _ _ _ _ _ _ D (arguments "label" l)) (conj F (conj T1 T2'))) as [[x y] N].
    exists (lc_of (x, y)). split.
    + apply list_attrs_nested. split; [exact LO|]. rewrite (nested_map lc_of lc_two _ lc_step).
      unfold lc_two. rewrite N. reflexivity.
    + pose proof (two_second _ _ _ _ _ _ D _ _ _ N) as T. rewrite T2 in T. destruct y; [discriminate|discriminate].
Qed.

Definition new_args_of (m : meta) : option (list bytes) := match mt_arg m with MParen args => Some args | _ => None end.
Definition mc_two := two bytes (list bytes) "crate" "new" (value_of as_path) new_args_of.
Definition mc_of (a : option bytes * option (list bytes)) : metric_container := {| mc_crate := fst a; mc_new := snd a |}.
Lemma mc_step : forall m a, metric_container_step m (mc_of a) = option_map mc_of (mc_two m a).
Proof.
  intros m [x y]. unfold metric_container_step, mc_two, two, mc_of, new_args_of. cbn [fst snd mc_crate mc_new].
  destruct (is "crate" (mt_path m)); [destruct (put_once x _); reflexivity|].
  destruct (is "new" (mt_path m)); [destruct (put_once y _); reflexivity|reflexivity].
Qed.
Lemma metric_container_arg : forall m, metric_container_argument m <->
  ok bytes (list bytes) "crate" "new" (value_of as_path) new_args_of m.
Proof.
  intros [p a]. unfold ok, new_args_of. cbn [mt_path mt_arg]. split.
  - intros H. inversion H; subst; [left|left|right]; split; discriminate || reflexivity.
  - intros [[-> H]|[-> H]].
    + destruct a as [|v|args]; try (exfalso; now apply H); destruct v; try (exfalso; now apply H); constructor.
    + destruct a as [|v|args]; try (exfalso; now apply H). constructor.
Qed.
Lemma metric_container_exact : forall l,
  ((exists a, list_attrs "metric" metric_container_step l {| mc_crate := None; mc_new := None |} = Some a) <->
   metric_container_ok l) /\
  (forall a args, list_attrs "metric" metric_container_step l {| mc_crate := None; mc_new := None |} = Some a ->
     mc_new a = Some args <-> In {| mt_path := str "new"; mt_arg := MParen args |} (arguments "metric" l)).
Proof.
  intros l. change {| mc_crate := None; mc_new := None |} with (mc_of (None, None)).
  assert (D : str "new" <> str "crate") by discriminate.
  unfold metric_container_ok. rewrite (Forall_iff _ _ _ metric_container_arg).
  assert (M : forall a, list_attrs "metric" metric_container_step l (mc_of (None, None)) = Some a <->
    list_only "metric" l /\ exists x y, nested mc_two (arguments "metric" l) (None, None) = Some (x, y) /\ a = mc_of (x, y)).
  { intros a. rewrite list_attrs_nested, (nested_map mc_of mc_two _ mc_step).
    destruct (nested mc_two (arguments "metric" l) (None, None)) as [[x y]|]; cbn [option_map].
    - split; [intros [LO E]; injection E as <-; eauto 6|]. intros (LO & x' & y' & E & ->). injection E as <- <-. auto.
    - split; [intros [_ E]; discriminate|]. intros (_ & x & y & E & _). discriminate. }
  split.
  - split.
    + intros (a & E). apply M in E. destruct E as (LO & x & y & N & ->). split; [exact LO|].
      apply (two_ok _ _ _ _ _ _ D). eauto.
    + intros (LO & H). apply (two_ok _ _ _ _ _ _ D) in H. destruct H as [[x y] N]. exists (mc_of (x, y)). apply M. eauto 6.
  - intros a args E. apply M in E. destruct E as (LO & x & y & N & ->). cbn.
    apply two_nested in N; [|exact D]. destruct N as (F & _ & E2). cbn in E2.
    rewrite <- ol_in, E2, in_flat_map. split.
    + intros (m & I & V). unfold v2 in V. destruct (is "new" (mt_path m)) eqn:P; [|destruct V]. apply is_spec in P.
      destruct m as [p [|v|ar]]; cbn in *; try tauto. destruct V as [<-|[]]. subst p. exact I.
    + intros I. eexists. split; [exact I|]. cbn. auto.
Qed.

(** ** Constants *)

Lemma distinct_spec : forall l, distinct l = true <-> NoDup l.
Proof.
  induction l as [|x l IH]; cbn [distinct]; [split; [constructor|reflexivity]|].
  rewrite andb_true_iff, negb_true_iff, IH. split.
  - intros [E N]. constructor; [|exact N]. intros I.
    assert (existsb (beqb x) l = true) by (apply existsb_exists; exists x; split; [exact I|apply beqb_refl]). congruence.
  - intros N. inversion N; subst. split; [|assumption]. destruct (existsb (beqb x) l) eqn:E; [|reflexivity].
    apply existsb_exists in E. destruct E as (y & I & B). apply beqb_spec in B. subst. contradiction.
Qed.

Lemma forallb_map_Forall : forall {A B} (p : B -> bool) (f : A -> B) l,
  forallb p (map f l) = true <-> Forall (fun x => p (f x) = true) l.
Proof.
  intros. rewrite forallb_forall, Forall_forall. split; intros H x I.
  - apply H. now apply in_map.
  - apply in_map_iff in I. destruct I as (y & <- & I). auto.
Qed.

Lemma metric_from_str_done : forall n n', metric_name_from_str n = Done n' -> n' = n /\ valid_metric_name n.
Proof.
  intros n n' E. destruct (metric_from_str_exact n) as [H1 H2].
  destruct (valid_metric_nameb n) eqn:V.
  - apply valid_metric_nameb_spec in V. rewrite (H1 V) in E. injection E as <-. auto.
  - assert (~ valid_metric_name n) as NV by (rewrite <- valid_metric_nameb_spec; congruence).
    rewrite (H2 NV) in E. discriminate.
Qed.

Lemma label_consts_spec : forall sh ok names, label_consts sh ok names = true <-> names_ok valid_label_name sh ok names.
Proof.
  intros. unfold label_consts, names_ok. rewrite !andb_true_iff, distinct_spec, forallb_map_Forall.
  assert (V : forallb (fun n => match label_name_from_str n with Done _ => true | Panic => false end) names = true <-> Forall valid_label_name names).
  { rewrite forallb_forall, Forall_forall. split; intros H n I; specialize (H n I).
    - destruct (label_name_from_str n) eqn:E; [|discriminate]. now apply label_from_str_done in E.
    - destruct (label_name_from_str n) eqn:E; [reflexivity|]. now apply label_from_str_panic in E. }
  rewrite V. tauto.
Qed.
Lemma metric_consts_spec : forall sh ok names, metric_consts sh ok names = true <-> names_ok valid_metric_name sh ok names.
Proof.
  intros. unfold metric_consts, names_ok. rewrite !andb_true_iff, distinct_spec, forallb_map_Forall.
  assert (V : forallb (fun n => match metric_name_from_str n with Done _ => true | Panic => false end) names = true <-> Forall valid_metric_name names).
  { rewrite forallb_forall, Forall_forall. split; intros H n I; specialize (H n I).
    - destruct (metric_name_from_str n) eqn:E; [|discriminate]. now apply metric_from_str_done in E.
    - destruct (metric_from_str_exact n) as [H1 _]. now rewrite (H1 H). }
  rewrite V. tauto.
Qed.

Lemma NoDup_map_inv' : forall {A B} (f : A -> B) l, NoDup (map f l) -> NoDup l.
Proof. intros. eapply NoDup_map_inv. eassumption. Qed.

(** ** Structs *)

Lemma no_rename : forall key (argument : meta -> Prop) f, (forall m, argument m -> mt_path m = str "rename" -> exists s, m = equals "rename" (TStr s)) ->
  Forall argument (arguments key (fi_attrs f)) ->
  times ["rename"]%string (arguments key (fi_attrs f)) = 0 <->
  forall s, ~ In (equals "rename" (TStr s)) (arguments key (fi_attrs f)).
Proof.
  intros key argument f AR FA. split.
  - intros Z s I. apply (times_zero _ _ _ Z) in I. discriminate.
  - intros H. destruct (Nat.eq_dec (times ["rename"]%string (arguments key (fi_attrs f))) 0) as [Z|Z]; [exact Z|].
    apply times_nonzero in Z. destruct Z as (m & I & X). rewrite Forall_forall in FA. specialize (FA m I).
    cbn in X. rewrite orb_false_r in X. apply beqb_spec in X. destruct (AR m FA X) as (s & ->). exfalso. eapply H, I.
Qed.

Lemma lfield_exact : forall f,
  ((exists r, lfield_of f = Some r) <-> label_attrs_ok (fi_attrs f)) /\
  (forall r, lfield_of f = Some r -> lf_name r = fi_name f /\ label_attrs_mean (fi_attrs f) (lf_attrs r) /\
     forall n, lfield_label r = n <-> shown_as "label" f n).
Proof.
  intros f. destruct (label_attrs_exact (fi_attrs f)) as [E1 E2]. unfold lfield_of. split.
  - rewrite <- E1. destruct (label_field_attrs (fi_attrs f)); cbn; split; intros [r H]; try discriminate; eauto.
  - intros r H. destruct (label_field_attrs (fi_attrs f)) as [a|]; [|discriminate]. cbn in H. injection H as <-. cbn.
    specialize (E2 a eq_refl). split; [reflexivity|]. split; [exact E2|].
    destruct E2 as (_ & _ & _ & R). assert (OK : label_attrs_ok (fi_attrs f)) by (apply E1; eauto). destruct OK as (_ & FA & _).
    intros n. unfold lfield_label, shown_as. cbn [lf_attrs lf_name].
    rewrite (no_rename "label" label_argument); [|intros m A P; destruct A; try discriminate P; eauto|exact FA].
    destruct (lb_rename a) as [s|] eqn:L.
    + split.
      * intros <-. left. now apply R.
      * intros [I|[H _]]; [apply R in I; congruence|]. exfalso. apply (H s). now apply R.
    + split.
      * intros <-. right. split; [|reflexivity]. intros s I. apply R in I. discriminate.
      * intros [I|[_ ->]]; [apply R in I; discriminate|reflexivity].
Qed.

Lemma lfields_exact : forall fs,
  ((exists l, collect_all lfield_of fs = Some l) <-> Forall (fun f => label_attrs_ok (fi_attrs f)) fs) /\
  (forall l, collect_all lfield_of fs = Some l ->
     Forall2 (fun f r => lf_name r = fi_name f /\ label_attrs_mean (fi_attrs f) (lf_attrs r)) fs l /\
     forall names, Forall2 (shown_as "label") fs names <-> names = map lfield_label l).
Proof.
  induction fs as [|f fs [IH1 IH2]]; cbn [collect_all].
  - split; [split; [constructor|eauto]|]. intros l E. injection E as <-. split; [constructor|]. intros names. cbn. split.
    + intros F. now inversion F.
    + intros ->. constructor.
  - destruct (lfield_exact f) as [E1 E2]. split.
    + split.
      * intros [l H]. destruct (lfield_of f) as [r|]; [|discriminate]. destruct (collect_all lfield_of fs); [|discriminate].
        constructor; [apply E1; eauto|apply IH1; eauto].
      * intros F. inversion F; subst. apply E1 in H1. apply IH1 in H2. destruct H1 as [r ->], H2 as [l ->]. cbn. eauto.
    + intros l H. destruct (lfield_of f) as [r|]; [|discriminate]. destruct (collect_all lfield_of fs) as [l'|]; [|discriminate].
      cbn in H. injection H as <-. destruct (E2 r eq_refl) as (A & B & C). destruct (IH2 l' eq_refl) as (D & E). split.
      * constructor; auto.
      * intros names. cbn [map]. split.
        -- intros F. inversion F; subst. apply E in H3. subst. apply C in H1. now subst.
        -- intros ->. constructor; [now apply C|now apply E].
Qed.

Theorem label_group_exact : forall shouty ident_ok attrs d,
  ((exists l, derive_label_group shouty ident_ok attrs d = Some l) <->
   label_container_ok attrs /\ exists fs names, d = DataStruct fs /\
     Forall (fun f => label_attrs_ok (fi_attrs f)) fs /\
     Forall2 (shown_as "label") fs names /\ names_ok valid_label_name shouty ident_ok names) /\
  (forall l fs, derive_label_group shouty ident_ok attrs d = Some l -> d = DataStruct fs ->
     Forall2 (fun f r => lf_name r = fi_name f /\ label_attrs_mean (fi_attrs f) (lf_attrs r)) fs l /\
     Forall2 (shown_as "label") fs (map lfield_label l)).
Proof.
  intros sh io attrs d. unfold derive_label_group. pose proof (label_container_exact attrs) as LC.
  destruct (list_attrs "label" label_container_step attrs {| lc_crate := None; lc_set := None |}) as [a|].
  2:{ split; [|discriminate]. split; [intros [l H]; discriminate|]. intros [H _]. apply LC in H. destruct H as (a & H & _). discriminate. }
  destruct (lc_set a) as [s|] eqn:S.
  2:{ split; [|discriminate]. split; [intros [l H]; discriminate|]. intros [H _]. apply LC in H. destruct H as (a' & H & H'). congruence. }
  assert (CO : label_container_ok attrs) by (apply LC; exists a; split; [reflexivity|congruence]).
  destruct d as [vs|fs|];
    try (split; [|discriminate]; split; [intros [l H]; discriminate|intros (_ & fs & n & H & _); discriminate]).
  destruct (lfields_exact fs) as [L1 L2]. destruct (collect_all lfield_of fs) as [l|].
  2:{ split; [|discriminate]. split; [intros [l H]; discriminate|]. intros (_ & fs' & n & Q & H & _). injection Q as <-.
      apply L1 in H. destruct H. discriminate. }
  destruct (L2 l eq_refl) as [M N]. pose proof (label_consts_spec sh io (map lfield_label l)) as LCS.
  destruct (label_consts sh io (map lfield_label l)).
  - split.
    + split; [intros _|eauto]. split; [exact CO|]. exists fs, (map lfield_label l). split; [reflexivity|].
      split; [apply L1; eauto|]. split; [now apply N|now apply LCS].
    + intros l' fs' E Q. injection E as <-. injection Q as <-. split; [exact M|now apply N].
  - split; [|discriminate]. split; [intros [l' H]; discriminate|]. intros (_ & fs' & n & Q & _ & F & H). injection Q as <-.
    apply N in F. subst n. apply LCS in H. discriminate.
Qed.

Theorem derived_label_names : forall shouty ident_ok attrs d l,
  derive_label_group shouty ident_ok attrs d = Some l ->
  NoDup (map lfield_label l) /\ Forall valid_label_name (map lfield_label l).
Proof.
  intros sh io attrs d l. unfold derive_label_group.
  destruct (list_attrs _ _ _ _) as [a|]; [|discriminate]. destruct (lc_set a); [|discriminate].
  destruct d; try discriminate. destruct (collect_all lfield_of fs) as [l'|]; [|discriminate].
  destruct (label_consts sh io (map lfield_label l')) eqn:E; [|discriminate]. intros H. injection H as <-.
  apply label_consts_spec in E. destruct E as (V & _ & N). split; [eapply NoDup_map_inv'; exact N|exact V].
Qed.

Lemma mfield_exact : forall f,
  ((exists r, mfield_of f = Some r) <-> metric_attrs_ok (fi_attrs f)) /\
  (forall r, mfield_of f = Some r -> mg_name r = fi_name f /\ metric_attrs_mean (fi_attrs f) (mg_attrs r) /\
     (is_subgroup f = true <-> exists ns, mf_kind (mg_attrs r) = KGroup ns) /\
     (is_subgroup f = false -> exists rn, mf_kind (mg_attrs r) = KMetric rn /\
        forall n, metric_field_name (fi_name f) rn = n <-> shown_as "metric" f n)).
Proof.
  intros f. destruct (metric_attrs_exact (fi_attrs f)) as [E1 E2]. unfold mfield_of. split.
  - rewrite <- E1. destruct (metric_field_attrs (fi_attrs f)); cbn; split; intros [r H]; try discriminate; eauto.
  - intros r H. destruct (metric_field_attrs (fi_attrs f)) as [a|]; [|discriminate]. cbn in H. injection H as <-. cbn.
    specialize (E2 a eq_refl). split; [reflexivity|]. split; [exact E2|].
    destruct E2 as (R & NS & FL & _). assert (OK : metric_attrs_ok (fi_attrs f)) by (apply E1; eauto). destruct OK as (_ & _ & FA & _).
    assert (SG : is_subgroup f = true <-> exists ns, mf_kind a = KGroup ns).
    { unfold is_subgroup. rewrite negb_true_iff, Nat.eqb_neq. split.
      - intros Z. apply times_nonzero in Z. destruct Z as (m & I & X). pose proof FA as FA'. rewrite Forall_forall in FA'. pose proof (FA' m I) as A.
        destruct A; try discriminate X; [exists (Some s); now apply NS|exists None; now apply FL].
      - intros (ns & K) Z. destruct ns as [s|].
        + apply NS in K. apply (times_zero _ _ _ Z) in K. discriminate.
        + apply FL in K. apply (times_zero _ _ _ Z) in K. discriminate. }
    split; [exact SG|]. intros SF. destruct (mf_kind a) as [rn|ns] eqn:K.
    + exists rn. split; [reflexivity|]. intros n. unfold metric_field_name, shown_as.
      rewrite (no_rename "metric" metric_argument); [|intros m A P; destruct A; try discriminate P; eauto|exact FA].
      destruct rn as [s|].
      * split.
        -- intros <-. left. now apply R.
        -- intros [I|[H _]]; [apply R in I; congruence|]. exfalso. apply (H s). now apply R.
      * split.
        -- intros <-. right. split; [|reflexivity]. intros s I. apply R in I. discriminate.
        -- intros [I|[_ ->]]; [apply R in I; discriminate|reflexivity].
    + assert (is_subgroup f = true) by (apply SG; eauto). congruence.
Qed.

Lemma mfields_exact : forall fs,
  ((exists l, collect_all mfield_of fs = Some l) <-> Forall (fun f => metric_attrs_ok (fi_attrs f)) fs) /\
  (forall l, collect_all mfield_of fs = Some l ->
     Forall2 (fun f r => mg_name r = fi_name f /\ metric_attrs_mean (fi_attrs f) (mg_attrs r)) fs l /\
     forall names, Forall2 (shown_as "metric") (filter (fun f => negb (is_subgroup f)) fs) names <-> names = mfield_names l).
Proof.
  induction fs as [|f fs [IH1 IH2]]; cbn [collect_all].
  - split; [split; [constructor|eauto]|]. intros l E. injection E as <-. split; [constructor|]. intros names. cbn. split.
    + intros F. now inversion F.
    + intros ->. constructor.
  - destruct (mfield_exact f) as [E1 E2]. split.
    + split.
      * intros [l H]. destruct (mfield_of f) as [r|]; [|discriminate]. destruct (collect_all mfield_of fs); [|discriminate].
        constructor; [apply E1; eauto|apply IH1; eauto].
      * intros F. inversion F; subst. apply E1 in H1. apply IH1 in H2. destruct H1 as [r ->], H2 as [l ->]. cbn. eauto.
    + intros l H. destruct (mfield_of f) as [r|]; [|discriminate]. destruct (collect_all mfield_of fs) as [l'|]; [|discriminate].
      cbn in H. injection H as <-. destruct (E2 r eq_refl) as (A & B & C & C'). destruct (IH2 l' eq_refl) as (D & E). split.
      * constructor; auto.
      * intros names. cbn [filter mfield_names]. destruct (is_subgroup f); cbn [negb].
        -- destruct (proj1 C eq_refl) as (ns & K). rewrite K. apply E.
        -- destruct (C' eq_refl) as (rn & K & Q). rewrite K, A. split.
           ++ intros F. inversion F as [|? y ? ys H1 H3]; subst. apply E in H3. subst. apply Q in H1. now subst.
           ++ intros ->. constructor; [now apply Q|now apply E].
Qed.

Theorem metric_group_exact : forall shouty ident_ok attrs d,
  ((exists r, derive_metric_group shouty ident_ok attrs d = Some r) <->
   metric_container_ok attrs /\ exists fs names, d = DataStruct fs /\
     Forall (fun f => metric_attrs_ok (fi_attrs f)) fs /\
     Forall2 (shown_as "metric") (filter (fun f => negb (is_subgroup f)) fs) names /\
     names_ok valid_metric_name shouty ident_ok names) /\
  (forall l new fs, derive_metric_group shouty ident_ok attrs d = Some (l, new) -> d = DataStruct fs ->
     Forall2 (fun f r => mg_name r = fi_name f /\ metric_attrs_mean (fi_attrs f) (mg_attrs r)) fs l /\
     Forall2 (shown_as "metric") (filter (fun f => negb (is_subgroup f)) fs) (mfield_names l) /\
     forall args, new = Some args <-> In {| mt_path := str "new"; mt_arg := MParen args |} (arguments "metric" attrs)).
Proof.
  intros sh io attrs d. unfold derive_metric_group. destruct (metric_container_exact attrs) as [MC MN].
  destruct (list_attrs "metric" metric_container_step attrs {| mc_crate := None; mc_new := None |}) as [a|].
  2:{ split; [|discriminate]. split; [intros [l H]; discriminate|]. intros [H _]. apply MC in H. destruct H as (a & H). discriminate. }
  assert (CO : metric_container_ok attrs) by (apply MC; eauto).
  destruct d as [vs|fs|];
    try (split; [|discriminate]; split; [intros [l H]; discriminate|intros (_ & fs & n & H & _); discriminate]).
  destruct (mfields_exact fs) as [L1 L2]. destruct (collect_all mfield_of fs) as [l|].
  2:{ split; [|discriminate]. split; [intros [l H]; discriminate|]. intros (_ & fs' & n & Q & H & _). injection Q as <-.
      apply L1 in H. destruct H. discriminate. }
  destruct (L2 l eq_refl) as [M N]. pose proof (metric_consts_spec sh io (mfield_names l)) as LCS.
  destruct (metric_consts sh io (mfield_names l)).
  - split.
    + split; [intros _|eauto]. split; [exact CO|]. exists fs, (mfield_names l). split; [reflexivity|].
      split; [apply L1; eauto|]. split; [now apply N|now apply LCS].
    + intros l' new fs' E Q. injection E as <- <-. injection Q as <-. split; [exact M|]. split; [now apply N|].
      intros args. now apply MN.
  - split; [|discriminate]. split; [intros [l' H]; discriminate|]. intros (_ & fs' & n & Q & _ & F & H). injection Q as <-.
    apply N in F. subst n. apply LCS in H. discriminate.
Qed.

Theorem derived_metric_names : forall shouty ident_ok attrs d l new,
  derive_metric_group shouty ident_ok attrs d = Some (l, new) ->
  NoDup (mfield_names l) /\ Forall valid_metric_name (mfield_names l).
Proof.
  intros sh io attrs d l new. unfold derive_metric_group.
  destruct (list_attrs _ _ _ _) as [a|]; [|discriminate].
  destruct d; try discriminate. destruct (collect_all mfield_of fs) as [l'|]; [|discriminate].
  destruct (metric_consts sh io (mfield_names l')) eqn:E; [|discriminate]. intros H. injection H as <- <-.
  apply metric_consts_spec in E. destruct E as (V & _ & N). split; [eapply NoDup_map_inv'; exact N|exact V].
Qed.
