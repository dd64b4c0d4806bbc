(** Proofs about attribute parsing (C57). *)
From Coq Require Import String List NArith ZArith Bool Lia.
From Verif Require Import Base BaseFacts NameModel NameSpec NameProofs LabelModel LabelSpec EncoderModel
  DeriveModel DeriveSpec.
Import ListNotations.

Definition ol {A} (o : option A) : list A := match o with Some x => [x] | None => [] end.

Lemma is_spec : forall n p, is n p = true <-> p = str n.
Proof. intros. unfold is. apply beqb_spec. Qed.

Lemma put_once_ol : forall {A} (s : option A) x s',
  put_once s (Some x) = Some s' <-> ol s' = ol s ++ [x].
Proof.
  intros A s x s'. destruct s as [y|]; cbn [put_once ol app].
  - split; [discriminate|]. destruct s' as [z|]; cbn; discriminate.
  - split.
    + intros E. injection E as <-. reflexivity.
    + destruct s' as [z|]; cbn; intros E; [injection E as ->; reflexivity|discriminate].
Qed.

Lemma ol_inj : forall {A} (a b : option A), ol a = ol b -> a = b.
Proof. intros A [x|] [y|]; cbn; congruence. Qed.

Lemma collect_all_Forall2 : forall {A B} (f : A -> option B) l r,
  collect_all f l = Some r <-> Forall2 (fun x y => f x = Some y) l r.
Proof.
  intros A B f. induction l as [|x l IH]; intros r; cbn [collect_all].
  - split; [intros E; injection E as <-; constructor|intros F; inversion F; reflexivity].
  - destruct (f x) as [y|] eqn:E.
    + destruct (collect_all f l) as [ys|]; cbn [option_map].
      * split.
        -- intros H. injection H as <-. constructor; [exact E|]. now apply IH.
        -- intros F. inversion F as [|? y' ? r' E' F']; subst. rewrite E in E'. injection E' as <-.
           apply IH in F'. congruence.
      * split; [discriminate|]. intros F. inversion F; subst. apply IH in H3. discriminate.
    + split; [discriminate|]. intros F. inversion F; subst. congruence.
Qed.

Lemma collect_all_None : forall {A B} (f : A -> option B) l,
  collect_all f l = None <-> exists x, In x l /\ f x = None.
Proof.
  intros A B f. induction l as [|x l IH]; cbn [collect_all].
  - split; [discriminate|intros (x & [] & _)].
  - destruct (f x) as [y|] eqn:E.
    + destruct (collect_all f l) eqn:C; cbn [option_map].
      * split; [discriminate|]. intros (z & [<-|I] & Z); [congruence|].
        assert (Some l0 = None) by (apply IH; eauto). discriminate.
      * split; [|reflexivity]. intros _. destruct (proj1 IH eq_refl) as (z & I & Z). exists z. split; [now right|exact Z].
    + split; [|reflexivity]. intros _. exists x. split; [now left|exact E].
Qed.

(** ** Attributes as one list of arguments *)

Lemma nested_app : forall {A} (step : meta -> A -> option A) l1 l2 a,
  nested step (l1 ++ l2) a = match nested step l1 a with None => None | Some a' => nested step l2 a' end.
Proof.
  induction l1 as [|m l1 IH]; intros l2 a; cbn [app nested]; [reflexivity|].
  destruct (step m a); [apply IH|reflexivity].
Qed.

Lemma list_only_cons : forall key x l,
  list_only key (x :: l) <->
  (at_path x = str key -> exists ms t, at_body x = AList ms t) /\ list_only key l.
Proof.
  intros. unfold list_only. split.
  - intros H. split; [intros E; apply H; [now left|exact E]|]. intros a I. apply H. now right.
  - intros [H1 H2] a [<-|I]; auto.
Qed.

Lemma list_attrs_nested : forall {A} key (step : meta -> A -> option A) l a r,
  list_attrs key step l a = Some r <-> list_only key l /\ nested step (arguments key l) a = Some r.
Proof.
  intros A key step. induction l as [|x l IH]; intros a r; cbn [list_attrs arguments].
  - split; [intros E; split; [intros ? []|exact E]|intros [_ E]; exact E].
  - rewrite list_only_cons. change (is key (at_path x)) with (beqb (at_path x) (str key)).
    destruct (beqb (at_path x) (str key)) eqn:B.
    + apply beqb_spec in B. destruct (at_body x) as [|ms t|v] eqn:Bd.
      * split; [discriminate|]. intros [[H _] _]. destruct (H B) as (ms & t & E). discriminate.
      * rewrite nested_app. destruct (nested step ms a) as [a'|].
        -- rewrite IH. split.
           ++ intros [H1 H2]. split; [split; [eauto|exact H1]|exact H2].
           ++ intros [[_ H1] H2]. auto.
        -- split; [discriminate|]. intros [_ E]. discriminate.
      * split; [discriminate|]. intros [[H _] _]. destruct (H B) as (ms & t & E). discriminate.
    + cbn [app]. rewrite IH. apply beqb_neq in B. split.
      * intros [H1 H2]. split; [split; [intros E; contradiction|exact H1]|exact H2].
      * intros [[_ H1] H2]. auto.
Qed.

(** ** Label group fields *)

Inductive litem := IK (k : lkind) | ID | IR (s : bytes).
Definition label_item (m : meta) : option litem :=
  if is "fixed" (mt_path m) then option_map (fun _ => IK LFixed) (flag m)
  else if is "fixed_with" (mt_path m) then option_map (fun p => IK (LFixedWith p)) (value_of as_path m)
  else if is "dynamic_with" (mt_path m) then option_map (fun p => IK (LDynamicWith p)) (value_of as_path m)
  else if is "default" (mt_path m) then option_map (fun _ => ID) (flag m)
  else if is "rename" (mt_path m) then option_map IR (value_of as_str m)
  else None.

Definition l_kind (i : litem) : list lkind := match i with IK k => [k] | _ => [] end.
Definition l_default (i : litem) : list unit := match i with ID => [tt] | _ => [] end.
Definition l_rename (i : litem) : list bytes := match i with IR s => [s] | _ => [] end.

Definition label_slots (a : label_args) (is : list litem) (a' : label_args) : Prop :=
  ol (la_kind a') = ol (la_kind a) ++ flat_map l_kind is /\
  ol (la_default a') = ol (la_default a) ++ flat_map l_default is /\
  ol (la_rename a') = ol (la_rename a) ++ flat_map l_rename is.

Lemma label_step_item : forall m a a', label_step m a = Some a' <->
  exists i, label_item m = Some i /\ label_slots a [i] a'.
Proof.
  intros m [k d r] [k' d' r']. unfold label_step, label_item, label_slots. cbn [la_kind la_default la_rename].
  assert (P : forall {A} (s : option A) (v : option A) (f : option A -> label_args) (g : A -> litem) (y : option A),
    (forall o, f o = {| la_kind := k'; la_default := d'; la_rename := r' |} <-> o = y /\ f y = {| la_kind := k'; la_default := d'; la_rename := r' |}) ->
    (option_map f (put_once s v) = Some {| la_kind := k'; la_default := d'; la_rename := r' |} <->
     exists i, option_map g v = Some i /\ exists x, i = g x /\ v = Some x /\ ol y = ol s ++ [x] /\
       f y = {| la_kind := k'; la_default := d'; la_rename := r' |})).
  { intros A s v f g y F. destruct v as [x|]; cbn [option_map].
    - split.
      + destruct (put_once s (Some x)) as [s'|] eqn:E; cbn [option_map]; [|discriminate].
        intros H. injection H as H. apply F in H. destruct H as [-> H]. apply put_once_ol in E.
        exists (g x). split; [reflexivity|]. exists x. auto.
      + intros (i & E & x' & -> & E' & O & H). injection E' as <-. apply put_once_ol in O. rewrite O. cbn [option_map].
        now rewrite H.
    - split; [destruct s; discriminate|]. intros (i & E & _). discriminate. }
  repeat match goal with |- context [if is ?n (mt_path m) then _ else _] => destruct (is n (mt_path m)) end.
  - rewrite (P _ k _ _ (fun x => IK x) k').
    2: { intros o. split; [intros E; injection E as -> -> ->; auto|intros [-> E]; exact E]. }
    split.
    + intros (i & E & x & -> & V & O & F). destruct (flag m); [|discriminate]. injection F as -> ->.
      exists (IK LFixed). cbn in *. injection V as <-. rewrite !app_nil_r. auto.
    + intros (i & E & S1 & S2 & S3). destruct (flag m); [|discriminate]. cbn in E. injection E as <-.
      cbn in S1, S2, S3. rewrite !app_nil_r in *. apply ol_inj in S2, S3. subst.
      exists (IK LFixed). split; [reflexivity|]. exists LFixed. auto.
  - rewrite (P _ k _ _ (fun x => IK x) k').
    2: { intros o. split; [intros E; injection E as -> -> ->; auto|intros [-> E]; exact E]. }
    destruct (value_of as_path m) as [p|]; cbn [option_map].
    + split.
      * intros (i & E & x & -> & V & O & F). injection F as -> ->.
        exists (IK (LFixedWith p)). cbn in *. injection V as <-. rewrite !app_nil_r. auto.
      * intros (i & E & S1 & S2 & S3). injection E as <-.
        cbn in S1, S2, S3. rewrite !app_nil_r in *. apply ol_inj in S2, S3. subst.
        exists (IK (LFixedWith p)). split; [reflexivity|]. exists (LFixedWith p). auto.
    + split; intros (i & E & _); discriminate.
  - rewrite (P _ k _ _ (fun x => IK x) k').
    2: { intros o. split; [intros E; injection E as -> -> ->; auto|intros [-> E]; exact E]. }
    destruct (value_of as_path m) as [p|]; cbn [option_map].
    + split.
      * intros (i & E & x & -> & V & O & F). injection F as -> ->.
        exists (IK (LDynamicWith p)). cbn in *. injection V as <-. rewrite !app_nil_r. auto.
      * intros (i & E & S1 & S2 & S3). injection E as <-.
        cbn in S1, S2, S3. rewrite !app_nil_r in *. apply ol_inj in S2, S3. subst.
        exists (IK (LDynamicWith p)). split; [reflexivity|]. exists (LDynamicWith p). auto.
    + split; intros (i & E & _); discriminate.
  - rewrite (P _ d _ _ (fun x => ID) d').
    2: { intros o. split; [intros E; injection E as -> -> ->; auto|intros [-> E]; exact E]. }
    destruct (flag m) as [[]|]; cbn [option_map].
    + split.
      * intros (i & E & [] & -> & V & O & F). injection F as -> ->.
        exists ID. cbn in *. rewrite !app_nil_r. auto.
      * intros (i & E & S1 & S2 & S3). injection E as <-.
        cbn in S1, S2, S3. rewrite !app_nil_r in *. apply ol_inj in S1, S3. subst.
        exists ID. split; [reflexivity|]. exists tt. auto.
    + split; intros (i & E & _); discriminate.
  - rewrite (P _ r _ _ (fun x => IR x) r').
    2: { intros o. split; [intros E; injection E as -> -> ->; auto|intros [-> E]; exact E]. }
    destruct (value_of as_str m) as [p|]; cbn [option_map].
    + split.
      * intros (i & E & x & -> & V & O & F). injection F as -> ->.
        exists (IR p). cbn in *. injection V as <-. rewrite !app_nil_r. auto.
      * intros (i & E & S1 & S2 & S3). injection E as <-.
        cbn in S1, S2, S3. rewrite !app_nil_r in *. apply ol_inj in S1, S2. subst.
        exists (IR p). split; [reflexivity|]. exists p. auto.
    + split; intros (i & E & _); discriminate.
  - split; [discriminate|]. intros (i & E & _). discriminate.
Qed.

(** A list of slots each filled at most once. *)
Lemma ol_app_mid : forall {A} (a c : option A) (x y : list A), ol c = ol a ++ x ++ y ->
  exists b : option A, ol b = ol a ++ x /\ ol c = ol b ++ y.
Proof.
  intros A a c x y E. rewrite app_assoc in E. destruct (ol a ++ x) as [|z [|z' l]] eqn:X.
  - exists None. auto.
  - exists (Some z). auto.
  - destruct c; discriminate.
Qed.

Lemma nested_label : forall ms a a', nested label_step ms a = Some a' <->
  exists is, collect_all label_item ms = Some is /\ label_slots a is a'.
Proof.
  induction ms as [|m ms IH]; intros a a'; cbn [nested collect_all].
  - split.
    + intros E. injection E as <-. exists []. split; [reflexivity|]. unfold label_slots. cbn. rewrite !app_nil_r. auto.
    + intros (is & E & S1 & S2 & S3). injection E as <-. cbn in *. rewrite !app_nil_r in *.
      apply ol_inj in S1, S2, S3. destruct a, a'. cbn in *. now subst.
  - split.
    + destruct (label_step m a) as [b|] eqn:B; [|discriminate]. intros E. apply IH in E. destruct E as (is & C & S1 & S2 & S3).
      apply label_step_item in B. destruct B as (i & I & T1 & T2 & T3).
      rewrite I, C. exists (i :: is). split; [reflexivity|]. unfold label_slots.
      cbn [flat_map] in *. rewrite app_nil_r in *. rewrite S1, S2, S3, T1, T2, T3, <- !app_assoc. auto.
    + intros (is & C & S1 & S2 & S3). destruct (label_item m) as [i|] eqn:I; [|discriminate].
      destruct (collect_all label_item ms) as [is'|] eqn:C'; [|discriminate]. cbn in C. injection C as <-.
      cbn [flat_map] in *.
      destruct (ol_app_mid _ _ _ _ S1) as (b1 & A1 & B1), (ol_app_mid _ _ _ _ S2) as (b2 & A2 & B2),
        (ol_app_mid _ _ _ _ S3) as (b3 & A3 & B3).
      assert (E : label_step m a = Some {| la_kind := b1; la_default := b2; la_rename := b3 |}).
      { apply label_step_item. exists i. split; [exact I|]. unfold label_slots. cbn [flat_map la_kind la_default la_rename].
        rewrite !app_nil_r. auto. }
      rewrite E. apply IH. exists is'. split; [reflexivity|]. unfold label_slots. auto.
Qed.

(** Which argument an element is. *)
Lemma label_item_form : forall m i, label_item m = Some i ->
  (m = plain "fixed" /\ i = IK LFixed) \/
  (exists p, (m = equals "fixed_with" (TIdent p) \/ m = equals "fixed_with" (TPath p)) /\ i = IK (LFixedWith p)) \/
  (exists p, (m = equals "dynamic_with" (TIdent p) \/ m = equals "dynamic_with" (TPath p)) /\ i = IK (LDynamicWith p)) \/
  (m = plain "default" /\ i = ID) \/
  (exists s, m = equals "rename" (TStr s) /\ i = IR s).
Proof.
  intros [p a] i. unfold label_item. cbn [mt_path]. intros E.
  repeat match type of E with context [if is ?n p then _ else _] =>
    let H := fresh in destruct (is n p) eqn:H; [apply is_spec in H; subst p|clear H] end; try discriminate;
    destruct a as [|v|args]; cbn in E; try discriminate; try (destruct v; cbn in E; try discriminate);
    injection E as <-; unfold plain, equals; eauto 10.
Qed.

Lemma label_item_ok : forall m, label_argument m <-> exists i, label_item m = Some i.
Proof.
  intros m. split.
  - intros []; eexists; reflexivity.
  - intros [i E]. apply label_item_form in E.
    destruct E as [[-> _]|[(p & [->| ->] & _)|[(p & [->| ->] & _)|[[-> _]|(s & -> & _)]]]]; constructor.
Qed.

Lemma times_nil : forall ns, times ns [] = 0.
Proof. reflexivity. Qed.
Lemma times_cons : forall ns m ms,
  times ns (m :: ms) = (if existsb (fun n => beqb (mt_path m) (str n)) ns then 1 else 0) + times ns ms.
Proof. intros. unfold times. cbn [filter]. destruct (existsb _ ns); reflexivity. Qed.

Lemma label_items_times : forall ms is, Forall2 (fun m i => label_item m = Some i) ms is ->
  length (flat_map l_kind is) = times ["fixed"; "fixed_with"; "dynamic_with"]%string ms /\
  length (flat_map l_default is) = times ["default"]%string ms /\
  length (flat_map l_rename is) = times ["rename"]%string ms.
Proof.
  induction 1 as [|m i ms is E F (H1 & H2 & H3)]; [auto|].
  cbn [flat_map]. rewrite !app_length, H1, H2, H3, !times_cons. apply label_item_form in E.
  destruct E as [[-> ->]|[(p & [->| ->] & ->)|[(p & [->| ->] & ->)|[[-> ->]|(s & -> & ->)]]]]; cbn; auto.
Qed.

Lemma items_in : forall {A B C} (f : A -> option B) (g : B -> list C) ms is, Forall2 (fun m i => f m = Some i) ms is ->
  forall x, In x (flat_map g is) <-> exists m i, In m ms /\ f m = Some i /\ In x (g i).
Proof.
  induction 1 as [|m i ms is E F IH]; intros x; cbn [flat_map].
  - split; [intros []|intros (m & i & [] & _)].
  - rewrite in_app_iff, IH. split.
    + intros [H|(m' & i' & I & H)]; [exists m, i; split; [now left|auto]|exists m', i'; split; [now right|auto]].
    + intros (m' & i' & [<-|I] & E' & H); [left; congruence|right; eauto].
Qed.

Lemma ol_in : forall {A} (o : option A) x, In x (ol o) <-> o = Some x.
Proof.
  intros A [y|] x; cbn; split; try tauto; try discriminate.
  - intros [->|[]]. reflexivity.
  - intros E. injection E as ->. auto.
Qed.

Lemma label_in_kind : forall ms is, Forall2 (fun m i => label_item m = Some i) ms is -> forall k,
  In k (flat_map l_kind is) <->
  match k with
  | LFixed => In (plain "fixed") ms
  | LFixedWith p => given_path "fixed_with" p ms
  | LDynamicWith p => given_path "dynamic_with" p ms
  end.
Proof.
  intros ms is F k. rewrite (items_in _ _ _ _ F). unfold given_path. split.
  - intros (m & i & I & E & H). apply label_item_form in E.
    destruct E as [[-> ->]|[(p & [->| ->] & ->)|[(p & [->| ->] & ->)|[[-> ->]|(s & -> & ->)]]]];
      cbn in H; try tauto; destruct H as [<-|[]]; auto.
  - destruct k as [|p|p]; [intros I|intros [I|I]|intros [I|I]]; eexists; eexists;
      (split; [exact I|split; [reflexivity|left; reflexivity]]).
Qed.

Lemma label_in_default : forall ms is, Forall2 (fun m i => label_item m = Some i) ms is ->
  In tt (flat_map l_default is) <-> In (plain "default") ms.
Proof.
  intros ms is F. rewrite (items_in _ _ _ _ F). split.
  - intros (m & i & I & E & H). apply label_item_form in E.
    destruct E as [[-> ->]|[(p & [->| ->] & ->)|[(p & [->| ->] & ->)|[[-> ->]|(s & -> & ->)]]]];
      cbn in H; tauto.
  - intros I; eexists; eexists; (split; [exact I|split; [reflexivity|left; reflexivity]]).
Qed.

Lemma label_in_rename : forall ms is, Forall2 (fun m i => label_item m = Some i) ms is -> forall s,
  In s (flat_map l_rename is) <-> In (equals "rename" (TStr s)) ms.
Proof.
  intros ms is F s. rewrite (items_in _ _ _ _ F). split.
  - intros (m & i & I & E & H). apply label_item_form in E.
    destruct E as [[-> ->]|[(p & [->| ->] & ->)|[(p & [->| ->] & ->)|[[-> ->]|(s' & -> & ->)]]]];
      cbn in H; try tauto; destruct H as [<-|[]]; auto.
  - intros I; eexists; eexists; (split; [exact I|split; [reflexivity|left; reflexivity]]).
Qed.

Lemma short_ol : forall {A} (l : list A), length l <= 1 -> exists o : option A, ol o = l.
Proof.
  intros A [|x [|y l]] H; cbn in H; [exists None|exists (Some x)|lia]; reflexivity.
Qed.

Theorem label_attrs_exact : forall l,
  ((exists r, label_field_attrs l = Some r) <-> label_attrs_ok l) /\
  (forall r, label_field_attrs l = Some r -> label_attrs_mean l r).
Proof.
  intros l.
  set (a0 := {| la_kind := None; la_default := None; la_rename := None |}).
  assert (M : forall r, label_field_attrs l = Some r <-> exists a, list_attrs "label" label_step l a0 = Some a /\
     r = {| lb_kind := match la_kind a with Some k => k | None => LFixed end;
            lb_default := (match la_default a with Some _ => true | None => false end)
               || match (match la_kind a with Some k => k | None => LFixed end) with LFixed => true | _ => false end;
            lb_rename := la_rename a |}).
  { intros r. unfold label_field_attrs. fold a0. destruct (list_attrs "label" label_step l a0) as [a|].
    - split; [intros E; injection E as <-; eauto|intros (a' & E & ->); injection E as <-; reflexivity].
    - split; [discriminate|intros (a' & E & _); discriminate]. }
  split.
  - split.
    + intros [r R]. apply M in R. destruct R as (a & E & _). apply list_attrs_nested in E. destruct E as [LO E].
      apply nested_label in E. destruct E as (is & C & S1 & S2 & S3). apply collect_all_Forall2 in C.
      destruct (label_items_times _ _ C) as (T1 & T2 & T3).
      unfold label_attrs_ok. rewrite <- T1, <- T2, <- T3. cbn [a0 la_kind la_default la_rename ol app] in *.
      split; [exact LO|]. split.
      * apply Forall_forall. intros m I. apply label_item_ok.
        clear - C I. induction C as [|m' i ms is E F IH]; [destruct I|destruct I as [<-|I]; eauto].
      * rewrite <- S1, <- S2, <- S3. destruct (la_kind a), (la_default a), (la_rename a); cbn; auto.
    + intros (LO & FA & T1 & T2 & T3).
      assert (C : exists is, collect_all label_item (arguments "label" l) = Some is).
      { destruct (collect_all label_item (arguments "label" l)) as [is|] eqn:C; [eauto|].
        apply collect_all_None in C. destruct C as (m & I & E). rewrite Forall_forall in FA.
        apply FA, label_item_ok in I. destruct I as [i I]. congruence. }
      destruct C as [is C]. pose proof C as C'. apply collect_all_Forall2 in C'.
      destruct (label_items_times _ _ C') as (U1 & U2 & U3).
      destruct (short_ol (flat_map l_kind is)) as [k K]; [lia|].
      destruct (short_ol (flat_map l_default is)) as [d D]; [lia|].
      destruct (short_ol (flat_map l_rename is)) as [rn R]; [lia|].
      eexists. apply M. exists {| la_kind := k; la_default := d; la_rename := rn |}. split; [|reflexivity].
      apply list_attrs_nested. split; [exact LO|]. apply nested_label. exists is. split; [exact C|].
      unfold label_slots. auto.
  - intros r R. apply M in R. destruct R as (a & E & ->). apply list_attrs_nested in E. destruct E as [LO E].
    apply nested_label in E. destruct E as (is & C & S1 & S2 & S3). apply collect_all_Forall2 in C.
    cbn [a0 la_kind la_default la_rename ol app] in *.
    unfold label_attrs_mean. cbn [lb_kind lb_default lb_rename].
    pose proof (label_in_kind _ _ C) as IK'. pose proof (label_in_default _ _ C) as ID'.
    pose proof (label_in_rename _ _ C) as IR'.
    rewrite <- S1 in IK'. rewrite <- S2 in ID'. rewrite <- S3 in IR'.
    assert (K : forall k, k <> LFixed -> (match la_kind a with Some k => k | None => LFixed end) = k <-> In k (ol (la_kind a))).
    { intros k NE. rewrite ol_in. destruct (la_kind a) as [k'|]; split; congruence. }
    split; [|split; [|split]].
    + intros p. rewrite K by discriminate. apply (IK' (LFixedWith p)).
    + intros p. rewrite K by discriminate. apply (IK' (LDynamicWith p)).
    + rewrite orb_true_iff, <- ID'. destruct (la_default a) as [[]|]; cbn [ol In].
      * split; auto.
      * destruct (match la_kind a with Some k => k | None => LFixed end); split; intros [H|H]; auto; try discriminate.
        all: try (destruct H; fail); try tauto; discriminate.
    + intros s. rewrite <- (IR' s). symmetry. apply ol_in.
Qed.
