(** Proofs about derived label groups. *)
From Coq Require Import List NArith ZArith Bool Lia ZifyBool ZifyN ZifyNat Permutation.
From Verif Require Import Base BaseFacts LabelModel LabelSpec LabelProofs.
Import ListNotations.
Local Open Scope N_scope.

(* ------------------------------------------------------------------ *)
(** ** Cardinality *)

Lemma prod_app : forall a b, prod (a ++ b) = prod a * prod b.
Proof. induction a as [|f a IH]; intros b; cbn [prod app]; [lia|]. rewrite IH. lia. Qed.

Lemma prod_rev : forall l, prod (rev l) = prod l.
Proof. induction l as [|f l IH]; cbn [prod rev]; [easy|]. rewrite prod_app, IH. cbn [prod]. lia. Qed.

Lemma combinations_prod : forall s, combinations s = prod (fixed s).
Proof.
  intros s. rewrite fixed_spec, prod_rev. induction s as [|f s IH]; simpl; [easy|].
  unfold is_fixed. destruct (is_dynamic (f_set f)) eqn:E; simpl; [easy|].
  rewrite IH. unfold size. now rewrite nlen_length.
Qed.

Lemma fold_None : forall fs,
  fold_left (fun acc f => match acc with Some x => checked_mul x (field_card f) | None => None end)
    fs None = None.
Proof. induction fs; simpl; auto. Qed.

Lemma fold_checked : forall fs mul c,
  Forall (fun f => is_dynamic (f_set f) = false) fs -> mul < W64 ->
  fold_left (fun acc f => match acc with Some x => checked_mul x (field_card f) | None => None end)
    fs (Some mul) = Some c <-> prefix_fit mul fs /\ c = mul * prod fs.
Proof.
  induction fs as [|f fs IH]; intros mul c F Hm; cbn [fold_left prefix_fit prod].
  - split; [intros H; injection H as <-; split; [easy|lia] | intros [_ ->]; f_equal; lia].
  - inversion F; subst. unfold checked_mul at 2. rewrite field_card_size by easy.
    destruct (N.ltb_spec (mul * size f) W64).
    + rewrite IH by easy. split; intros [P Q]; repeat split; try tauto; lia.
    + rewrite fold_None. split; [easy|]. intros [[_ P] _]. apply prefix_fit_lt in P. lia.
Qed.

Lemma dynamics_nil : forall s, dynamics s = [] <-> no_dynamic s.
Proof.
  intros s. rewrite dynamics_spec. unfold no_dynamic. induction s as [|f s IH]; simpl.
  - split; auto.
  - unfold is_dyn at 1. destruct (is_dynamic (f_set f)) eqn:E; split; intros H.
    + easy.
    + inversion H; congruence.
    + constructor; [easy|]. now apply IH.
    + inversion H; subst. now apply IH.
Qed.

Lemma group_cardinality_Some : forall s c,
  group_cardinality s = Some c <-> no_dynamic s /\ prefix_fit 1 (fixed s) /\ c = combinations s.
Proof.
  intros s c. unfold group_cardinality. rewrite <- dynamics_nil, combinations_prod.
  destruct (dynamics s) as [|d ds].
  - rewrite fold_checked; [|apply fixed_Forall|easy]. rewrite N.mul_1_l. tauto.
  - split; [easy|]. now intros [? _].
Qed.

Definition group_ok (s : group_set) : Prop := wf_group_set s /\ prefix_fit 1 (fixed s).

Lemma fits_prefix : forall s, 0 < combinations s -> combinations s < W64 -> prefix_fit 1 (fixed s).
Proof. intros s H1 H2. rewrite combinations_prod in *. apply prod_prefix_fit; lia. Qed.

Lemma wf_fixed : forall s, wf_group_set s ->
  Forall (fun f => is_dynamic (f_set f) = false /\ NoDup (elements (f_set f))) (fixed s).
Proof.
  intros s [_ W]. apply Forall_forall. intros f Hf. apply In_fixed in Hf as [Hf1 Hf2].
  split; [easy|]. rewrite Forall_forall in W. now apply W.
Qed.

(* ------------------------------------------------------------------ *)
(** ** Digits of a group *)

Definition all_fields (s : group_set) : list field := fixed s ++ dynamics s.

Lemma In_all_fields : forall s f, In f (all_fields s) <-> In f s.
Proof.
  intros. unfold all_fields. rewrite in_app_iff, In_fixed, In_dynamics.
  destruct (is_dynamic (f_set f)); tauto.
Qed.

Lemma NoDup_all_fields : forall s, NoDup (map f_name s) -> NoDup (map f_name (all_fields s)).
Proof.
  intros s ND. unfold all_fields. rewrite fixed_spec, dynamics_spec, map_app, map_rev.
  assert (P : Permutation (rev (map f_name (filter is_fixed s)) ++ map f_name (filter is_dyn s))
                          (map f_name s)).
  { rewrite <- Permutation_rev. rewrite <- map_app. apply Permutation_map.
    clear ND. induction s as [|f s IH]; simpl; [constructor|].
    assert (is_fixed f = negb (is_dyn f)) as -> by easy. destruct (is_dyn f); simpl.
    - etransitivity; [symmetry; apply Permutation_middle|]. now constructor.
    - now constructor. }
  eapply Permutation_NoDup; [symmetry; exact P|exact ND].
Qed.

Lemma NoDup_fixed : forall s, NoDup (map f_name s) -> NoDup (map f_name (fixed s)).
Proof.
  intros s ND. apply NoDup_all_fields in ND. unfold all_fields in ND. rewrite map_app in ND.
  revert ND. generalize (map f_name (dynamics s)). induction (map f_name (fixed s)); intros l0 ND; [constructor|].
  simpl in ND. inversion ND; subst. constructor; [|eauto]. intro; apply H1, in_or_app; auto.
Qed.

Lemma NoDup_dynamics : forall s, NoDup (map f_name s) -> NoDup (map f_name (dynamics s)).
Proof. intros s ND. rewrite dynamics_spec. now apply NoDup_map_filter. Qed.

Lemma digits_app : forall g a b da db, digits g a da -> digits g b db -> digits g (a ++ b) (da ++ db).
Proof. induction 1; simpl; intros; [easy|]. constructor; auto. Qed.

Lemma digits_app_inv : forall g a b ds, digits g (a ++ b) ds ->
  exists da db, ds = da ++ db /\ digits g a da /\ digits g b db.
Proof.
  induction a as [|f a IH]; simpl; intros b ds H.
  - exists [], ds. repeat split; [constructor|easy].
  - inversion H; subst. destruct (IH _ _ H4) as (da & db & -> & ? & ?).
    exists (d :: da), db. repeat split; [constructor|]; auto.
Qed.

Lemma digits_ext : forall g g' fs ds, (forall f, In f fs -> get_field g f = get_field g' f) ->
  digits g fs ds -> digits g' fs ds.
Proof.
  intros g g' fs ds E H. induction H as [|f fs d ds Hd _ IH]; constructor.
  - rewrite <- E; [easy|now left].
  - apply IH. intros; apply E; now right.
Qed.

Lemma digits_fun : forall g fs ds ds', Forall (fun f => NoDup (elements (f_set f))) fs ->
  digits g fs ds -> digits g fs ds' -> ds = ds'.
Proof.
  intros g fs ds ds' F H. revert ds' F. induction H as [|f fs d ds Hd _ IH]; intros ds' F H';
    inversion H'; subst; [easy|]. inversion F; subst. f_equal; [|auto].
  eapply nnth_NoDup_inj; eauto.
Qed.

Lemma digits_length : forall g fs ds, digits g fs ds -> length fs = length ds.
Proof. induction 1; simpl; auto. Qed.

Lemma digits_lt : forall g fs ds, digits g fs ds -> Forall2 (fun f d => d < size f) fs ds.
Proof. induction 1; constructor; auto. unfold size. eapply nnth_Some_lt; eauto. Qed.

(** Digits in range are the digits of some group. *)
Lemma digits_group0 : forall fs ds, NoDup (map f_name fs) -> Forall2 (fun f d => d < size f) fs ds ->
  exists g, digits g fs ds.
Proof.
  intros fs ds ND H. induction H as [|f d fs ds Hd _ IH]; [exists []; constructor|].
  simpl in ND. inversion ND as [|? ? N1 N2]; subst. destruct (IH N2) as [g Hg].
  destruct (nnth_lt_Some _ _ Hd) as [v Hv].
  exists ((f_name f, v) :: g). constructor.
  - now rewrite get_field_head.
  - eapply digits_ext; [|exact Hg]. intros f' Hf'. unfold get_field. simpl.
    destruct (beqb (f_name f') (f_name f)) eqn:E; [|easy].
    apply beqb_spec in E. exfalso. apply N1. rewrite <- E. now apply in_map.
Qed.

Lemma get_field_map : forall s g f, NoDup (map f_name s) -> In f s ->
  get_field (map (fun f => (f_name f, get_field g f)) s) f = get_field g f.
Proof.
  intros s g f ND Hf. apply get_field_In.
  - rewrite map_map. easy.
  - apply in_map_iff. now exists f.
Qed.

(** A group whose fields have the given digits. *)
Lemma digits_group : forall s ds, NoDup (map f_name s) ->
  Forall2 (fun f d => d < size f) (all_fields s) ds ->
  exists g, well_shaped s g /\ digits g (all_fields s) ds.
Proof.
  intros s ds ND H. destruct (digits_group0 _ _ (NoDup_all_fields s ND) H) as [g Hg].
  exists (map (fun f => (f_name f, get_field g f)) s). split.
  - unfold well_shaped. rewrite map_map. easy.
  - eapply digits_ext; [|exact Hg]. intros f Hf. symmetry. apply get_field_map; [easy|].
    now apply In_all_fields.
Qed.

(* ------------------------------------------------------------------ *)
(** ** Decoding *)

Lemma decode_dynamic_digits : forall g fs is, digits g fs is ->
  decode_dynamic fs is = Done (map (fun f => (f_name f, get_field g f)) fs).
Proof.
  induction 1 as [|f fs d ds Hd _ IH]; simpl; [easy|].
  rewrite set_decode_elements, Hd. cbn [obind]. rewrite IH. easy.
Qed.

Lemma group_decode_digits : forall bd s g ds is, wf_group_set s -> well_shaped s g ->
  digits g (fixed s) ds -> digits g (dynamics s) is ->
  group_decode bd s (value (fixed s) ds, is) = Done g.
Proof.
  intros bd s g ds is WF W Hds His. unfold group_decode.
  replace (value (fixed s) ds) with (value (fixed s) ds + prod (fixed s) * 0) by lia.
  rewrite (decode_fixed_value g _ _ Hds) by apply fixed_Forall. cbn [obind].
  replace (debug_assert bd (0 =? 0)) with (Done tt) by now destruct bd. cbn [obind].
  rewrite (decode_dynamic_digits _ _ _ His). cbn [obind]. f_equal.
  rewrite <- map_app. apply reassemble; [apply WF|easy| |]; intros f Hf; now apply In_all_fields.
Qed.

(** Ids the set stands behind. *)
Definition group_valid (s : group_set) (u : unique) : Prop :=
  fst u < prod (fixed s) /\ Forall2 (fun f i => i < size f) (dynamics s) (snd u).

Lemma Forall2_app' : forall {A B} (P : A -> B -> Prop) a b c d,
  Forall2 P a c -> Forall2 P b d -> Forall2 P (a ++ b) (c ++ d).
Proof. induction 1; simpl; auto. Qed.

Lemma valid_digits : forall s u, wf_group_set s -> group_valid s u ->
  exists g ds, well_shaped s g /\ digits g (fixed s) ds /\ digits g (dynamics s) (snd u) /\
               fst u = value (fixed s) ds.
Proof.
  intros s [i is] WF [V1 V2]; simpl in *.
  pose proof (to_digits_lt _ _ V1) as L.
  destruct (digits_group s (to_digits (fixed s) i ++ is)) as (g & W & D).
  { apply WF. } { apply Forall2_app'; easy. }
  apply digits_app_inv in D as (da & db & E & D1 & D2).
  assert (length (to_digits (fixed s) i) = length da).
  { rewrite <- (digits_length _ _ _ D1). symmetry. eapply Forall2_length'; eauto. }
  assert (to_digits (fixed s) i = da /\ is = db) as [E1 E2].
  { clear - E H. revert da E H. induction (to_digits (fixed s) i) as [|x l IH]; intros [|y da] E H; simpl in *; try easy.
    injection E as -> E. injection H as H. destruct (IH _ E H) as [-> ->]. easy. }
  subst da db. exists g, (to_digits (fixed s) i). repeat split; auto.
  symmetry. now apply to_digits_value.
Qed.

(* ------------------------------------------------------------------ *)
(** ** Dynamic fields *)

(** What may happen to a field over time: an interner learns new strings. *)
Definition field_ext (f f' : field) : Prop :=
  f_name f' = f_name f /\ f_rename f' = f_rename f /\
  is_dynamic (f_set f') = is_dynamic (f_set f) /\
  (is_dynamic (f_set f) = false -> f' = f) /\
  (NoDup (elements (f_set f)) -> NoDup (elements (f_set f'))) /\
  exists t, elements (f_set f') = elements (f_set f) ++ t.

Definition set_ext (s s' : group_set) : Prop := Forall2 field_ext s s'.

Lemma field_ext_refl : forall f, field_ext f f.
Proof. intros. repeat split; auto. exists []. now rewrite app_nil_r. Qed.

Lemma field_ext_trans : forall a b c, field_ext a b -> field_ext b c -> field_ext a c.
Proof.
  intros a b c (A1 & A2 & A3 & A4 & A5 & ta & A6) (B1 & B2 & B3 & B4 & B5 & tb & B6).
  repeat split; try congruence; auto.
  - intros H. rewrite <- (A4 H). apply B4. congruence.
  - exists (ta ++ tb). rewrite B6, A6. now rewrite app_assoc.
Qed.

Lemma set_ext_refl : forall s, set_ext s s.
Proof. induction s; constructor; auto using field_ext_refl. Qed.

Lemma set_ext_trans : forall a b c, set_ext a b -> set_ext b c -> set_ext a c.
Proof.
  intros a b c H. revert c. induction H; intros c H'; inversion H'; subst; constructor; eauto using field_ext_trans.
  now apply IHForall2.
Qed.

Lemma set_ext_names : forall s s', set_ext s s' -> map f_name s' = map f_name s.
Proof. induction 1 as [|f f' s s' H _ IH]; simpl; [easy|]. destruct H as [-> _]. now rewrite IH. Qed.

Lemma set_ext_fixed : forall s s', set_ext s s' -> fixed s' = fixed s.
Proof.
  intros s s' H. rewrite !fixed_spec. f_equal. induction H as [|f f' s s' H _ IH]; simpl; [easy|].
  destruct H as (_ & _ & E & F & _).
  assert (is_fixed f' = is_fixed f) as -> by (unfold is_fixed; now rewrite E).
  destruct (is_fixed f) eqn:D; [|easy]. unfold is_fixed in D. rewrite negb_true_iff in D.
  rewrite F by easy. now rewrite IH.
Qed.

Lemma set_ext_dynamics : forall s s', set_ext s s' -> Forall2 field_ext (dynamics s) (dynamics s').
Proof.
  intros s s' H. rewrite !dynamics_spec. induction H as [|f f' s s' H _ IH]; simpl; [constructor|].
  pose proof H as (_ & _ & E & _). assert (is_dyn f' = is_dyn f) as -> by easy.
  destruct (is_dyn f); [constructor|]; auto.
Qed.

Lemma set_ext_wf : forall s s', set_ext s s' -> wf_group_set s -> wf_group_set s'.
Proof.
  intros s s' H [W1 W2]. split.
  - now rewrite (set_ext_names _ _ H).
  - clear W1. induction H as [|f f' s s' H _ IH]; [constructor|]. inversion W2; subst.
    constructor; [|auto]. destruct H as (_ & _ & _ & _ & N & _). unfold wf_label_set in *. auto.
Qed.

(** A set that cannot take another string. *)
Definition full (s : label_set) (v : bytes) : Prop :=
  match s with SInterner accepts l => accepts l v = false | _ => True end.

Lemma set_encode_dynamic : forall s v, is_dynamic s = true ->
  exists s' r, set_encode s v = (s', r) /\ is_dynamic s' = true /\
    (NoDup (elements s) -> NoDup (elements s')) /\
    (exists t, elements s' = elements s ++ t) /\
    (forall i, r = Some i -> nnth (elements s') i = Some v) /\
    (r = None <-> ~ In v (elements s) /\ full s v) /\
    (r = None -> s' = s) /\
    (In v (elements s) -> s' = s).
Proof.
  intros [e|l|cap l] v H; try easy. cbn [set_encode elements].
  destruct (nfind (beqb v) l) as [i|] eqn:E.
  - exists (SInterner cap l), (Some i).
    assert (In v l) by (apply nfind_beqb, nnth_In in E; easy).
    split; [easy|]. split; [easy|]. split; [easy|]. split; [exists []; now rewrite app_nil_r|].
    split; [intros j Hj; injection Hj as <-; now apply nfind_beqb|].
    split; [split; [easy|tauto]|]. split; auto.
  - apply nfind_beqb_None in E. cbn [full].
    destruct (cap l v) eqn:A.
    + eexists _, _. split; [reflexivity|]. cbn [elements is_dynamic].
      split; [easy|]. split.
      { intros ND. apply NoDup_app_single; easy. }
      split; [eauto|]. split.
      { intros i Hi; injection Hi as <-. rewrite nnth_app2 by lia. now rewrite N.sub_diag. }
      split; [split; [easy|intros [_ F]; discriminate]|]. split; [easy|]. intros; easy.
    + eexists _, _. split; [reflexivity|]. cbn [elements is_dynamic].
      split; [easy|]. split; [easy|]. split; [exists []; now rewrite app_nil_r|].
      split; [easy|]. split; [tauto|]. auto.
Qed.

Lemma update_set_same : forall s f, NoDup (map f_name s) -> In f s ->
  update_set (f_name f) (f_set f) s = s.
Proof.
  intros s f ND Hf. unfold update_set. rewrite <- (map_id s) at 2. apply map_ext_in.
  intros f' Hf'. destruct (beqb (f_name f') (f_name f)) eqn:E; [|easy].
  apply beqb_spec in E. assert (f' = f) by (eapply field_by_name; eauto). subst.
  now destruct f.
Qed.

Definition with_set (f : field) (st : label_set) : field :=
  {| f_name := f_name f; f_rename := f_rename f; f_set := st |}.

Lemma update_set_ext : forall s f st, NoDup (map f_name s) -> In f s ->
  field_ext f (with_set f st) -> set_ext s (update_set (f_name f) st s).
Proof.
  intros s f st ND Hf E. unfold update_set.
  assert (G : forall l, (forall x, In x l -> In x s) ->
     set_ext l (map (fun f0 => if beqb (f_name f0) (f_name f) then with_set f0 st else f0) l)).
  { induction l as [|x l IH]; intros I; [constructor|]. simpl. constructor.
    - destruct (beqb (f_name x) (f_name f)) eqn:B; [|apply field_ext_refl].
      apply beqb_spec in B. assert (x = f) as ->; [|easy].
      eapply field_by_name; eauto. apply I; now left.
    - apply IH. intros; apply I; now right. }
  apply G. auto.
Qed.

Lemma In_update_other : forall s f n st, In f s -> f_name f <> n -> In f (update_set n st s).
Proof.
  intros s f n st Hf Hn. unfold update_set. apply in_map_iff. exists f. split; [|easy].
  apply beqb_neq in Hn. now rewrite Hn.
Qed.

Lemma In_update_same : forall s f st, In f s -> In (with_set f st) (update_set (f_name f) st s).
Proof.
  intros s f st Hf. unfold update_set. apply in_map_iff. exists f. split; [|easy].
  now rewrite beqb_refl.
Qed.

Definition field_at (s : group_set) (f : field) (i : N) (v : bytes) : Prop :=
  exists f', In f' s /\ f_name f' = f_name f /\ nnth (elements (f_set f')) i = Some v.

Lemma encode_dynamic_spec : forall ds g s,
  NoDup (map f_name s) -> NoDup (map f_name ds) ->
  (forall f, In f ds -> In f s /\ is_dynamic (f_set f) = true) ->
  exists s' r, encode_dynamic ds g s = (s', r) /\ set_ext s s' /\
    (forall f, In f s -> ~ In (f_name f) (map f_name ds) -> In f s') /\
    (forall is, r = Some is -> Forall2 (fun f i => field_at s' f i (get_field g f)) ds is) /\
    (r = None <-> exists f, In f ds /\ ~ In (get_field g f) (elements (f_set f)) /\ full (f_set f) (get_field g f)).
Proof.
  induction ds as [|f ds IH]; intros g s ND NDd I.
  - exists s, (Some []). repeat split; auto using set_ext_refl.
    + intros is H. injection H as <-. constructor.
    + easy.
    + now intros (f & [] & _).
  - cbn [encode_dynamic]. simpl in NDd. inversion NDd as [|? ? N1 N2]; subst.
    destruct (I f (or_introl eq_refl)) as [Hf Df].
    destruct (set_encode_dynamic (f_set f) (get_field g f) Df)
      as (st & r & E & D' & NDe & (t & Et) & Er & Enone & Esame & _).
    rewrite E.
    assert (FE : field_ext f (with_set f st)).
    { repeat split; simpl; auto; [congruence|congruence|eauto]. }
    pose proof (update_set_ext s f st ND Hf FE) as X.
    pose proof (set_ext_names _ _ X) as XN.
    assert (ND' : NoDup (map f_name (update_set (f_name f) st s))) by now rewrite XN.
    assert (I' : forall f0, In f0 ds -> In f0 (update_set (f_name f) st s) /\ is_dynamic (f_set f0) = true).
    { intros f0 H0. destruct (I f0 (or_intror H0)) as [H1 H2]. split; [|easy].
      apply In_update_other; [easy|]. intro EQ. apply N1. rewrite <- EQ. now apply in_map. }
    destruct r as [i|].
    + destruct (IH g _ ND' N2 I') as (s' & r' & E' & X' & K & R & RN).
      rewrite E'. exists s', (option_map (cons i) r').
      split; [easy|]. split; [eapply set_ext_trans; eauto|]. split.
      { intros f0 H0 H1. simpl in H1. apply K; [|tauto]. apply In_update_other; [easy|].
        intro EQ; apply H1; now left. }
      split.
      { intros is His. destruct r' as [is'|]; [|easy]. injection His as <-.
        constructor; [|now apply R].
        exists (with_set f st). split.
        - apply K; [now apply In_update_same|easy].
        - split; [easy|]. simpl. auto. }
      split.
      * intros H. destruct r' as [is'|]; [easy|]. destruct (proj1 RN eq_refl) as (f0 & ? & ?).
        exists f0. split; [now right|easy].
      * intros (f0 & [<-|H0] & H1).
        -- exfalso. apply Enone in H1. congruence.
        -- assert (r' = None) as -> by (apply RN; eauto). easy.
    + exists (update_set (f_name f) st s), None. split; [easy|]. split; [easy|]. split.
      { intros f0 H0 H1. apply In_update_other; [easy|]. intro EQ. apply H1. simpl. now left. }
      split; [easy|]. split; [|easy]. intros _. exists f. split; [now left|]. now apply Enone.
Qed.

(** If every value is known, nothing changes. *)
Lemma encode_dynamic_known : forall g ds is s,
  NoDup (map f_name s) -> Forall (fun f => NoDup (elements (f_set f))) ds ->
  (forall f, In f ds -> In f s /\ is_dynamic (f_set f) = true) ->
  digits g ds is -> encode_dynamic ds g s = (s, Some is).
Proof.
  intros g ds is s ND NDe I H. induction H as [|f ds i is Hi _ IH]; [easy|].
  cbn [encode_dynamic]. inversion NDe; subst.
  destruct (I f (or_introl eq_refl)) as [Hf Df].
  assert (set_encode (f_set f) (get_field g f) = (f_set f, Some i)) as ->.
  { destruct (f_set f) as [|?|cap l]; try easy. cbn [set_encode elements] in *.
    now rewrite (nfind_beqb_NoDup _ _ _ H1 Hi). }
  rewrite update_set_same by easy. rewrite IH; [easy|easy|]. intros; apply I; now right.
Qed.

Lemma Forall_dynamics_NoDup : forall s, wf_group_set s ->
  Forall (fun f => NoDup (elements (f_set f))) (dynamics s).
Proof.
  intros s [_ W]. apply Forall_forall. intros f Hf. apply In_dynamics in Hf as [Hf _].
  rewrite Forall_forall in W. now apply W.
Qed.

Lemma group_encode_digits : forall bd s g ds is, group_ok s ->
  digits g (fixed s) ds -> digits g (dynamics s) is ->
  group_encode bd s g = Done (s, Some (value (fixed s) ds, is)).
Proof.
  intros bd s g ds is [WF PF] D1 D2. unfold group_encode.
  rewrite (encode_fixed_ok bd g _ _ D1); [|now apply wf_fixed|lia|easy]. cbn [obind].
  rewrite (encode_dynamic_known g _ is); [|apply WF|now apply Forall_dynamics_NoDup| |easy].
  - cbn [option_map]. repeat f_equal. lia.
  - intros f Hf. now apply In_dynamics.
Qed.

(** The general result of encode. *)
Lemma group_encode_spec : forall bd s g, group_ok s ->
  exists s' r, group_encode bd s g = Done (s', r) /\ set_ext s s' /\
    (forall u, r = Some u ->
       exists ds, digits g (fixed s') ds /\ digits g (dynamics s') (snd u) /\ fst u = value (fixed s') ds) /\
    (r = None <-> exists f, In f s /\ ~ In (get_field g f) (elements (f_set f)) /\ full (f_set f) (get_field g f)) /\
    ((exists f, In f s /\ is_dynamic (f_set f) = false /\ ~ In (get_field g f) (elements (f_set f))) -> s' = s).
Proof.
  intros bd s g [WF PF]. unfold group_encode.
  destruct (existsb (fun f => negb (existsb (beqb (get_field g f)) (elements (f_set f)))) (fixed s)) eqn:X.
  - apply existsb_exists in X as (f & Hf & Hno). rewrite negb_true_iff in Hno.
    assert (NI : ~ In (get_field g f) (elements (f_set f))).
    { intro I. apply not_true_iff_false in Hno. apply Hno, existsb_exists.
      exists (get_field g f). split; [easy|apply beqb_refl]. }
    rewrite encode_fixed_none; [|now apply wf_fixed|eauto|lia|easy]. cbn [obind].
    exists s, None. split; [easy|]. split; [apply set_ext_refl|]. split; [easy|]. split; [|easy].
    split; [|easy]. intros _. apply In_fixed in Hf as [Hf Df]. exists f. split; [easy|]. split; [easy|].
    destruct (f_set f); easy.
  - assert (ALL : forall f, In f (fixed s) -> In (get_field g f) (elements (f_set f))).
    { intros f Hf. destruct (existsb (beqb (get_field g f)) (elements (f_set f))) eqn:Y.
      - apply existsb_exists in Y as (v & Hv & E). apply beqb_spec in E. now subst.
      - exfalso. apply not_true_iff_false in X. apply X, existsb_exists. exists f. now rewrite Y. }
    destruct (digits_exist _ _ ALL) as [ds Hds].
    rewrite (encode_fixed_ok bd g _ _ Hds); [|now apply wf_fixed|lia|easy]. cbn [obind].
    destruct (encode_dynamic_spec (dynamics s) g s) as (s' & r & E & X' & K & R & RN).
    { apply WF. } { apply NoDup_dynamics, WF. } { intros; now apply In_dynamics. }
    rewrite E, N.add_0_l, N.mul_1_l. exists s', (option_map (fun is => (value (fixed s) ds, is)) r).
    split; [easy|]. split; [easy|]. split; [|split; [split|]].
    + intros u Hu. destruct r as [is|]; [|easy]. cbn [option_map] in Hu. injection Hu as <-.
      exists ds. rewrite (set_ext_fixed _ _ X'). split; [easy|]. cbn [fst snd]. split; [|easy].
      specialize (R is eq_refl). pose proof (set_ext_dynamics _ _ X') as XD.
      pose proof (set_ext_wf _ _ X' WF) as WF'.
      assert (SUB : forall f, In f (dynamics s') -> In f s') by (intros f Hf; now apply In_dynamics in Hf).
      revert R XD SUB. generalize (dynamics s) (dynamics s'). clear - WF'.
      intros l l' R. revert l'. induction R as [|f i l is Hat _ IH]; intros l' XD SUB; inversion XD; subst; constructor.
      * destruct Hat as (f' & Hf' & En & Hn). destruct H1 as [En' _].
        assert (y = f') as -> by (eapply field_by_name; [apply WF'|apply SUB; now left|easy|congruence]).
        rewrite Hn. unfold get_field. now rewrite En.
      * apply IH; [easy|]. intros; apply SUB; now right.
    + intros H. destruct r as [is|]; [easy|]. destruct (proj1 RN eq_refl) as (f & Hf & H1 & H2).
      apply In_dynamics in Hf as [Hf _]. eauto.
    + intros (f & Hf & H1 & H2). assert (r = None) as ->; [|easy]. apply RN.
      exists f. split; [|easy]. apply In_dynamics. split; [easy|].
      destruct (is_dynamic (f_set f)) eqn:D; [easy|]. exfalso. apply H1, ALL, In_fixed. easy.
    + intros (f & Hf & D & NI). exfalso. apply NI, ALL, In_fixed. easy.
Qed.

(* ------------------------------------------------------------------ *)
(** ** The contract *)

Lemma set_ext_valid : forall s s' u, set_ext s s' -> group_valid s u -> group_valid s' u.
Proof.
  intros s s' [i is] X [V1 V2]. split; simpl in *.
  - now rewrite (set_ext_fixed _ _ X).
  - pose proof (set_ext_dynamics _ _ X) as XD. revert V2. revert is.
    induction XD as [|f f' l l' H _ IH]; intros is V; inversion V; subst; constructor; auto.
    destruct H as (_ & _ & _ & _ & _ & t & E). unfold size in *. rewrite E, nlen_app. lia.
Qed.

Lemma set_ext_decode_dynamic : forall l l' is, Forall2 field_ext l l' ->
  Forall2 (fun f i => i < size f) l is -> decode_dynamic l' is = decode_dynamic l is.
Proof.
  intros l l' is XD. revert is. induction XD as [|f f' l l' H _ IH]; intros is V; inversion V; subst; [easy|].
  cbn [decode_dynamic]. destruct H as (En & _ & _ & _ & _ & t & E).
  rewrite !set_decode_elements, E, nnth_app1 by easy. rewrite En.
  destruct (nnth (elements (f_set f)) y); [|easy]. cbn [obind]. now rewrite IH.
Qed.

Lemma set_ext_decode : forall bd s s' u, set_ext s s' -> group_valid s u ->
  group_decode bd s' u = group_decode bd s u.
Proof.
  intros bd s s' [i is] X [V1 V2]. unfold group_decode. simpl in *.
  rewrite (set_ext_fixed _ _ X). destruct (decode_fixed (fixed s) i) as [[rest vs]|]; [|easy]. cbn [obind].
  destruct (debug_assert bd (rest =? 0)); [|easy]. cbn [obind].
  rewrite (set_ext_decode_dynamic _ _ _ (set_ext_dynamics _ _ X) V2).
  destruct (decode_dynamic (dynamics s) is) as [ds|]; [|easy]. cbn [obind]. f_equal.
  clear - X. induction X as [|f f' s s' H _ IH]; simpl; [easy|]. rewrite IH.
  destruct H as [En _]. unfold get_field. now rewrite En.
Qed.

Lemma set_ext_no_dynamics : forall s s', set_ext s s' -> (dynamics s = [] <-> dynamics s' = []).
Proof.
  intros s s' X. apply set_ext_dynamics in X. inversion X; subst; split; easy.
Qed.

Lemma set_ext_cardinality : forall s s', set_ext s s' -> group_cardinality s' = group_cardinality s.
Proof.
  intros s s' X. unfold group_cardinality. rewrite (set_ext_fixed _ _ X).
  pose proof (set_ext_no_dynamics _ _ X) as E.
  destruct (dynamics s), (dynamics s'); try easy.
  - discriminate (proj1 E eq_refl).
  - discriminate (proj2 E eq_refl).
Qed.

Lemma set_ext_ok : forall s s', set_ext s s' -> group_ok s -> group_ok s'.
Proof.
  intros s s' X [WF PF]. split; [eapply set_ext_wf; eauto|]. now rewrite (set_ext_fixed _ _ X).
Qed.

Lemma set_ext_no_dynamic : forall s s', set_ext s s' -> no_dynamic s -> s' = s.
Proof.
  intros s s' X. unfold no_dynamic. induction X as [|f f' s s' H _ IH]; intros F; [easy|].
  inversion F; subst. destruct H as (_ & _ & _ & E & _). rewrite E, IH; easy.
Qed.

Lemma unique_eqb_spec : forall u v, unique_eqb u v = true <-> u = v.
Proof.
  intros [a b] [c d]. unfold unique_eqb. cbn [fst snd].
  rewrite andb_true_iff, N.eqb_eq, beqb_spec. split; [intros [-> ->]; easy|intros E; now injection E].
Qed.

Lemma derived_lawful : forall bd, lawful (derived_lgset bd) group_ok well_shaped group_valid.
Proof.
  intros bd. constructor; cbn [derived_lgset lg_state lg_group lg_unique lg_unique_eqb lg_cardinality
                               lg_encode_dense lg_decode_dense lg_encode lg_decode].
  - apply unique_eqb_spec.
  - intros s g OK W. destruct (group_encode_spec bd s g OK) as (s' & r & E & X & _).
    exists s', r. split; [easy|]. split; [eapply set_ext_ok; eauto|].
    split; [now apply set_ext_cardinality|]. split.
    { intros g' W'. unfold well_shaped in *. now rewrite (set_ext_names _ _ X). }
    split.
    + intros u V. split; [eapply set_ext_valid; eauto|]. split; [now apply set_ext_decode|].
      unfold group_encode_dense. pose proof (set_ext_no_dynamics _ _ X) as D.
      destruct (dynamics s), (dynamics s'); try easy.
      * discriminate (proj1 D eq_refl).
      * discriminate (proj2 D eq_refl).
    + intros i c C Hi. apply group_cardinality_Some in C as (ND & _).
      now rewrite (set_ext_no_dynamic _ _ X ND).
  - intros s g s' u OK W E. destruct (group_encode_spec bd s g OK) as (s1 & r & E1 & X & R & _).
    rewrite E in E1. injection E1 as <- <-. destruct (R u eq_refl) as (ds & D1 & D2 & Eu).
    destruct u as [i is]; cbn [fst snd] in *. subst i. split; [split|].
    + cbn [fst]. eapply value_lt_prod; eauto.
    + cbn [snd]. now apply digits_lt in D2.
    + apply group_decode_digits; auto.
      * eapply set_ext_wf; [exact X|apply OK].
      * unfold well_shaped in *. now rewrite (set_ext_names _ _ X).
  - intros s u OK V. destruct (valid_digits s u (proj1 OK) V) as (g & ds & W & D1 & D2 & Eu).
    exists g. split; [easy|]. destruct u as [i is]; cbn [fst snd] in *; subst i. split.
    + apply group_decode_digits; [apply OK|easy|easy|easy].
    + now apply group_encode_digits.
  - intros s [i is] c OK [V1 V2] C. apply group_cardinality_Some in C as (ND & PF & ->).
    apply dynamics_nil in ND. cbn [fst snd] in *. rewrite ND in V2. inversion V2; subst is.
    exists i. unfold group_encode_dense, group_decode_dense. rewrite ND. split; [easy|]. split; [|easy].
    now rewrite combinations_prod.
  - intros s i c OK C Hi. apply group_cardinality_Some in C as (ND & PF & ->).
    apply dynamics_nil in ND. exists (i, []). unfold group_encode_dense. rewrite ND. split; [|easy].
    split; cbn [fst snd]; [now rewrite <- combinations_prod|]. rewrite ND. constructor.
  - intros s c OK C. apply group_cardinality_Some in C as (ND & PF & ->).
    apply prefix_fit_prod in PF. rewrite combinations_prod. lia.
Qed.

(* ------------------------------------------------------------------ *)
(** ** C03 *)

Lemma member_digits : forall s g fs, wf_group_set s -> member s g -> (forall f, In f fs -> In f s) ->
  exists ds, digits g fs ds.
Proof.
  intros s g fs WF M I. apply digits_exist. intros f Hf.
  apply (member_get s); [apply WF|easy|auto].
Qed.

Lemma digits_member : forall s g ds is, wf_group_set s -> well_shaped s g ->
  digits g (fixed s) ds -> digits g (dynamics s) is -> member s g.
Proof.
  intros s g ds is WF W D1 D2. apply get_member; [apply WF|easy|].
  intros f Hf. apply In_all_fields in Hf. unfold all_fields in Hf. apply in_app_iff in Hf as [Hf|Hf];
    [eapply (digits_In _ _ _ D1)|eapply (digits_In _ _ _ D2)]; easy.
Qed.

Lemma group_bijection : forall bd s c, wf_group_set s -> group_cardinality s = Some c ->
  c = combinations s /\
  (forall g, member s g -> exists i,
     group_encode bd s g = Done (s, Some (i, [])) /\ i < c /\ group_decode bd s (i, []) = Done g) /\
  (forall i, i < c -> exists g,
     member s g /\ group_decode bd s (i, []) = Done g /\
     group_encode bd s g = Done (s, Some (i, []))) /\
  (forall g1 g2 u, member s g1 -> member s g2 ->
     group_encode bd s g1 = Done (s, Some u) -> group_encode bd s g2 = Done (s, Some u) -> g1 = g2).
Proof.
  intros bd s c WF C. apply group_cardinality_Some in C as (ND & PF & ->).
  apply dynamics_nil in ND.
  assert (A : forall g, member s g -> exists i,
     group_encode bd s g = Done (s, Some (i, [])) /\ i < combinations s /\ group_decode bd s (i, []) = Done g).
  { intros g M. destruct (member_digits s g (fixed s) WF M) as (ds & Hds).
    { intros f Hf. now apply In_fixed in Hf. }
    assert (D2 : digits g (dynamics s) []) by (rewrite ND; constructor).
    exists (value (fixed s) ds). split; [|split].
    - now apply group_encode_digits.
    - rewrite combinations_prod. eapply value_lt_prod; eauto.
    - apply group_decode_digits; auto using member_shaped. }
  split; [easy|]. split; [easy|]. split.
  - intros i Hi. destruct (valid_digits s (i, []) WF) as (g & ds & W & D1 & D2 & Eu).
    { split; cbn [fst snd]; [now rewrite <- combinations_prod|rewrite ND; constructor]. }
    cbn [fst snd] in *. subst i. exists g. split; [eapply digits_member; eauto|].
    split; [now apply group_decode_digits|now apply group_encode_digits].
  - intros g1 g2 u M1 M2 E1 E2.
    destruct (A g1 M1) as (i1 & F1 & _ & D1). destruct (A g2 M2) as (i2 & F2 & _ & D2).
    assert (i1 = i2) by congruence. subst. congruence.
Qed.
