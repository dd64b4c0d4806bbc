(** Proofs about names, labels and series (C58-C60). *)
From Coq Require Import String List NArith ZArith Bool Lia Permutation.
From Verif Require Import Base BaseFacts NameModel NameSpec NameProofs LabelModel LabelSpec LabelProofs FloatModel EncoderModel TextSpec
  DeriveModel DeriveSpec DeriveProofs DeriveGroupProofs ScrapeSpec.
Import ListNotations.

(** ** Visiting *)

Section Visit.
  Variable heck : rename_all -> bytes -> bytes.

  Lemma ident_inj : forall vs v w, NoDup (map v_ident vs) -> In v vs -> In w vs -> v_ident v = v_ident w -> v = w.
  Proof.
    induction vs as [|u vs IH]; intros v w N I J E; [destruct I|]. cbn in N. inversion N as [|? ? NI N']; subst.
    destruct I as [->|I], J as [->|J]; auto.
    - exfalso. apply NI. rewrite E. now apply in_map.
    - exfalso. apply NI. rewrite <- E. now apply in_map.
  Qed.

  Lemma find_variant : forall vs v, NoDup (map v_ident vs) -> In v vs ->
    find (fun var => beqb (v_ident v) (v_ident var)) vs = Some v.
  Proof.
    induction vs as [|w vs IH]; intros v N I; [destruct I|]. cbn in *. inversion N; subst.
    destruct (beqb (v_ident v) (v_ident w)) eqn:E.
    - apply beqb_spec in E. destruct I as [->|I]; [reflexivity|].
      exfalso. apply H1. rewrite <- E. now apply in_map.
    - destruct I as [->|I]; [rewrite beqb_refl in E; discriminate|]. auto.
  Qed.

  Definition shown_of (e : enum_spec) (v : variant) : lvalue :=
    match v_value v with
    | Some z => LInt z
    | None => match v_rename v with Some s => LStr s | None => LStr (heck (en_rename_all e) (v_ident v)) end
    end.
  Lemma variant_shown_iff : forall e n x, variant_shown heck e n x <->
    exists v, In v (en_variants e) /\ v_ident v = n /\ x = shown_of e v.
  Proof.
    intros e n x. unfold shown_of. split.
    - intros [v z I V|v s I V R|v I V R]; exists v; (split; [exact I|split; [reflexivity|]]); rewrite V, ?R; reflexivity.
    - intros (v & I & <- & ->). destruct (v_value v) eqn:V; [now constructor|]. destruct (v_rename v) eqn:R; now constructor.
  Qed.

  Lemma value_visit_shown : forall s v, wf_label_set s -> In v (elements s) -> value_shown heck s v (value_visit heck s v).
  Proof.
    intros [e|l|c l] v W I; cbn [value_visit]; [|constructor|constructor].
    constructor. apply variant_shown_iff. cbn in I, W. apply in_map_iff in I. destruct I as (w & <- & I).
    exists w. split; [exact I|]. split; [reflexivity|]. unfold enum_visit. now rewrite (find_variant _ _ W I).
  Qed.

  Lemma value_shown_det : forall s v x y, wf_label_set s -> value_shown heck s v x -> value_shown heck s v y -> x = y.
  Proof.
    intros s v x y W H K. inversion H as [e v' x' V|l v'|c l v']; subst; inversion K as [e' v'' x'' V'|l'' v''|c'' l'' v'']; subst; try reflexivity.
    apply variant_shown_iff in V. apply variant_shown_iff in V'. destruct V as (a & I & E & ->), V' as (b & J & F & ->).
    rewrite (ident_inj _ _ _ W I J) by congruence. reflexivity.
  Qed.

  Lemma visit_shown_aux : forall s g gl, Forall2 (fun f p => fst p = f_name f /\ In (snd p) (elements (f_set f))) s g ->
    Forall (fun f => wf_label_set (f_set f)) s -> (forall f, In f s -> get_field gl f = get_field g f) -> NoDup (map f_name s) ->
    group_shown heck s g (group_visit heck s gl).
  Proof.
    induction s as [|f s IH]; intros g gl M W G N; inversion M as [|? p ? g' [E I] M']; subst; [constructor|].
    cbn [group_visit map]. destruct p as [n v]. cbn [fst snd] in *. subst n.
    rewrite (G f (or_introl eq_refl)), get_field_head. inversion W; subst. cbn in N. inversion N as [|? ? NI ND]; subst.
    assert (R : group_shown heck s g' (map (fun f0 => (field_label f0, value_visit heck (f_set f0) (get_field gl f0))) s)).
    { apply (IH g' gl M'); auto. intros f' J. rewrite (G f' (or_intror J)). unfold get_field. cbn [assoc fst snd].
      destruct (beqb (f_name f') (f_name f)) eqn:B; [|reflexivity]. apply beqb_spec in B. exfalso. apply NI. rewrite <- B. now apply in_map. }
    unfold field_label at 1. destruct (f_rename f) eqn:Rn.
    - apply GS_renamed; auto. now apply value_visit_shown.
    - apply GS_named; auto. now apply value_visit_shown.
  Qed.

  Lemma group_shown_det : forall s g a b, Forall (fun f => wf_label_set (f_set f)) s ->
    group_shown heck s g a -> group_shown heck s g b -> a = b.
  Proof.
    intros s g a b W H. revert b. induction H as [|f s n v g x ls R V H IH|f s v g x ls R V H IH]; intros b K; inversion W; subst.
    - now inversion K.
    - inversion K; subst; [|congruence]. f_equal; [|auto]. f_equal; [congruence|]. eapply value_shown_det; eassumption.
    - inversion K; subst; [congruence|]. f_equal; [|auto]. f_equal. eapply value_shown_det; eassumption.
  Qed.

  Theorem visit_exact : forall s g, wf_group_set s -> member s g ->
    forall ls, group_visit heck s g = ls <-> group_shown heck s g ls.
  Proof.
    intros s g [N W] M ls.
    assert (H : group_shown heck s g (group_visit heck s g)) by (apply visit_shown_aux; auto).
    split; [intros <-; exact H|]. intros K. eapply group_shown_det; eassumption.
  Qed.

  Lemma visit_names : forall s g, map fst (group_visit heck s g) = map field_label s.
  Proof. intros. unfold group_visit. rewrite map_map. reflexivity. Qed.

  Lemma set_for_names : forall l s, Forall2 set_for l s -> map field_label s = map lfield_label l.
  Proof.
    induction 1 as [|f s' l s (E1 & E2 & _) F IH]; [reflexivity|]. cbn. rewrite IH. f_equal.
    unfold field_label, lfield_label. now rewrite E1, E2.
  Qed.

  Theorem derived_visit_names : forall shouty ident_ok attrs d l s g,
    derive_label_group shouty ident_ok attrs d = Some l -> Forall2 set_for l s ->
    NoDup (map fst (group_visit heck s g)) /\ labels_valid (group_visit heck s g).
  Proof.
    intros sh io attrs d l s g D F. apply derived_label_names in D. destruct D as [N V].
    rewrite visit_names, (set_for_names _ _ F). split; [exact N|]. unfold labels_valid.
    assert (H : Forall valid_label_name (map fst (group_visit heck s g))) by (rewrite visit_names, (set_for_names _ _ F); exact V).
    clear - H. induction (group_visit heck s g); [constructor|]. inversion H; subst. constructor; auto.
  Qed.
End Visit.

(** ** Labels on sample lines *)

Lemma shows_names : forall ryu ls ts, labels_show ryu ls ts -> map fst ts = map fst ls.
Proof. induction 1 as [|l t ls ts [E _] F IH]; [reflexivity|]. cbn. now rewrite E, IH. Qed.

Lemma shows_app : forall ryu a b ts, labels_show ryu (a ++ b) ts <->
  exists t1 t2, ts = t1 ++ t2 /\ labels_show ryu a t1 /\ labels_show ryu b t2.
Proof.
  intros. unfold labels_show. split.
  - intros H. apply Forall2_app_inv_l in H. destruct H as (t1 & t2 & A & B & ->). eauto.
  - intros (t1 & t2 & -> & A & B). now apply Forall2_app.
Qed.

Lemma NoDup_snoc : forall {A} (l : list A) x, NoDup l -> ~ In x l -> NoDup (l ++ [x]).
Proof.
  intros A l x N I. apply NoDup_rev in N. rewrite <- (rev_involutive (l ++ [x])). apply NoDup_rev.
  rewrite rev_app_distr. cbn. constructor; [|exact N]. intros J. apply I. now apply in_rev.
Qed.

(** The sample lines of a metric: plain ones, and for histograms those with a
    bound. *)
Inductive line_of (ryu : f64 -> bytes) (nss : list bytes) (base : bytes) (ls : labels) (m : metric) : item -> Prop :=
| LO_plain : forall ts v, metric_kind m <> KHistogram -> labels_show ryu ls ts ->
    line_of ryu nss base ls m (Sample (full_name nss base []) ts v None)
| LO_bucket : forall th bs inf sum k x ts t v, m = MHistogram th bs inf sum -> nth_error (th ++ [f_infinity]) k = Some x ->
    labels_show ryu ls ts -> label_shows ryu (LFloat x) t ->
    line_of ryu nss base ls m (Sample (full_name nss base [str "bucket"]) (ts ++ [(str "le", t)]) v None)
| LO_sum : forall ts v, metric_kind m = KHistogram -> labels_show ryu ls ts ->
    line_of ryu nss base ls m (Sample (full_name nss base [str "sum"]) ts v None)
| LO_count : forall ts v, metric_kind m = KHistogram -> labels_show ryu ls ts ->
    line_of ryu nss base ls m (Sample (full_name nss base [str "count"]) ts v None).

Lemma le_shows : forall ryu ls x ts, labels_show ryu (ls ++ [(str "le", LFloat x)]) ts ->
  exists us t, ts = us ++ [(str "le", t)] /\ labels_show ryu ls us /\ label_shows ryu (LFloat x) t.
Proof.
  intros ryu ls x ts H. apply shows_app in H. destruct H as (us & t2 & -> & A & B).
  inversion B as [|? [n t] ? ? [E S] B']; subst. inversion B'; subst. cbn in E, S. subst n. eauto.
Qed.

Lemma metric_lines_of : forall ryu nss base ls m items, metric_lines ryu nss base ls m items ->
  Forall (line_of ryu nss base ls m) items.
Proof.
  intros ryu nss base ls m items H. destruct m as [c|z|x|th bs inf sum]; cbn in H.
  - destruct H as (i & -> & ts & v & -> & S & _). constructor; [|constructor]. constructor; [discriminate|exact S].
  - destruct H as (i & -> & ts & v & -> & S & _). constructor; [|constructor]. constructor; [discriminate|exact S].
  - destruct H as (i & -> & ts & -> & S). constructor; [|constructor]. constructor; [discriminate|exact S].
  - destruct H as (bk & i1 & i2 & i3 & -> & L & B & I1 & I2 & I3). apply Forall_app. split.
    + apply Forall_forall. intros i I. apply In_nth_error in I. destruct I as [k I].
      assert (K : k < length bk) by (apply nth_error_Some; congruence).
      destruct (nth_error th k) as [t|] eqn:T. 2:{ exfalso. apply nth_error_None in T. rewrite L in K. exact (proj2 (Nat.nlt_ge _ _) T K). }
      destruct (B k t i T I) as (ts & v & -> & S & _). apply le_shows in S. destruct S as (us & t' & -> & S & S').
      eapply LO_bucket with (k := k) (x := t); [reflexivity| |exact S|exact S']. rewrite nth_error_app1; [exact T|]. apply nth_error_Some. congruence.
    + constructor; [|constructor; [|constructor; [|constructor]]].
      * destruct I1 as (ts & v & -> & S & _). apply le_shows in S. destruct S as (us & t' & -> & S & S').
        eapply LO_bucket with (k := length th) (x := f_infinity); [reflexivity| |exact S|exact S']. rewrite nth_error_app2 by lia. rewrite Nat.sub_diag. reflexivity.
      * destruct I2 as (ts & -> & S). now apply LO_sum.
      * destruct I3 as (ts & v & -> & S & _). now apply LO_count.
Qed.

Theorem scraped_labels_once : forall ryu evs items, exposes ryu evs items ->
  (forall nss base ls m, In (EvSample nss base ls m) evs ->
     NoDup (map fst ls) /\ (metric_kind m = KHistogram -> ~ In (str "le") (map fst ls))) ->
  labels_once items.
Proof.
  intros ryu evs items (parts & F & E) H n ls v t I.
  assert (J : In (Sample n ls v t) (filter meaningful items)) by (apply filter_In; auto).
  rewrite E in J. apply in_concat in J. destruct J as (p & P & J).
  assert (X : exists ev, In ev evs /\ event_lines ryu ev p).
  { clear - F P. induction F as [|e q evs parts L F IH]; [destruct P|]. destruct P as [->|P]; [exists e; split; [now left|exact L]|].
    destruct (IH P) as (ev & A & B). exists ev. split; [now right|exact B]. }
  destruct X as (ev & A & L). destruct ev as [nss base h|nss base k|nss base l m|]; cbn in L.
  - subst p. destruct J as [J|[]]. discriminate.
  - subst p. destruct J as [J|[]]. discriminate.
  - apply metric_lines_of in L. rewrite Forall_forall in L. specialize (L _ J). destruct (H _ _ _ _ A) as [N LE].
    inversion L; subst.
    + erewrite shows_names; eassumption.
    + rewrite map_app. cbn. erewrite shows_names by eassumption. apply NoDup_snoc; [exact N|now apply LE].
    + erewrite shows_names; eassumption.
    + erewrite shows_names; eassumption.
  - contradiction.
Qed.

(** ** Pairs *)

Inductive pairwise {A} (R : A -> A -> Prop) : list A -> Prop :=
| pw_nil : pairwise R []
| pw_cons : forall x l, Forall (R x) l -> pairwise R l -> pairwise R (x :: l).

Lemma pairwise_nth : forall {A} (R : A -> A -> Prop) l, (forall x y, R x y -> R y x) ->
  (pairwise R l <-> forall i j x y, nth_error l i = Some x -> nth_error l j = Some y -> i <> j -> R x y).
Proof.
  intros A R l SY. split.
  - induction 1 as [|z l F P IH]; intros i j x y X Y NE; [destruct i; discriminate|].
    rewrite Forall_forall in F. destruct i as [|i], j as [|j]; cbn in X, Y.
    + congruence.
    + injection X as ->. apply F. eapply nth_error_In; eassumption.
    + injection Y as ->. apply SY, F. eapply nth_error_In; eassumption.
    + eapply IH; [eassumption|eassumption|lia].
  - induction l as [|z l IH]; intros H; [constructor|]. constructor.
    + apply Forall_forall. intros y I. apply In_nth_error in I. destruct I as [j J].
      apply (H 0 (S j)); [reflexivity|exact J|lia].
    + apply IH. intros i j x y X Y NE. apply (H (S i) (S j)); [exact X|exact Y|lia].
Qed.

Lemma pairwise_app : forall {A} (R : A -> A -> Prop) a b,
  pairwise R (a ++ b) <-> pairwise R a /\ pairwise R b /\ Forall (fun x => Forall (R x) b) a.
Proof.
  intros A R. induction a as [|x a IH]; intros b; cbn [app].
  - split; [intros H; split; [constructor|split; [exact H|constructor]]|tauto].
  - split.
    + intros H. inversion H as [|? ? F P]; subst. apply IH in P. destruct P as (P1 & P2 & P3).
      apply Forall_app in F. destruct F as [F1 F2]. split; [now constructor|]. split; [exact P2|]. now constructor.
    + intros (H1 & H2 & H3). inversion H1; subst. inversion H3; subst. constructor; [now apply Forall_app|]. apply IH. auto.
Qed.

Lemma pairwise_filter : forall {A} (R : A -> A -> Prop) p l, (forall x y, p x = false \/ p y = false -> R x y) ->
  pairwise R (filter p l) -> pairwise R l.
Proof.
  intros A R p l H. induction l as [|x l IH]; intros P; [constructor|]. cbn in P. destruct (p x) eqn:E.
  - inversion P as [|? ? F P']; subst. constructor; [|auto]. apply Forall_forall. intros y I. destruct (p y) eqn:Y; [|auto].
    rewrite Forall_forall in F. apply F. apply filter_In. auto.
  - constructor; [|auto]. apply Forall_forall. intros y I. auto.
Qed.

Lemma pairwise_map : forall {A B} (f : A -> B) (R : B -> B -> Prop) l, pairwise R (map f l) <-> pairwise (fun x y => R (f x) (f y)) l.
Proof.
  intros A B f R l. induction l as [|x l IH]; cbn [map]; [split; constructor|]. split; intros H; inversion H; subst; constructor.
  - apply Forall_forall. intros y I. rewrite Forall_forall in H2. apply H2. now apply in_map.
  - now apply IH.
  - apply Forall_forall. intros y I. apply in_map_iff in I. destruct I as (z & <- & I). rewrite Forall_forall in H2. auto.
  - now apply IH.
Qed.

Lemma NoDup_pairwise : forall {A} (l : list A), NoDup l <-> pairwise (fun x y => x <> y) l.
Proof.
  intros A l. induction l as [|x l IH]; split; intros H; try constructor; inversion H; subst.
  - apply Forall_forall. intros y I <-. contradiction.
  - now apply IH.
  - intros I. rewrite Forall_forall in H2. now apply (H2 x I).
  - now apply IH.
Qed.
