(** The series of a metric vec over a derived label group (C59). *)
From Coq Require Import String List NArith ZArith Bool Lia Permutation.
From Verif Require Import Base BaseFacts NameModel LabelModel LabelSpec LabelProofs GroupProofs LawProofs VecModel VecSpec VecProofs VecTheorems
  FloatModel EncoderModel FamilyModel TextModel TextSpec TextParseProofs TextProofs ScrapeSpec ScrapeProofs ScrapeTheorems.
Import ListNotations.

(** ** Values and their texts *)

Theorem values_apart_exact : forall ryu,
  (forall a b, values_apart ryu (LInt a) (LInt b) <-> a <> b) /\
  (forall a b, values_apart ryu (LStr a) (LStr b) <-> a <> b) /\
  (forall z s, values_apart ryu (LInt z) (LStr s) <-> read_int s <> Some z).
Proof.
  intros ryu. split; [|split]; intros a b; unfold values_apart; cbn [label_shows]; split.
  - intros H ->. exact (H (itoa b) (read_itoa b) (read_itoa b)).
  - intros H t E F. congruence.
  - intros H ->. exact (H b eq_refl eq_refl).
  - intros H t -> <-. now apply H.
  - intros H E. exact (H b E eq_refl).
  - intros H t E ->. contradiction.
Qed.

Theorem thresholds_apart : forall ryu ts bs inf sum, faithful ryu -> Forall finite ts -> NoDup ts ->
  bounds_apart ryu (MHistogram ts bs inf sum).
Proof.
  intros ryu ts bs inf sum [INJ WORDS] F N i j x y X Y NE t.
  assert (D : f_decode f_infinity = SpecFloat.S754_infinity false) by reflexivity.
  assert (FT : forall x, finite x -> label_shows ryu (LFloat x) t -> t = ryu x).
  { intros z [_ Z] H. cbn in H. destruct (f_decode z) as [|[]| |]; try contradiction; exact H. }
  assert (IN : forall k z, nth_error (ts ++ [f_infinity]) k = Some z -> (k < length ts /\ nth_error ts k = Some z /\ finite z) \/ (k = length ts /\ z = f_infinity)).
  { intros k z E. destruct (Nat.lt_ge_cases k (length ts)) as [L|G].
    - left. rewrite nth_error_app1 in E by exact L. split; [exact L|]. split; [exact E|]. rewrite Forall_forall in F. apply F. eapply nth_error_In; exact E.
    - right. rewrite nth_error_app2 in E by exact G. destruct (k - length ts) as [|[|n]] eqn:K; try discriminate. injection E as <-. split; [lia|reflexivity]. }
  assert (INF : label_shows ryu (LFloat f_infinity) t -> t = str "+Inf") by (cbn [label_shows]; now rewrite D).
  intros S T. destruct (IN i x X) as [(L1 & X' & F1)|[L1 ->]], (IN j y Y) as [(L2 & Y' & F2)|[L2 ->]].
  - assert (x = y) by (apply INJ; [exact F1|exact F2|rewrite <- (FT x F1 S); exact (FT y F2 T)]). subst y.
    apply NE. eapply NoDup_nth_error; [exact N|exact L1|congruence].
  - apply (WORDS x F1). rewrite <- (FT x F1 S), (INF T). cbn. auto.
  - apply (WORDS y F2). rewrite <- (FT y F2 T), (INF S). cbn. auto.
  - lia.
Qed.

(** ** Composed groups *)

Theorem composed_once : forall a b, NoDup (map fst (compose_labels a b)) <->
  NoDup (map fst a) /\ NoDup (map fst b) /\ (forall n, In n (map fst a) -> ~ In n (map fst b)).
Proof.
  intros a b. unfold compose_labels. rewrite map_app. split.
  - intros N. apply NoDup_app_inv in N. destruct N as (A & B & C). split; [exact A|]. split; [exact B|]. intros n I J. exact (C n I J).
  - intros (A & B & C). apply NoDup_app_intro; [exact A|exact B|]. intros n I J. exact (C n I J).
Qed.

Theorem composed_apart : forall ryu a1 a2 b1 b2, map fst a1 = map fst a2 -> map fst b1 = map fst b2 ->
  NoDup (map fst (compose_labels a1 b1)) -> labels_apart ryu a1 a2 \/ labels_apart ryu b1 b2 ->
  labels_apart ryu (compose_labels a1 b1) (compose_labels a2 b2).
Proof.
  intros ryu a1 a2 b1 b2 EA EB N H ts us S T P.
  assert (ts = us) as <-.
  { apply same_keys_perm; [| |exact P].
    - rewrite (shows_names _ _ _ S), (shows_names _ _ _ T). unfold compose_labels. rewrite !map_app. congruence.
    - rewrite (shows_names _ _ _ S). exact N. }
  apply shows_app in S. apply shows_app in T. destruct S as (t1 & t2 & -> & S1 & S2). destruct T as (u1 & u2 & E & T1 & T2).
  assert (L : length t1 = length u1).
  { rewrite <- (map_length fst t1), <- (map_length fst u1), (shows_names _ _ _ S1), (shows_names _ _ _ T1), EA. reflexivity. }
  assert (t1 = u1 /\ t2 = u2) as [<- <-].
  { clear - L E. revert u1 L E. induction t1 as [|x t1 IH]; intros [|y u1] L E; try discriminate; [auto|].
    injection E as <- E. injection L as L. destruct (IH u1 L E) as [<- <-]. auto. }
  destruct H as [H|H]; [exact (H _ _ S1 T1 (Permutation_refl _))|exact (H _ _ S2 T2 (Permutation_refl _))].
Qed.

Lemma nth_map_inv : forall {A B} (f : A -> B) l i y, nth_error (map f l) i = Some y -> exists x, nth_error l i = Some x /\ y = f x.
Proof.
  intros A B f. induction l as [|a l IH]; intros [|i] y H; try discriminate; cbn in H; [injection H as <-; exists a; auto|]. exact (IH i y H).
Qed.

Section Groups.
  Variable heck : rename_all -> bytes -> bytes.
  Variable ryu : f64 -> bytes.

  Lemma variant_text : forall e v x t, variant_shown heck e v x -> label_shows ryu x t -> label_shows (fun _ => []) x t.
  Proof. intros e v x t V H. destruct V; exact H. Qed.

  Lemma shown_inj : forall s, enums_apart heck s -> forall g1 a, group_shown heck s g1 a ->
    forall g2 b ts, group_shown heck s g2 b -> labels_show ryu a ts -> labels_show ryu b ts -> g1 = g2.
  Proof.
    intros s A g1 a H.
    assert (V : forall f u v x y t, In f s -> value_shown heck (f_set f) u x -> value_shown heck (f_set f) v y ->
      label_shows ryu x t -> label_shows ryu y t -> u = v).
    { intros f u v x y t I X Y S T. destruct (f_set f) as [e|l|c l] eqn:F.
      - inversion X as [e1 ? ? X'| |]; subst. inversion Y as [e2 ? ? Y'| |]; subst.
        destruct (beqb u v) eqn:B; [now apply beqb_spec|]. exfalso.
        apply (A f e u v x y t I F); [intros ->; rewrite beqb_refl in B; discriminate|exact X'|exact Y'|].
        split; eapply variant_text; eassumption.
      - inversion X; subst. inversion Y; subst. cbn in S, T. congruence.
      - inversion X; subst. inversion Y; subst. cbn in S, T. congruence. }
    clear A. induction H as [|f s n v g x ls R X H IH|f s v g x ls R X H IH]; intros g2 b ts K S T.
    - inversion K; subst. reflexivity.
    - inversion S as [|? p ? ts' [_ P] S']; subst. inversion K; subst; inversion T as [|? p' ? ? [_ P'] T']; subst; cbn [snd] in *.
      + f_equal; [f_equal; eapply (V f); try eassumption; now left|]. eapply IH; try eassumption. intros f0; intros. eapply (V f0); try eassumption. now right.
      + congruence.
    - inversion S as [|? p ? ts' [_ P] S']; subst. inversion K; subst; inversion T as [|? p' ? ? [_ P'] T']; subst; cbn [snd] in *.
      + congruence.
      + f_equal; [f_equal; eapply (V f); try eassumption; now left|]. eapply IH; try eassumption. intros f0; intros. eapply (V f0); try eassumption. now right.
  Qed.

  Theorem groups_apart : forall s g1 g2, wf_group_set s -> NoDup (map field_label s) -> enums_apart heck s ->
    member s g1 -> member s g2 -> g1 <> g2 -> labels_apart ryu (group_visit heck s g1) (group_visit heck s g2).
  Proof.
    intros s g1 g2 W N A M1 M2 NE ts us S T P. apply NE.
    assert (ts = us) as <-.
    { apply same_keys_perm; [| |exact P].
      - rewrite (shows_names _ _ _ S), (shows_names _ _ _ T), !visit_names. reflexivity.
      - rewrite (shows_names _ _ _ S), visit_names. exact N. }
    eapply shown_inj; [exact A|apply (visit_exact heck s g1 W M1); reflexivity|apply (visit_exact heck s g2 W M2); reflexivity|exact S|exact T].
  Qed.

  (** ** Sets that learn new values *)

  Lemma field_ext_visit : forall f f' v, field_ext f f' -> value_visit heck (f_set f') v = value_visit heck (f_set f) v.
  Proof.
    intros f f' v (_ & _ & D & K & _). destruct (is_dynamic (f_set f)) eqn:E; [|now rewrite K].
    destruct (f_set f), (f_set f'); try discriminate; reflexivity.
  Qed.
  Lemma set_ext_visit : forall s s' g, set_ext s s' -> group_visit heck s' g = group_visit heck s g.
  Proof.
    intros s s' g X. unfold group_visit. induction X as [|f f' s s' E X IH]; [reflexivity|]. cbn [map]. rewrite IH. f_equal.
    rewrite (field_ext_visit f f' _ E). destruct E as (E1 & E2 & _). unfold field_label, get_field. rewrite E1, E2. reflexivity.
  Qed.
  Lemma set_ext_labels : forall s s', set_ext s s' -> map field_label s' = map field_label s.
  Proof. intros s s' X. rewrite <- (visit_names heck s' []), <- (visit_names heck s []). now rewrite (set_ext_visit s s' [] X). Qed.
  Lemma set_ext_apart : forall s s', set_ext s s' -> enums_apart heck s -> enums_apart heck s'.
  Proof.
    intros s s' X A f' e u v x y t I E. 
    assert (J : exists f, In f s /\ field_ext f f').
    { clear - X I. induction X as [|f f0 s s' E X IH]; [destruct I|]. destruct I as [<-|I]; [exists f; split; [now left|exact E]|].
      destruct (IH I) as (f1 & J & K). exists f1. split; [now right|exact K]. }
    destruct J as (f & J & (_ & _ & D & K & _)). rewrite E in D. cbn in D. symmetry in D. apply K in D. subst f'.
    exact (A f e u v x y t J E).
  Qed.

  Lemma derived_lawful_from : forall bd s0, lawful (derived_lgset bd) (fun s => sound_set s /\ set_ext s0 s) well_shaped group_valid.
  Proof.
    intros bd s0. pose proof (derived_lawful_sound bd) as L. constructor.
    - apply L.
    - intros s g [OK X] Wt. destruct (law_encode _ _ _ _ L s g OK Wt) as (s' & r & E & OK' & R).
      exists s', r. split; [exact E|]. split; [|exact R]. split; [exact OK'|].
      destruct (group_encode_spec bd s g (sound_ok s OK)) as (s1 & r1 & E1 & X1 & _).
      cbn in E. rewrite E in E1. injection E1 as <- <-. eapply set_ext_trans; eassumption.
    - intros s g s' u [OK _]. now apply L.
    - intros s u [OK _]. now apply L.
    - intros s u c [OK _]. now apply L.
    - intros s i c [OK _]. now apply L.
    - intros s c [OK _]. now apply L.
  Qed.

  Lemma valid_member : forall bd s u g, sound_set s -> group_valid s u -> group_decode bd s u = Done g -> member s g.
  Proof.
    intros bd s u g OK V D. destruct (valid_digits s u (proj1 OK) V) as (g' & ds & Wt & D1 & D2 & E).
    pose proof (group_decode_digits bd s g' ds (snd u) (proj1 OK) Wt D1 D2) as G. rewrite <- E in G. rewrite <- surjective_pairing in G.
    rewrite G in D. injection D as ->. eapply digits_member; [exact (proj1 OK)|exact Wt|exact D1|exact D2].
  Qed.

  (** Everything in a vec belongs to the set as it has become. *)
  Theorem vec_groups : forall bd M (W : world (derived_lgset bd) M), world_ok W ->
    forall p s v ops c os, constructed W p s v -> sound_set s -> @typed_ops (derived_lgset bd) M well_shaped s ops -> exec W (start v) ops = Done (c, os) ->
    exists l, vec_samples (derived_lgset bd) M (w_iter W) (cl_vec c) = Done l /\ NoDup (map fst l) /\
      set_ext s (mv_set (cl_vec c)) /\ sound_set (mv_set (cl_vec c)) /\
      Forall (fun q => member (mv_set (cl_vec c)) (fst q)) l.
  Proof.
    intros bd M W WOK p s v ops c os C OK T E.
    pose proof (derived_lawful_from bd s) as LAW.
    assert (OK' : sound_set s /\ set_ext s s) by (split; [exact OK|apply set_ext_refl]).
    destruct (reached LAW W WOK p s v ops c os C OK' T E) as (a & _ & RL & _).
    pose proof (rel_ok _ _ _ _ _ _ RL) as [SO SE]. pose proof (rel_inner _ _ _ _ _ _ RL) as INV.
    destruct (samples_spec (w_bd W) (w_default W) (w_hash W) (w_visits W) (w_grows W) (w_iter W) (w_geqb W) _ _ _ LAW (wo_geqb W WOK) (wo_visits W WOK) (wo_iter W WOK) (cl_vec c)) as (l & El & I & ND & _).
    { split; assumption. }
    { exact INV. }
    exists l. split; [exact El|]. split; [exact ND|]. split; [exact SE|]. split; [exact SO|].
    apply Forall_forall. intros [g m] J. apply I in J. destruct J as (u & V & D & _). exact (valid_member bd _ u g SO V D).
  Qed.

  Theorem vec_family_ok : forall bd M (W : world (derived_lgset bd) M), world_ok W ->
    forall p s v ops c os, constructed W p s v -> sound_set s -> @typed_ops (derived_lgset bd) M well_shaped s ops -> exec W (start v) ops = Done (c, os) ->
    forall k read, (forall m, metric_kind (read m) = k /\ bounds_apart ryu (read m)) ->
    NoDup (map field_label s) -> enums_apart heck s -> (k = KHistogram -> ~ In (str "le") (map field_label s)) ->
    family_ok ryu (vec_family (derived_lgset bd) M (w_iter W) (group_visit heck s) k read (cl_vec c)).
  Proof.
    intros bd M W WOK p s v ops c os C OK T E k read R N A LE.
    destruct (vec_groups bd M W WOK p s v ops c os C OK T E) as (l & El & ND & SE & SO & F).
    unfold vec_family. rewrite El. cbn [obind family_ok]. split.
    - apply Forall_forall. intros q J. apply in_map_iff in J. destruct J as ([g m] & <- & J). destruct (R m) as [K B].
      unfold sample_ok. cbn [fst snd]. rewrite !visit_names. auto.
    - intros i j q r Q P NE.
      assert (X : forall i q, nth_error (map (fun p0 => (group_visit heck s (fst p0), read (snd p0))) l) i = Some q ->
        exists g m, nth_error l i = Some (g, m) /\ fst q = group_visit heck (mv_set (cl_vec c)) g /\ member (mv_set (cl_vec c)) g).
      { clear - F SE. intros i q Q. apply nth_map_inv in Q. destruct Q as ([g m] & E & ->). exists g, m. split; [exact E|].
        cbn [fst]. rewrite (set_ext_visit _ _ g SE). split; [reflexivity|]. apply nth_error_In in E. rewrite Forall_forall in F. exact (F _ E). }
      destruct (X i q Q) as (g1 & m1 & L1 & E1 & M1). destruct (X j r P) as (g2 & m2 & L2 & E2 & M2).
      assert (NG : g1 <> g2).
      { intros <-. apply NE. eapply NoDup_nth_error; [exact ND| |].
        - rewrite map_length. apply nth_error_Some. now rewrite L1.
        - rewrite (map_nth_error fst _ _ L1), (map_nth_error fst _ _ L2). reflexivity. }
      assert (N' : NoDup (map field_label (mv_set (cl_vec c)))) by now rewrite (set_ext_labels _ _ SE).
      pose proof (groups_apart _ g1 g2 (proj1 SO) N' (set_ext_apart _ _ SE A) M1 M2 NG) as Y.
      rewrite <- E1, <- E2 in Y. exact Y.
  Qed.
End Groups.
