(** Series and headers of a whole scrape (C59, C60). *)
From Coq Require Import String List NArith ZArith Bool Lia Permutation.
From Verif Require Import Base BaseFacts NameModel NameSpec NameProofs LabelModel LabelSpec LabelProofs FloatModel EncoderModel TextModel TextSpec
  Writer EncoderSpec EncoderProofs TextParseProofs TextTheorems DeriveModel DeriveSpec DeriveProofs DeriveGroupProofs ScrapeSpec ScrapeProofs.
Import ListNotations.

(** ** Label texts *)

Lemma same_keys_perm : forall {A} (a b : list (bytes * A)), map fst a = map fst b -> NoDup (map fst a) -> Permutation a b -> a = b.
Proof.
  intros A. induction a as [|[k v] a IH]; intros b E N P.
  - apply Permutation_nil in P. now subst.
  - destruct b as [|[k' v'] b]; [discriminate|]. cbn in E. injection E as <- E. cbn in N. inversion N as [|? ? NI N']; subst.
    assert (I : In (k, v) ((k, v') :: b)) by (eapply Permutation_in; [exact P|now left]).
    destruct I as [I|I].
    + injection I as ->. f_equal. apply IH; [exact E|exact N'|]. eapply Permutation_cons_inv; exact P.
    + exfalso. apply NI. rewrite E. change k with (fst (k, v)). now apply in_map.
Qed.

Lemma le_perm : forall (ts us : list (bytes * bytes)) a b, ~ In (str "le") (map fst ts) -> ~ In (str "le") (map fst us) ->
  Permutation (ts ++ [(str "le", a)]) (us ++ [(str "le", b)]) -> a = b /\ Permutation ts us.
Proof.
  intros ts us a b N1 N2 P.
  assert (I : In (str "le", a) (us ++ [(str "le", b)])).
  { eapply Permutation_in; [exact P|]. apply in_or_app. right. now left. }
  apply in_app_or in I. destruct I as [I|[I|[]]].
  - exfalso. apply N2. change (str "le") with (fst (str "le", a)). now apply in_map.
  - injection I as ->. split; [reflexivity|]. eapply Permutation_app_inv_r. exact P.
Qed.

(** ** Names *)

Lemma full_name_suffix : forall nss base w, full_name nss base [w] = full_name nss base [] ++ str "_" ++ w.
Proof.
  intros. unfold full_name. cbn [app]. replace (nss ++ [base; w]) with ((nss ++ [base]) ++ [w]) by (rewrite <- app_assoc; reflexivity).
  apply join_snoc. destruct nss; discriminate.
Qed.

Lemma suffix_inj : forall nss base a b, full_name nss base [a] = full_name nss base [b] -> a = b.
Proof. intros nss base a b E. rewrite !full_name_suffix in E. apply app_inv_head in E. now apply app_inv_head in E. Qed.

(** Names of sample lines of a metric. *)
Definition line_names (nss : list bytes) (base : bytes) (k : kind) : list bytes :=
  match k with
  | KHistogram => [full_name nss base [str "bucket"]; full_name nss base [str "sum"]; full_name nss base [str "count"]]
  | _ => [full_name nss base []]
  end.

Definition item_name (i : item) : bytes := match i with Sample n _ _ _ => n | _ => [] end.

Lemma line_of_name : forall ryu nss base ls m i, line_of ryu nss base ls m i -> In (item_name i) (line_names nss base (metric_kind m)).
Proof.
  intros ryu nss base ls m i [ts v K S|th bs inf sum k x ts t v -> X S T|ts v K S|ts v K S]; cbn [item_name].
  - destruct (metric_kind m); cbn; auto; try congruence.
  - cbn. auto.
  - rewrite K. cbn. auto.
  - rewrite K. cbn. auto.
Qed.

Lemma reserved_names : forall nss base f k, family_kind f = Some k ->
  reserved (full_name nss base [], f) = line_names nss base k.
Proof.
  intros nss base f k E. unfold reserved, line_names. cbn [fst snd]. rewrite E. destruct k; try reflexivity.
  rewrite !full_name_suffix. reflexivity.
Qed.

(** ** One metric *)

Section Scrape.
  Variable ryu : f64 -> bytes.

  Definition distinct_lines (x y : item) : Prop := ~ same_series x y.
  Lemma distinct_sym : forall x y, distinct_lines x y -> distinct_lines y x.
  Proof.
    intros x y H S. apply H. destruct x, y; try contradiction. cbn in *. destruct S as [-> P]. split; [reflexivity|now apply Permutation_sym].
  Qed.

  Lemma two_samples : forall nss base ls1 ls2 m1 m2 i j, labels_apart ryu ls1 ls2 ->
    metric_kind m1 = metric_kind m2 ->
    (metric_kind m1 = KHistogram -> ~ In (str "le") (map fst ls1) /\ ~ In (str "le") (map fst ls2)) ->
    line_of ryu nss base ls1 m1 i -> line_of ryu nss base ls2 m2 j -> distinct_lines i j.
  Proof.
    intros nss base ls1 ls2 m1 m2 i j A K LE I J C.
    assert (B1 : str "bucket" <> str "sum") by discriminate. assert (B2 : str "bucket" <> str "count") by discriminate.
    assert (B3 : str "sum" <> str "count") by discriminate.
    destruct I as [ts v K1 S|th bs inf sum k x ts t v E X S T|ts v K1 S|ts v K1 S];
      destruct J as [us w K2 S'|th' bs' inf' sum' k' x' us u w E' X' S' T'|us w K2 S'|us w K2 S'];
      destruct C as [N P]; try congruence; try (apply suffix_inj in N; congruence);
      try (subst; cbn in K; congruence).
    - exact (A _ _ S S' P).
    - subst. destruct (LE eq_refl) as [L1 L2]. apply le_perm in P; [|rewrite (shows_names _ _ _ S); assumption|rewrite (shows_names _ _ _ S'); assumption].
      exact (A _ _ S S' (proj2 P)).
    - exact (A _ _ S S' P).
    - exact (A _ _ S S' P).
  Qed.

  Lemma one_metric : forall nss base ls m items, metric_lines ryu nss base ls m items ->
    bounds_apart ryu m -> (metric_kind m = KHistogram -> ~ In (str "le") (map fst ls)) -> pairwise distinct_lines items.
  Proof.
    intros nss base ls m items H B LE. destruct m as [c|z|x|th bs inf sum]; cbn in H.
    1-3: destruct H as (i & -> & _); constructor; [constructor|constructor].
    specialize (LE eq_refl).
    destruct H as (bk & i1 & i2 & i3 & -> & L & BK & I1 & I2 & I3).
    set (bks := bk ++ [i1]).
    assert (F : forall k i, nth_error bks k = Some i -> exists x ts t v, nth_error (th ++ [f_infinity]) k = Some x /\
       i = Sample (full_name nss base [str "bucket"]) (ts ++ [(str "le", t)]) v None /\ labels_show ryu ls ts /\ label_shows ryu (LFloat x) t).
    { intros k i E. unfold bks in E. destruct (Nat.lt_ge_cases k (length bk)) as [Lt|Ge].
      - rewrite nth_error_app1 in E by exact Lt.
        assert (k < length th) as Lt' by (rewrite <- L; exact Lt).
        destruct (nth_error th k) as [x|] eqn:X; [|apply nth_error_None in X; exfalso; exact (proj2 (Nat.nlt_ge _ _) X Lt')].
        destruct (BK k x i X E) as (ts & v & -> & S & _). apply le_shows in S. destruct S as (us & t & -> & S & T).
        exists x, us, t, v. split; [|auto]. rewrite nth_error_app1 by exact Lt'. exact X.
      - rewrite nth_error_app2 in E by exact Ge. destruct (k - length bk) as [|n] eqn:D; [|destruct n; discriminate].
        injection E as <-. destruct I1 as (ts & v & -> & S & _). apply le_shows in S. destruct S as (us & t & -> & S & T).
        exists f_infinity, us, t, v. split; [|auto].
        assert (k = length th) as -> by (rewrite <- L; lia). rewrite nth_error_app2 by lia. rewrite Nat.sub_diag. reflexivity. }
    change (bk ++ [i1; i2; i3]) with (bk ++ ([i1] ++ [i2; i3])). rewrite app_assoc. fold bks.
    destruct I2 as (ts2 & -> & S2). destruct I3 as (ts3 & v3 & -> & S3 & _).
    apply pairwise_app. split; [|split].
    - apply pairwise_nth; [exact distinct_sym|]. intros a b x y X Y NE C.
      destruct (F _ _ X) as (fx & ts & t & v & E & -> & S & T). destruct (F _ _ Y) as (fy & us & u & w & E' & -> & S' & T').
      destruct C as [_ P]. apply le_perm in P; [|rewrite (shows_names _ _ _ S); assumption|rewrite (shows_names _ _ _ S'); assumption].
      destruct P as [<- _]. exact (B a b fx fy E E' NE t T T').
    - constructor; [|constructor; [constructor|constructor]]. constructor; [|constructor].
      intros [N _]. apply suffix_inj in N. discriminate.
    - apply Forall_forall. intros x I. apply In_nth_error in I. destruct I as [k E].
      destruct (F _ _ E) as (fx & ts & t & v & _ & -> & _ & _).
      constructor; [|constructor; [|constructor]]; intros [N _]; apply suffix_inj in N; discriminate.
  Qed.

  (** ** Events *)

  Lemma concat_pairwise : forall (R : item -> item -> Prop) evs parts, Forall2 (event_lines ryu) evs parts ->
    (forall ev p, In ev evs -> event_lines ryu ev p -> pairwise R p) ->
    pairwise (fun e1 e2 => forall p1 p2, event_lines ryu e1 p1 -> event_lines ryu e2 p2 -> Forall (fun x => Forall (R x) p2) p1) evs ->
    pairwise R (concat parts).
  Proof.
    intros R evs parts F. induction F as [|e p evs parts L F IH]; intros O P; cbn [concat]; [constructor|].
    inversion P as [|? ? PF P']; subst. apply pairwise_app. split; [|split].
    - eapply O; [now left|exact L].
    - apply IH; [|exact P']. intros ev q I. apply O. now right.
    - apply Forall_forall. intros x I. apply Forall_forall. intros y J. apply in_concat in J. destruct J as (q & Q & J).
      assert (X : exists ev, In ev evs /\ event_lines ryu ev q).
      { clear - F Q. induction F as [|e' q' evs parts L F IH]; [destruct Q|]. destruct Q as [->|Q]; [exists e'; split; [now left|exact L]|].
        destruct (IH Q) as (ev & A & B). exists ev. split; [now right|exact B]. }
      destruct X as (ev & A & B). rewrite Forall_forall in PF. specialize (PF ev A p q L B).
      rewrite Forall_forall in PF. specialize (PF x I). rewrite Forall_forall in PF. auto.
  Qed.

  Definition sample_names (e : event) : list bytes :=
    match e with EvSample nss base _ m => line_names nss base (metric_kind m) | _ => [] end.
  Definition no_common {A} (a b : list A) : Prop := forall x, In x a -> In x b -> False.
  Definition ev_apart (e1 e2 : event) : Prop :=
    forall p1 p2, event_lines ryu e1 p1 -> event_lines ryu e2 p2 -> Forall (fun x => Forall (distinct_lines x) p2) p1.

  Lemma event_line_names : forall e p x, event_lines ryu e p -> In x p -> is_sample x -> In (item_name x) (sample_names e).
  Proof.
    intros e p x L I S. destruct e as [nss base h|nss base k|nss base ls m|]; cbn in L.
    - subst p. destruct I as [<-|[]]. destruct S.
    - subst p. destruct I as [<-|[]]. destruct S.
    - apply metric_lines_of in L. rewrite Forall_forall in L. cbn [sample_names]. eapply line_of_name. now apply L.
    - destruct L.
  Qed.

  Lemma apart_by_names : forall e1 e2, no_common (sample_names e1) (sample_names e2) -> ev_apart e1 e2.
  Proof.
    intros e1 e2 N p1 p2 L1 L2. apply Forall_forall. intros x I. apply Forall_forall. intros y J C.
    destruct x as [| | | |n1 l1 v1 t1]; try contradiction. destruct y as [| | | |n2 l2 v2 t2]; try contradiction. destruct C as [-> _].
    apply (N n2); [exact (event_line_names _ _ _ L1 I Logic.I)|exact (event_line_names _ _ _ L2 J Logic.I)].
  Qed.

  (** What is kept up through the groups. *)
  Definition evs_ok (fams : list (bytes * family)) (evs : list event) : Prop :=
    pairwise ev_apart evs /\
    (forall e p, In e evs -> event_lines ryu e p -> pairwise distinct_lines p) /\
    (forall e n, In e evs -> In n (sample_names e) -> In n (flat_map reserved fams)).

  Lemma NoDup_app_inv : forall {A} (a b : list A), NoDup (a ++ b) -> NoDup a /\ NoDup b /\ no_common a b.
  Proof.
    induction a as [|x a IH]; intros b N; cbn in N; [split; [constructor|split; [exact N|intros ? []]]|].
    inversion N as [|? ? NI N']; subst. destruct (IH b N') as (A1 & A2 & A3). split; [|split; [exact A2|]].
    - constructor; [|exact A1]. intros I. apply NI. apply in_or_app. now left.
    - intros y [<-|I] J; [apply NI, in_or_app; now right|exact (A3 y I J)].
  Qed.

  Lemma NoDup_app_intro : forall {A} (a b : list A), NoDup a -> NoDup b -> no_common a b -> NoDup (a ++ b).
  Proof.
    induction a as [|x a IH]; intros b N M C; [exact M|]. inversion N as [|? ? NI N']; subst. cbn. constructor.
    - intros I. apply in_app_or in I. destruct I as [I|I]; [contradiction|]. apply (C x); [now left|exact I].
    - apply IH; [exact N'|exact M|]. intros y I J. apply (C y); [now right|exact J].
  Qed.

  Lemma evs_ok_app : forall fa fb ea eb, NoDup (flat_map reserved (fa ++ fb)) -> evs_ok fa ea -> evs_ok fb eb ->
    evs_ok (fa ++ fb) (ea ++ eb).
  Proof.
    intros fa fb ea eb N (A1 & A2 & A3) (B1 & B2 & B3). rewrite flat_map_app in N. apply NoDup_app_inv in N.
    destruct N as (_ & _ & NC). split; [|split].
    - apply pairwise_app. split; [exact A1|]. split; [exact B1|]. apply Forall_forall. intros x I. apply Forall_forall. intros y J.
      apply apart_by_names. intros n X Y. exact (NC n (A3 x n I X) (B3 y n J Y)).
    - intros e p I. apply in_app_or in I. destruct I as [I|I]; [now apply A2|now apply B2].
    - intros e n I X. rewrite flat_map_app. apply in_or_app. apply in_app_or in I. destruct I as [I|I]; [left; now apply (A3 e)|right; now apply (B3 e)].
  Qed.

  Lemma header_evs : forall fams e, (forall p, event_lines ryu e p -> Forall (fun i => ~ is_sample i) p) -> sample_names e = [] ->
    (forall p, event_lines ryu e p -> length p <= 1) -> evs_ok fams [e].
  Proof.
    intros fams e H N L. split; [constructor; [constructor|constructor]|split].
    - intros e' p [<-|[]] P. specialize (L p P). destruct p as [|x [|y p]]; [constructor|constructor; [constructor|constructor]|cbn in L; lia].
    - intros e' n [<-|[]] I. rewrite N in I. destruct I.
  Qed.
  Lemma help_ok : forall fams nss base h, evs_ok fams [EvHelp nss base h].
  Proof. intros. apply header_evs; [|reflexivity|]; cbn; intros p ->; [constructor; [exact (fun x => x)|constructor]|cbn; lia]. Qed.
  Lemma type_ok : forall fams nss base k, evs_ok fams [EvType nss base k].
  Proof. intros. apply header_evs; [|reflexivity|]; cbn; intros p ->; [constructor; [exact (fun x => x)|constructor]|cbn; lia]. Qed.

  (** Headers never clash with samples. *)
  Lemma evs_ok_cons : forall fams e evs, evs_ok fams [e] -> sample_names e = [] -> evs_ok fams evs -> evs_ok fams (e :: evs).
  Proof.
    intros fams e evs (A1 & A2 & A3) N (B1 & B2 & B3). split; [|split].
    - constructor; [|exact B1]. apply Forall_forall. intros y J. apply apart_by_names. rewrite N. intros n [].
    - intros e' p [<-|I]; [now apply A2; left|now apply B2].
    - intros e' n [<-|I]; [now apply A3; left|now apply B3].
  Qed.

  Lemma samples_evs : forall nss base k l fams, Forall (sample_ok ryu k) l ->
    (forall i j p q, nth_error l i = Some p -> nth_error l j = Some q -> i <> j -> labels_apart ryu (fst p) (fst q)) ->
    (forall n, In n (line_names nss base k) -> In n (flat_map reserved fams)) ->
    evs_ok fams (map (fun p => EvSample nss base (fst p) (snd p)) l).
  Proof.
    intros nss base k l fams O A R. rewrite Forall_forall in O. split; [|split].
    - apply pairwise_map. induction l as [|p l IH]; [constructor|]. constructor.
      + apply Forall_forall. intros q J p1 p2 L1 L2. cbn in L1, L2. apply metric_lines_of in L1. apply metric_lines_of in L2.
        rewrite Forall_forall in L1, L2. apply Forall_forall. intros x X. apply Forall_forall. intros y Y.
        destruct (O p (or_introl eq_refl)) as (K1 & _ & _ & LE1). destruct (O q (or_intror J)) as (K2 & _ & _ & LE2).
        apply In_nth_error in J. destruct J as [j J].
        eapply (two_samples nss base (fst p) (fst q) (snd p) (snd q)).
        * apply (A 0 (S j) p q); [reflexivity|exact J|discriminate].
        * congruence.
        * intros KH. split; [apply LE1|apply LE2]; congruence.
        * auto.
        * auto.
      + apply IH; [intros q J; apply O; now right|]. intros i j q r X Y NE. apply (A (S i) (S j)); auto.
    - intros e p I L. apply in_map_iff in I. destruct I as (q & <- & I). cbn in L. destruct (O q I) as (K & _ & B & LE).
      eapply one_metric; [exact L|exact B|]. intros KH. apply LE. congruence.
    - intros e n I X. apply in_map_iff in I. destruct I as (q & <- & I). cbn in X. destruct (O q I) as (K & _). rewrite K in X. auto.
  Qed.

  Lemma family_evs : forall f nss base, family_ok ryu f -> ~ In EvPanic (family_events nss base f) ->
    evs_ok [(full_name nss base [], f)] (family_events nss base f).
  Proof.
    intros f nss base. assert (E : forall n, In n (flat_map reserved [(full_name nss base [], f)]) <-> In n (reserved (full_name nss base [], f)))
      by (intros n; cbn [flat_map]; rewrite app_nil_r; tauto).
    assert (G : forall f', family_kind f' = family_kind f -> family_ok ryu f' -> ~ In EvPanic (family_events nss base f') ->
      evs_ok [(full_name nss base [], f)] (family_events nss base f')).
    2: intros; now apply G.
    induction f' as [m|k [l|]|f' IH|]; intros K O NP.
    - cbn. apply evs_ok_cons; [apply type_ok|reflexivity|].
      change [EvSample nss base [] m] with (map (fun p : labels * metric => EvSample nss base (fst p) (snd p)) [([], m)]).
      apply (samples_evs nss base (metric_kind m)).
      + constructor; [|constructor]. split; [reflexivity|]. split; [constructor|]. split; [exact O|]. intros _ [].
      + intros [|[|i]] [|[|j]] p q X Y NE; cbn in X, Y; try discriminate; congruence.
      + intros n I. apply E. erewrite reserved_names by (symmetry; exact K). exact I.
    - cbn. apply evs_ok_cons; [apply type_ok|reflexivity|]. destruct O as [O1 O2]. apply (samples_evs nss base k); [exact O1|exact O2|].
      intros n I. apply E. erewrite reserved_names by (symmetry; exact K). exact I.
    - exfalso. apply NP. cbn. auto.
    - cbn in *. auto.
    - cbn. split; [constructor|split]; intros ? ? [].
  Qed.

  Lemma not_in_app : forall {A} (x : A) a b, ~ In x (a ++ b) -> ~ In x a /\ ~ In x b.
  Proof. intros A x a b H. split; intros I; apply H, in_or_app; auto. Qed.

  Definition fams_ok (fams : list (bytes * family)) : Prop :=
    Forall (fun p => family_ok ryu (snd p)) fams /\ NoDup (flat_map reserved fams).
  Lemma fams_ok_app : forall a b, fams_ok (a ++ b) -> fams_ok a /\ fams_ok b.
  Proof.
    intros a b [F N]. apply Forall_app in F. destruct F. rewrite flat_map_app in N. apply NoDup_app_inv in N.
    destruct N as (N1 & N2 & _). split; split; assumption.
  Qed.

  Lemma group_evs :
    (forall nss g evs, group_events nss g evs -> fams_ok (named_families nss g) -> ~ In EvPanic evs -> evs_ok (named_families nss g) evs) /\
    (forall nss fs evs, fields_events nss fs evs -> fams_ok (named_fields nss fs) -> ~ In EvPanic evs -> evs_ok (named_fields nss fs) evs).
  Proof.
    apply group_fields_events_ind; cbn [named_families named_fields]; auto.
    - intros nss a b la lb _ IHa _ IHb O NP. apply not_in_app in NP. destruct (fams_ok_app _ _ O) as [Oa Ob].
      apply evs_ok_app; [exact (proj2 O)|apply IHa; tauto|apply IHb; tauto].
    - intros nss O NP. split; [constructor|split]; intros ? ? [].
    - intros nss O NP. split; [constructor|split]; intros ? ? [].
    - intros nss name rename f rest l _ IH O NP. apply not_in_app in NP.
      set (base := match rename with Some r => r | None => name end) in *.
      change ((full_name nss base [], f) :: named_fields nss rest) with ([(full_name nss base [], f)] ++ named_fields nss rest) in *.
      destruct (fams_ok_app _ _ O) as [Oa Ob]. apply evs_ok_app; [exact (proj2 O)| |apply IH; tauto].
      apply family_evs; [|tauto]. destruct Oa as [F _]. now inversion F.
    - intros nss name rename docs help f rest l _ _ _ IH O NP.
      set (base := match rename with Some r => r | None => name end) in *.
      assert (NP' : ~ In EvPanic (family_events nss base f ++ l)) by (intros I; apply NP; now right). apply not_in_app in NP'.
      apply evs_ok_cons; [apply help_ok|reflexivity|].
      change ((full_name nss base [], f) :: named_fields nss rest) with ([(full_name nss base [], f)] ++ named_fields nss rest) in *.
      destruct (fams_ok_app _ _ O) as [Oa Ob]. apply evs_ok_app; [exact (proj2 O)| |apply IH; tauto].
      apply family_evs; [|tauto]. destruct Oa as [F _]. now inversion F.
    - intros nss g rest lg l _ IHa _ IHb O NP. apply not_in_app in NP. destruct (fams_ok_app _ _ O) as [Oa Ob].
      apply evs_ok_app; [exact (proj2 O)|apply IHa; tauto|apply IHb; tauto].
    - intros nss ns g rest lg l _ _ IHa _ IHb O NP. apply not_in_app in NP. destruct (fams_ok_app _ _ O) as [Oa Ob].
      apply evs_ok_app; [exact (proj2 O)|apply IHa; tauto|apply IHb; tauto].
    - intros nss ns g rest _ O NP. exfalso. apply NP. now left.
  Qed.

  (** Every sample comes from a family that is all right. *)
  Definition sample_labels_ok (e : event) : Prop :=
    match e with
    | EvSample _ _ ls m => NoDup (map fst ls) /\ (metric_kind m = KHistogram -> ~ In (str "le") (map fst ls))
    | _ => True
    end.

  Lemma family_labels : forall f nss base, family_ok ryu f -> Forall sample_labels_ok (family_events nss base f).
  Proof.
    induction f as [m|k [l|]|f IH|]; intros nss base O; cbn [family_events].
    - constructor; [exact I|]. constructor; [|constructor]. split; [constructor|]. intros _ [].
    - constructor; [exact I|]. destruct O as [O _]. apply Forall_map. eapply Forall_impl; [|exact O].
      intros p (K & N & _ & LE). split; [exact N|]. intros KH. apply LE. congruence.
    - repeat (constructor; [exact I|]). constructor.
    - now apply IH.
    - constructor.
  Qed.

  Lemma group_labels :
    (forall nss g evs, group_events nss g evs -> Forall (fun p => family_ok ryu (snd p)) (named_families nss g) -> Forall sample_labels_ok evs) /\
    (forall nss fs evs, fields_events nss fs evs -> Forall (fun p => family_ok ryu (snd p)) (named_fields nss fs) -> Forall sample_labels_ok evs).
  Proof.
    apply group_fields_events_ind; cbn [named_families named_fields]; intros; auto;
      repeat match goal with
      | H : Forall _ (_ ++ _) |- _ => apply Forall_app in H; destruct H
      | H : Forall _ (_ :: _) |- _ => inversion H; subst; clear H
      end; try (apply Forall_app; split); auto using family_labels.
    - constructor; [exact I|]. apply Forall_app. split; auto using family_labels.
    - constructor; [exact I|]. constructor.
  Qed.

  Lemma exposed_no_panic : forall evs parts, Forall2 (event_lines ryu) evs parts -> ~ In EvPanic evs.
  Proof. intros evs parts F. induction F as [|e p evs parts L F IH]; [intros []|]. intros [->|I]; [exact L|auto]. Qed.

  Theorem series_once : forall g evs items, group_events [] g evs -> exposes ryu evs items ->
    NoDup (flat_map reserved (named_families [] g)) -> Forall (fun p => family_ok ryu (snd p)) (named_families [] g) ->
    no_repeated_series items.
  Proof.
    intros g evs items G (parts & F & E) N O.
    assert (K : evs_ok (named_families [] g) evs) by (apply (proj1 group_evs); [exact G|split; assumption|eapply exposed_no_panic; exact F]).
    destruct K as (A & B & _).
    assert (P : pairwise distinct_lines items).
    { apply pairwise_filter with (p := meaningful).
      - intros x y H C. destruct x, y; cbn in *; try contradiction. destruct H; discriminate.
      - rewrite E. apply (concat_pairwise distinct_lines evs parts F B A). }
    intros i j x y X Y NE. revert i j x y X Y NE. exact (proj1 (pairwise_nth distinct_lines items distinct_sym) P).
  Qed.

  (** ** Headers *)

  Definition ev_headers (e : event) : list (bool * bytes) :=
    match e with
    | EvHelp nss base _ => [(true, full_name nss base [])]
    | EvType nss base _ => [(false, full_name nss base [])]
    | _ => []
    end.
  Definition item_headers (i : item) : list (bool * bytes) :=
    match i with Help n _ => [(true, n)] | Type_ n _ => [(false, n)] | _ => [] end.

  Lemma event_headers : forall e p, event_lines ryu e p -> flat_map item_headers p = ev_headers e.
  Proof.
    intros [nss base h|nss base k|nss base ls m|] p L; cbn in L; try (subst p; reflexivity); try contradiction.
    apply metric_lines_of in L. cbn. induction L as [|i p H L IH]; [reflexivity|]. cbn. rewrite IH. now destruct H.
  Qed.

  Lemma headers_concat : forall evs parts, Forall2 (event_lines ryu) evs parts ->
    flat_map item_headers (concat parts) = flat_map ev_headers evs.
  Proof.
    induction 1 as [|e p evs parts L F IH]; [reflexivity|]. cbn. rewrite flat_map_app, IH. f_equal. now apply event_headers.
  Qed.

  Lemma headers_filter : forall items, flat_map item_headers (filter meaningful items) = flat_map item_headers items.
  Proof. induction items as [|[] items IH]; cbn; rewrite ?IH; reflexivity. Qed.

  Lemma headers_once_of : forall items, NoDup (flat_map item_headers items) -> headers_once items.
  Proof.
    intros items N. assert (P : pairwise (fun x y => ~ same_header x y) items).
    { induction items as [|x items IH]; [constructor|]. cbn in N. apply NoDup_app_inv in N. destruct N as (_ & N & C).
      constructor; [|auto]. apply Forall_forall. intros y I S.
      assert (IN : forall h, In h (item_headers y) -> In h (flat_map item_headers items)) by (intros h J; apply in_flat_map; eauto).
      destruct x, y; try contradiction; cbn in S; subst; eapply C; try (now left); apply IN; now left. }
    intros i j x y X Y NE. revert i j x y X Y NE. apply pairwise_nth; [|exact P].
    intros x y H S. apply H. destruct x, y; try contradiction; cbn in *; congruence.
  Qed.

  Lemma family_headers : forall f nss base, flat_map ev_headers (family_events nss base f) = [] \/
    flat_map ev_headers (family_events nss base f) = [(false, full_name nss base [])].
  Proof.
    induction f as [m|k [l|]|f IH|]; intros nss base; cbn; auto. right. f_equal.
    induction l as [|p l IH]; [reflexivity|exact IH].
  Qed.

  Lemma group_headers :
    (forall nss g evs, group_events nss g evs -> NoDup (map fst (named_families nss g)) ->
       NoDup (flat_map ev_headers evs) /\ incl (map snd (flat_map ev_headers evs)) (map fst (named_families nss g))) /\
    (forall nss fs evs, fields_events nss fs evs -> NoDup (map fst (named_fields nss fs)) ->
       NoDup (flat_map ev_headers evs) /\ incl (map snd (flat_map ev_headers evs)) (map fst (named_fields nss fs))).
  Proof.
    assert (APP : forall (fa fb : list (bytes * family)) ea eb, NoDup (map fst (fa ++ fb)) ->
      (NoDup (map fst fa) -> NoDup (flat_map ev_headers ea) /\ incl (map snd (flat_map ev_headers ea)) (map fst fa)) ->
      (NoDup (map fst fb) -> NoDup (flat_map ev_headers eb) /\ incl (map snd (flat_map ev_headers eb)) (map fst fb)) ->
      NoDup (flat_map ev_headers (ea ++ eb)) /\ incl (map snd (flat_map ev_headers (ea ++ eb))) (map fst (fa ++ fb))).
    { intros fa fb ea eb N A B. rewrite map_app in N. apply NoDup_app_inv in N. destruct N as (Na & Nb & C).
      destruct (A Na) as [A1 A2]. destruct (B Nb) as [B1 B2]. rewrite flat_map_app, !map_app. split.
      - clear - A1 B1 A2 B2 C. induction (flat_map ev_headers ea) as [|h l IH]; [exact B1|]. cbn. inversion A1; subst. constructor.
        + intros I. apply in_app_or in I. destruct I as [I|I]; [contradiction|].
          apply (C (snd h)); [apply A2; now left|apply B2; now apply in_map].
        + apply IH; [assumption|]. intros x I. apply A2. now right.
      - apply incl_app; [now apply incl_appl|now apply incl_appr]. }
    assert (FAM : forall nss base f docs, docs = [] \/ (exists h, docs = [EvHelp nss base h]) -> NoDup (map fst [(full_name nss base [], f)]) ->
      NoDup (flat_map ev_headers (docs ++ family_events nss base f)) /\
      incl (map snd (flat_map ev_headers (docs ++ family_events nss base f))) (map fst [(full_name nss base [], f)])).
    { intros nss base f docs D _. rewrite flat_map_app. destruct (family_headers f nss base) as [->| ->]; destruct D as [->|[h ->]]; cbn.
      - split; [constructor|intros x []].
      - split; [constructor; [intros []|constructor]|]. intros x [<-|[]]. now left.
      - split; [constructor; [intros []|constructor]|]. intros x [<-|[]]. now left.
      - split; [constructor; [|constructor; [intros []|constructor]]|].
        + intros [X|[]]. discriminate.
        + intros x [<-|[<-|[]]]; now left. }
    apply group_fields_events_ind; cbn [named_families named_fields]; auto.
    - intros nss N. split; [constructor|intros x []].
    - intros nss N. split; [constructor|intros x []].
    - intros nss name rename f rest l _ IH N. set (base := match rename with Some r => r | None => name end) in *.
      apply (APP [(full_name nss base [], f)] (named_fields nss rest)); [exact N| |exact IH].
      intros K. apply (FAM nss base f []); auto.
    - intros nss name rename docs help f rest l _ _ _ IH N. set (base := match rename with Some r => r | None => name end) in *.
      apply (APP [(full_name nss base [], f)] (named_fields nss rest) ([EvHelp nss base help] ++ family_events nss base f) l); [exact N| |exact IH].
      intros K. apply (FAM nss base f); eauto.
    - intros nss ns g rest _ N. cbn. split; [constructor|intros x []].
  Qed.

  Theorem scraped_headers_once : forall g evs items, group_events [] g evs -> exposes ryu evs items ->
    NoDup (map fst (named_families [] g)) -> headers_once items.
  Proof.
    intros g evs items G (parts & F & E) N. apply headers_once_of. rewrite <- headers_filter, E, (headers_concat _ _ F).
    now apply (proj1 group_headers _ _ _ G).
  Qed.

  Theorem group_labels_once : forall g evs items, group_events [] g evs -> exposes ryu evs items ->
    Forall (fun p => family_ok ryu (snd p)) (named_families [] g) -> labels_once items.
  Proof.
    intros g evs items G E O. eapply scraped_labels_once; [exact E|]. intros nss base ls m I.
    pose proof (proj1 group_labels _ _ _ G O) as F. rewrite Forall_forall in F. exact (F _ I).
  Qed.
End Scrape.

(** ** From the group to the text *)

Theorem scrape_well_formed : forall ryu bd g evs w, float_text_ok ryu -> group_events [] g evs -> Forall event_ok evs ->
  reliable w -> names_apart g -> Forall (fun p => family_ok ryu (snd p)) (named_families [] g) ->
  exists s out items, collect_group (text_encoder ryu bd) g (text_new w) = (s, ROk) /\
    w_out (te_writer s) = w_out w ++ out /\ parse out = Some items /\
    no_repeated_series items /\ headers_once items /\ labels_once items.
Proof.
  intros ryu bd g evs w RY GE F R [N1 N2] O.
  destruct (text_round_trip ryu bd g evs w RY GE F R) as (s & out & items & E & O' & P & X & _).
  exists s, out, items. split; [exact E|]. split; [exact O'|]. split; [exact P|]. split; [|split].
  - eapply series_once; eassumption.
  - eapply scraped_headers_once; eassumption.
  - eapply group_labels_once; eassumption.
Qed.

(** ** Names that do not clash *)

Lemma reserved_iff : forall fams, NoDup (map fst fams) ->
  (NoDup (flat_map reserved fams) <-> suffixes_free fams).
Proof.
  assert (A1 : forall a b, a ++ str "_bucket" = b ++ str "_sum" -> False).
  { intros a b E. apply (f_equal (@rev N)) in E. rewrite !rev_app_distr in E. discriminate. }
  assert (A2 : forall a b, a ++ str "_bucket" = b ++ str "_count" -> False).
  { intros a b E. apply (f_equal (@rev N)) in E. rewrite !rev_app_distr in E. discriminate. }
  assert (A3 : forall a b, a ++ str "_sum" = b ++ str "_count" -> False).
  { intros a b E. apply (f_equal (@rev N)) in E. rewrite !rev_app_distr in E. discriminate. }
  assert (OWN : forall p, NoDup (reserved p)).
  { intros [n f]. unfold reserved. cbn [fst snd]. destruct (family_kind f) as [[]|]; repeat constructor; cbn; try tauto.
    - intros [E|[E|[]]]; apply app_inv_head in E; discriminate.
    - intros [E|[]]; apply app_inv_head in E; discriminate. }
  assert (SUF : forall p n, In n (reserved p) <->
    (exists k, family_kind (snd p) = Some k /\ k <> KHistogram /\ n = fst p) \/
    (family_kind (snd p) = Some KHistogram /\ exists w, In w histogram_suffixes /\ n = fst p ++ str "_" ++ w)).
  { intros [m f] n. unfold reserved. cbn [fst snd]. split.
    - destruct (family_kind f) as [[]|]; cbn; intros H; try tauto.
      1-3: destruct H as [<-|[]]; left; eexists; split; [reflexivity|split; [discriminate|reflexivity]].
      right. split; [reflexivity|]. destruct H as [<-|[<-|[<-|[]]]];
        [exists (str "bucket")|exists (str "sum")|exists (str "count")]; (split; [cbn; tauto|reflexivity]).
    - intros [(k & -> & K & ->)|(-> & w & W & ->)]; [destruct k; cbn; tauto|].
      destruct W as [<-|[<-|[<-|[]]]]; cbn; tauto. }
  assert (HH : forall a b w x, In w histogram_suffixes -> In x histogram_suffixes -> a ++ str "_" ++ w = b ++ str "_" ++ x -> a = b).
  { intros a b w x W X E. destruct W as [<-|[<-|[<-|[]]]], X as [<-|[<-|[<-|[]]]]; cbn [app] in E;
      try (now apply app_inv_tail in E); exfalso;
      first [exact (A1 _ _ E)|exact (A2 _ _ E)|exact (A3 _ _ E)|symmetry in E; first [exact (A1 _ _ E)|exact (A2 _ _ E)|exact (A3 _ _ E)]]. }
  intros fams. induction fams as [|p fams IH]; intros N; cbn [flat_map]; [split; [intros _ p q []|constructor]|].
  cbn in N. inversion N as [|? ? NI N']; subst. split.
  - intros D. apply NoDup_app_inv in D. destruct D as (_ & D & C). apply IH in D; [|exact N'].
    assert (CL : forall a b k w, In w histogram_suffixes -> family_kind (snd a) = Some KHistogram -> family_kind (snd b) = Some k -> k <> KHistogram ->
      fst b = fst a ++ str "_" ++ w -> In (fst b) (reserved a) /\ In (fst b) (reserved b)).
    { intros a b k w W A B K E. split; apply SUF; [right; eauto|left; eauto]. }
    intros a b [<-|I] [<-|J] A k w B K W E.
    + congruence.
    + destruct (CL p b k w W A B K E). apply (C (fst b)); [assumption|]. apply in_flat_map. eauto.
    + destruct (CL a p k w W A B K E). apply (C (fst p)); [assumption|]. apply in_flat_map. eauto.
    + exact (D a b I J A k w B K W E).
  - intros S. apply NoDup_app_intro; [apply OWN| |].
    + apply IH; [exact N'|]. intros a b I J. apply S; now right.
    + intros n I J. apply in_flat_map in J. destruct J as (q & Q & J). apply SUF in I. apply SUF in J.
      assert (NE : fst p = fst q -> False) by (intros E; apply NI; rewrite E; now apply in_map).
      destruct I as [(k & K & NH & ->)|(K & w & W & ->)], J as [(k' & K' & NH' & E)|(K' & w' & W' & E)].
      * auto.
      * exact (S q p (or_intror Q) (or_introl eq_refl) K' k w' K NH W' E).
      * symmetry in E. exact (S p q (or_introl eq_refl) (or_intror Q) K k' w K' NH' W E).
      * apply NE. exact (HH _ _ _ _ W W' E).
Qed.

Theorem names_apart_iff : forall g, names_apart g <->
  NoDup (map fst (named_families [] g)) /\ suffixes_free (named_families [] g).
Proof. intros g. unfold names_apart. split; intros [N H]; (split; [exact N|]); now apply (reserved_iff _ N). Qed.

(** A struct without subgroups. *)
Lemma flat_names : forall fs, flat fs -> map fst (named_fields [] fs) = field_names fs.
Proof. induction fs as [|name rename docs f fs IH|g fs|ns g fs]; cbn; intros F; try contradiction; [reflexivity|]. rewrite IH by exact F. reflexivity. Qed.

Lemma struct_names : forall lc fs, struct_of lc = Some fs -> field_names fs = mfield_names (map fst lc).
Proof.
  induction lc as [|[f c] lc IH]; intros fs E; cbn in E; [injection E as <-; reflexivity|].
  destruct (struct_of lc) as [r|]; [|discriminate]. cbn [map fst mfield_names]. specialize (IH r eq_refl).
  destruct (mf_kind (mg_attrs f)) as [rename|[ns|]], c as [fam|g]; try discriminate; injection E as <-; cbn; rewrite IH; try reflexivity.
Qed.

Theorem derived_flat_apart : forall shouty ident_ok attrs d lc new fs,
  derive_metric_group shouty ident_ok attrs d = Some (map fst lc, new) -> struct_of lc = Some fs -> flat fs ->
  suffixes_free (named_fields [] fs) -> names_apart (GStruct fs).
Proof.
  intros sh io attrs d lc new fs D ST F S. apply names_apart_iff. cbn [named_families]. split; [|exact S].
  rewrite (flat_names fs F), (struct_names _ _ ST). exact (proj1 (derived_metric_names _ _ _ _ _ _ D)).
Qed.
