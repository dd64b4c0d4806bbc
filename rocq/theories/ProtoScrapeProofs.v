From Coq Require Import String List NArith ZArith Bool Permutation Lia.
From Verif Require Import Base BaseFacts Writer NameModel NameSpec LabelModel LabelSpec FloatModel FloatOrder EncoderModel TextModel TextSpec
  EncoderSpec EncoderProofs TextTheorems ScrapeSpec ScrapeProofs ScrapeTheorems
  ProtoModel ProtoSpec ProtoProofs ProtoTheorems ProtoErrors ProtoEndSpec ProtoEndTheorems ProtoScrapeSpec.
Import ListNotations.
Local Open Scope N_scope.

(** ** Families of a group by name *)

Definition content_of (r : rfamily) (p : bytes * family) : Prop :=
  full_name (rf_namespaces r) (rf_base r) [] = fst p /\
  exists nss base help, family_content nss base help (snd p) = Some r.

Lemma content_names : forall nss base help f r, family_content nss base help f = Some r ->
  rf_namespaces r = nss /\ rf_base r = base /\ rf_help r = help.
Proof.
  intros nss base help f. induction f as [m|k [l|]|f IH|]; cbn; intros r E; try discriminate; try (injection E as <-; auto).
  now apply IH.
Qed.

Lemma named_content :
  (forall nss g fs, group_families nss g fs -> Forall2 content_of fs (named_families nss g)) /\
  (forall nss g fs, fields_families nss g fs -> Forall2 content_of fs (named_fields nss g)).
Proof.
  apply group_fields_families_ind; intros; cbn; auto using Forall2_app.
  - constructor; [|assumption]. pose proof (content_names _ _ _ _ _ e) as (A & B & _). split; [cbn; now rewrite A, B|cbn; eauto].
  - constructor; [|assumption]. pose proof (content_names _ _ _ _ _ e) as (A & B & _). split; [cbn; now rewrite A, B|cbn; eauto].
Qed.

Lemma help_trimmed :
  (forall nss g fs, group_families nss g fs -> forall r h, In r fs -> rf_help r = Some h -> exists s, trimmed s h) /\
  (forall nss g fs, fields_families nss g fs -> forall r h, In r fs -> rf_help r = Some h -> exists s, trimmed s h).
Proof.
  apply group_fields_families_ind; intros; cbn in *; try contradiction; eauto.
  - apply in_app_iff in H1. destruct H1; eauto.
  - destruct H0 as [<-|I]; [|eauto]. pose proof (content_names _ _ _ _ _ e) as (_ & _ & E). congruence.
  - destruct H0 as [<-|I]; [|eauto]. pose proof (content_names _ _ _ _ _ e) as (_ & _ & E). rewrite E in H1. injection H1 as <-. eauto.
  - apply in_app_iff in H1. destruct H1; eauto.
  - apply in_app_iff in H1. destruct H1; eauto.
Qed.

Lemma content_samples : forall ryu nss base help f r, family_content nss base help f = Some r -> family_ok ryu f ->
  Forall (fun p => NoDup (map fst (fst p))) (rf_samples r) /\
  forall i j p q, nth_error (rf_samples r) i = Some p -> nth_error (rf_samples r) j = Some q -> i <> j ->
    labels_apart ryu (fst p) (fst q).
Proof.
  intros ryu nss base help f. induction f as [m|k [l|]|f IH|]; cbn; intros r E O; try discriminate.
  - injection E as <-. cbn. split; [repeat constructor|]. intros [|i] [|j] p q P Q N; cbn in *; try congruence;
    try (destruct i; discriminate); destruct j; discriminate.
  - injection E as <-. cbn. destruct O as [F A]. split; [|exact A]. eapply Forall_impl; [|exact F]. now intros p (_ & N & _).
  - now apply IH.
  - injection E as <-. cbn. split; [constructor|]. intros [|i] j p q P; discriminate.
Qed.

(** ** One message *)

Definition texts (ls : list label_pair) : list (bytes * bytes) :=
  map (fun l => (match lp_name l with Some n => n | None => [] end, match lp_value l with Some v => v | None => [] end)) ls.

Lemma texts_show : forall ryu ls ps, Forall2 (pair_shows ryu) ls ps -> labels_show ryu ls (texts ps).
Proof.
  intros ryu ls ps F. unfold labels_show, texts. induction F as [|l p ls ps (N & t & V & S) F IH]; cbn; constructor; [|exact IH].
  rewrite N, V. cbn. auto.
Qed.

Lemma pair_names : forall ryu ls ps, Forall2 (pair_shows ryu) ls ps -> map lp_name ps = map Some (map fst ls).
Proof.
  intros ryu ls ps F. induction F as [|l p ls ps (N & _) F IH]; cbn; [reflexivity|]. now rewrite N, IH.
Qed.

Lemma Forall2_nth : forall {A B} (R : A -> B -> Prop) l m i y, Forall2 R l m -> nth_error m i = Some y ->
  exists x, nth_error l i = Some x /\ R x y.
Proof.
  intros A B R l m i y F. revert i. induction F as [|a b l m H F IH]; intros [|i] E; cbn in *; try discriminate.
  - injection E as <-. eauto.
  - eauto.
Qed.
Lemma Forall2_In_r : forall {A B} (R : A -> B -> Prop) l m y, Forall2 R l m -> In y m -> exists x, In x l /\ R x y.
Proof.
  intros A B R l m y F I. apply In_nth_error in I. destruct I as [i I].
  destruct (Forall2_nth R l m i y F I) as (x & X & H). exists x. split; [exact (nth_error_In _ _ X)|exact H].
Qed.

Lemma with_samples_In : forall fs r, In r (with_samples fs) <-> In r fs /\ rf_samples r <> [].
Proof.
  intros fs r. unfold with_samples. rewrite filter_In. split; intros [I H]; (split; [exact I|]); destruct (rf_samples r); congruence.
Qed.

Section Well.
  Variable ryu : f64 -> bytes.
  Variable g : group.
  Variables (fs : list rfamily) (ps : list pfamily).
  Hypothesis G : group_families [] g fs.
  Hypothesis OK : Forall rf_ok fs.
  Hypothesis N : NoDup (map fst (named_families [] g)).
  Hypothesis FO : Forall (fun p => family_ok ryu (snd p)) (named_families [] g).
  Hypothesis S : Forall2 (family_shows ryu (fun z x => x = f_of_Z z)) (with_samples fs) ps.

  Definition rf_name (r : rfamily) : bytes := full_name (rf_namespaces r) (rf_base r) [].

  Lemma rf_names : map rf_name fs = map fst (named_families [] g).
  Proof.
    pose proof (proj1 named_content _ _ _ G) as F. clear - F. induction F as [|r p fs' l [H _] F IH]; cbn; [reflexivity|]. rewrite IH. f_equal. exact H.
  Qed.

  Lemma with_names : NoDup (map rf_name (with_samples fs)).
  Proof.
    pose proof N as N'. rewrite <- rf_names in N'. clear - N'. induction fs as [|r l IH]; cbn; [constructor|].
    cbn in N'. apply NoDup_cons_iff in N'. destruct N' as [I D].
    destruct (rf_samples r); [auto|]. cbn. constructor; [|auto]. intros H. apply I. apply in_map_iff in H.
    destruct H as (x & E & H). apply in_map_iff. exists x. split; [exact E|]. now apply with_samples_In in H.
  Qed.

  Lemma shown_names : map pf_name ps = map Some (map rf_name (with_samples fs)).
  Proof.
    pose proof S as F. clear - F. induction F as [|r p l l' (H & _) F IH]; cbn; [reflexivity|]. rewrite IH, H. reflexivity.
  Qed.

  Lemma well_families : families_once ps.
  Proof.
    split.
    - intros p I. destruct (Forall2_In_r _ _ _ _ S I) as (r & _ & H & _). rewrite H. discriminate.
    - intros i j p q P Q NE E. apply NE. pose proof with_names as D.
      assert (X : nth_error (map rf_name (with_samples fs)) i = nth_error (map rf_name (with_samples fs)) j).
      { destruct (Forall2_nth _ _ _ _ _ S P) as (a & A & (HA & _)). destruct (Forall2_nth _ _ _ _ _ S Q) as (b & B & (HB & _)).
        rewrite (map_nth_error _ _ _ A), (map_nth_error _ _ _ B). unfold rf_name. congruence. }
      assert (L : (i < length (map rf_name (with_samples fs)))%nat).
      { destruct (Forall2_nth _ _ _ _ _ S P) as (a & A & _). rewrite map_length. apply nth_error_Some. congruence. }
      exact (proj1 (NoDup_nth_error _) D i j L X).
  Qed.

  Lemma family_of : forall p, In p ps -> exists r, In r fs /\ rf_samples r <> [] /\ rf_ok r /\
    Forall (fun q => NoDup (map fst (fst q))) (rf_samples r) /\
    (forall i j a b, nth_error (rf_samples r) i = Some a -> nth_error (rf_samples r) j = Some b -> i <> j -> labels_apart ryu (fst a) (fst b)) /\
    family_shows ryu (fun z x => x = f_of_Z z) r p.
  Proof.
    intros p I. destruct (Forall2_In_r _ _ _ _ S I) as (r & R & H). apply with_samples_In in R. destruct R as [R NE].
    pose proof (proj1 named_content _ _ _ G) as F. apply In_nth_error in R. destruct R as [i R].
    assert (exists q, In q (named_families [] g) /\ content_of r q) as (q & Q & C).
    { clear - F R. revert i R. induction F as [|a b l m H F IH]; intros [|i] R; cbn in *; try discriminate.
      - injection R as <-. exists b. auto.
      - destruct (IH i R) as (q & Q & C). exists q. auto. }
    destruct C as (_ & nss & base & help & C).
    assert (O : family_ok ryu (snd q)) by (exact (proj1 (Forall_forall _ _) FO q Q)).
    destruct (content_samples _ _ _ _ _ _ C O) as [A B]. exists r. split; [exact (nth_error_In _ _ R)|]. split; [exact NE|].
    split; [exact (proj1 (Forall_forall _ _) OK r (nth_error_In _ _ R))|]. auto.
  Qed.

  Lemma well_metrics : metrics_once ps.
  Proof.
    intros p i j m m' I M M' NE P. destruct (family_of p I) as (r & _ & _ & _ & _ & A & (_ & _ & _ & F)).
    destruct (Forall2_nth _ _ _ _ _ F M) as (a & HA & (LA & _)). destruct (Forall2_nth _ _ _ _ _ F M') as (b & HB & (LB & _)).
    apply (A i j a b HA HB NE _ _ (texts_show _ _ _ LA) (texts_show _ _ _ LB)). unfold texts. now apply Permutation_map.
  Qed.

  Lemma well_labels : metric_labels_once ps.
  Proof.
    intros p m I M. destruct (family_of p I) as (r & _ & _ & _ & D & _ & (_ & _ & _ & F)).
    destruct (Forall2_In_r _ _ _ _ F M) as (a & HA & (LA & _)). split.
    - rewrite (pair_names _ _ _ LA). apply FinFun.Injective_map_NoDup; [intros x y; congruence|].
      exact (proj1 (Forall_forall _ _) D a HA).
    - clear - LA. induction LA as [|l q ls qs (A & t & B & _) LA IH]; constructor; [|exact IH]. rewrite A, B. split; discriminate.
  Qed.

  Lemma well_values : values_typed ps.
  Proof.
    intros p I. destruct (family_of p I) as (r & _ & NE & O & _ & _ & (_ & _ & T & F)). split.
    - intros E. rewrite E in F. inversion F. congruence.
    - unfold rf_ok in O. destruct (rf_kind r) as [k|]; [|congruence]. destruct O as [NH K]. cbn in T.
      assert (X : forall m, In m (pf_metrics p) -> exists a, metric_kind (snd a) = k /\ sample_shows ryu (fun z x => x = f_of_Z z) a m).
      { intros m M. destruct (Forall2_In_r _ _ _ _ F M) as (a & HA & H). exists a. split; [exact (proj1 (Forall_forall _ _) K a HA)|exact H]. }
      destruct k; try congruence; [left|right|right]; (split; [exact T|]); intros m M;
        destruct (X m M) as ([ls a] & HK & (_ & V)); destruct a; try discriminate; cbn in V.
      + destruct V as (A & x & B & _). eauto.
      + destruct V as (A & x & B & _). eauto.
      + destruct V as (A & B). eauto.
  Qed.
End Well.

Theorem proto_well_formed : forall ryu bd g fs w, group_families [] g fs -> Forall rf_ok fs -> Forall rf_bits_ok fs -> ~ misleading fs ->
  reliable w -> w_out w = [] ->
  NoDup (map fst (named_families [] g)) -> Forall (fun p => family_ok ryu (snd p)) (named_families [] g) ->
  exists s, proto_scrapes ryu bd [g] (proto_new w) = (s, ROk) /\
    (nlen (w_out (pe_writer s)) < 2 ^ 64 ->
     exists ps, read_stream (w_out (pe_writer s)) = Some ps /\
       families_once ps /\ metrics_once ps /\ metric_labels_once ps /\ values_typed ps).
Proof.
  intros ryu bd g fs w G OK B M R W N FO.
  destruct (proto_round_trip ryu bd [g] [fs] w) as (s & E & H); cbn; rewrite ?app_nil_r; auto.
  exists s. split; [exact E|]. intros L. destruct (H L) as (ps & P & F). cbn in F. rewrite app_nil_r in F. exists ps.
  split; [exact P|]. split; [eapply well_families; eassumption|]. split; [eapply well_metrics; eassumption|].
  split; [eapply well_labels; eassumption|eapply well_values; eassumption].
Qed.
