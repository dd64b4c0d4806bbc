From Coq Require Import String List NArith ZArith Bool Permutation.
From Verif Require Import Base BaseFacts Writer NameModel NameSpec NameProofs LabelModel LabelSpec FloatModel EncoderModel TextModel TextSpec
  EncoderSpec EncoderProofs TextExamples TextExampleProofs ScrapeSpec ScrapeProofs ScrapeTheorems ScrapeVec ScrapeExamples
  ProtoModel ProtoSpec ProtoTheorems ProtoExamples ProtoExampleProofs ProtoScrapeSpec.
Import ListNotations.
Local Open Scope N_scope.

Lemma ex_pgroup_names : NoDup (map fst (named_families [] ex_pgroup)).
Proof. apply nodupb_NoDup. reflexivity. Qed.

Lemma ex_pgroup_ok : Forall (fun p => family_ok ex_ryu (snd p)) (named_families [] ex_pgroup).
Proof.
  repeat (apply Forall_cons || apply Forall_nil); cbn [snd family_ok]; try exact I.
  - split.
    + repeat (apply Forall_cons || apply Forall_nil); (split; [reflexivity|]); (split; [apply nodupb_NoDup; reflexivity|]);
        (split; [exact I|discriminate]).
    + assert (A : forall ts us, labels_show ex_ryu (ex_label "x") ts -> labels_show ex_ryu ex_nasty us -> length ts <> length us).
      { intros ts us A B. apply shows_names in A. apply shows_names in B. intros E. apply (f_equal (@length _)) in A, B. rewrite !map_length in A, B. cbn in A, B. congruence. }
      apply two_apart; intros ts us X Y P; apply Permutation_length in P.
      * exact (A _ _ X Y P).
      * exact (A _ _ Y X (eq_sym P)).
  - split; [constructor|]. intros [|i] j p q H; discriminate.
Qed.

Lemma ex_pgroup_valid : Forall event_ok (concat (map rf_events ex_pfamilies)).
Proof.
  assert (V : forall l, forallb valid_metric_nameb l = true -> Forall valid_metric_name l).
  { intros l H. apply Forall_forall. intros n I. rewrite forallb_forall in H. apply valid_metric_nameb_spec. auto. }
  assert (VL : forall ls, forallb (fun l => valid_label_nameb (fst l)) ls = true -> labels_valid ls).
  { intros ls H. apply Forall_forall. intros n I. rewrite forallb_forall in H. apply valid_label_nameb_spec. auto. }
  cbn [ex_pfamilies map rf_events pfam rf_help rf_kind rf_samples concat app fst snd rf_namespaces rf_base].
  repeat match goal with |- Forall event_ok _ => constructor end; cbn [event_ok].
  all: try (apply V; reflexivity).
  all: split; [apply V; reflexivity|].
  all: try (split; intros H; repeat (destruct H as [H|H]; [discriminate|]); destruct H; fail).
  all: split; [apply VL; reflexivity|].
  all: cbn; try reflexivity. split; [discriminate|reflexivity].
Qed.

(** What a protobuf scrape of a group is read as. *)
Definition read_scrape (g : group) : option (list pfamily) :=
  read_stream (w_out (pe_writer (fst (proto_scrapes ex_ryu Debug [g] (proto_new (good_writer [])))))).

Lemma proto_flattened_clash : exists ps, read_scrape ex_flattened = Some ps /\ ~ families_once ps.
Proof.
  eexists. split; [vm_compute; reflexivity|]. intros [_ H]. refine (H 0%nat 1%nat _ _ eq_refl eq_refl _ eq_refl). discriminate.
Qed.
Lemma proto_same_clash : exists ps, read_scrape ex_same = Some ps /\ ~ metrics_once ps.
Proof.
  eexists. split; [vm_compute; reflexivity|]. intros H. refine (H _ 0%nat 1%nat _ _ (or_introl eq_refl) eq_refl eq_refl _ _); [discriminate|].
  apply Permutation_refl.
Qed.
Lemma proto_composed_clash : exists ps, read_scrape ex_composed = Some ps /\ ~ metric_labels_once ps.
Proof.
  eexists. split; [vm_compute; reflexivity|]. intros H. destruct (H _ _ (or_introl eq_refl) (or_introl eq_refl)) as [N _].
  cbn in N. inversion N as [|? ? NI _]. apply NI. cbn. auto 6.
Qed.

(** The text has a sample [open], the protobuf stream shows it as [errors]. *)
Lemma formats_differ : exists items ps,
  parse (w_out (te_writer (fst (collect_group (text_encoder ex_ryu Debug) ex_pmisleading (text_new (good_writer [])))))) = Some items /\
  read_scrape ex_pmisleading = Some ps /\ ~ samples_agree ex_ryu items ps.
Proof.
  eexists. eexists. split; [vm_compute; reflexivity|]. split; [vm_compute; reflexivity|]. intros (blocks & E & F).
  cbn in E. inversion F as [|p b ps bs (NE & n & k & N & _ & S) F']; subst. inversion F'; subst. cbn in E. rewrite app_nil_r in E. subst b.
  injection N as <-. inversion S as [|? ? ? ? (ts & v & H & _) _]; subst. discriminate.
Qed.

Lemma ex_pgroup_agrees : exists items ps,
  parse (w_out (te_writer (fst (collect_group (text_encoder ex_ryu Debug) ex_pgroup (text_new (good_writer [])))))) = Some items /\
  read_scrape ex_pgroup = Some ps /\
  map pf_name ps = [Some (str "errors_total"); Some (str "http_open"); Some (str "load")] /\
  length (filter sample_line items) = 4%nat /\ In (Help (str "errors_total") (str "number of errors")) items /\
  In (Type_ (str "load") (str "gauge")) items /\ In (Type_ (str "unused") (str "gauge")) items.
Proof.
  eexists. eexists. split; [vm_compute; reflexivity|]. split; [vm_compute; reflexivity|].
  split; [reflexivity|]. split; [reflexivity|]. vm_compute. auto 20.
Qed.
