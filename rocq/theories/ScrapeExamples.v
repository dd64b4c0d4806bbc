(** Scrapes used in the examples of [P_Scrape]. *)
From Coq Require Import String List NArith ZArith Bool Lia Permutation.
From Verif Require Import Base BaseFacts Writer NameModel NameSpec NameProofs LabelModel LabelSpec LabelProofs FloatModel EncoderModel FamilyModel
  TextModel TextSpec EncoderSpec TrimProofs EncoderProofs TextParseProofs TextTheorems TextExamples VecModel VecSpec VecTheorems
  DeriveModel DeriveSpec DeriveExamples ScrapeSpec ScrapeProofs ScrapeTheorems ScrapeVec.
Import ListNotations.
Local Open Scope N_scope.

(** ASCII case conversion of single words. *)
Definition ex_heck (r : rename_all) (s : bytes) : bytes :=
  map (fun b => if (65 <=? b) && (b <=? 90) then b + 32 else b) s.

(** The set of [ex_label_struct]. *)
Definition ex_op_enum : enum_spec :=
  {| en_rename_all := Kebab;
     en_variants := [ {| v_ident := str "Get"; v_value := None; v_rename := None |};
                      {| v_ident := str "PutObject"; v_value := None; v_rename := Some (str "put") |};
                      {| v_ident := str "Del"; v_value := Some 7%Z; v_rename := None |} ] |}.
Definition ex_request_set : group_set :=
  [ {| f_name := str "path"; f_rename := Some (str "route"); f_set := SFixedSet [str "/"; str "/a"] |};
    {| f_name := str "op"; f_rename := None; f_set := SStatic ex_op_enum |};
    {| f_name := str "user"; f_rename := None; f_set := SInterner (fun known _ => N.of_nat (length known) <? 100) [str "ann"; str "bob"] |};
    {| f_name := str "agent"; f_rename := None; f_set := SInterner (fun known _ => N.of_nat (length known) <? 100) [str "curl"] |} ].
Definition ex_request (path op user : string) : group_val :=
  [(str "path", str path); (str "op", str op); (str "user", str user); (str "agent", str "curl")].

Lemma ex_set_for : Forall2 set_for ex_lfields ex_request_set.
Proof.
  repeat (apply Forall2_cons || apply Forall2_nil); (split; [reflexivity|]); (split; [reflexivity|]); cbn; split;
    try discriminate; try (intros [p E]; discriminate); eauto.
Qed.
Lemma ex_request_wf : wf_group_set ex_request_set.
Proof. apply wf_group_check. reflexivity. Qed.
Lemma ex_request_member : member ex_request_set (ex_request "/a" "Del" "bob") /\ member ex_request_set (ex_request "/" "PutObject" "bob").
Proof. split; apply member_check; reflexivity. Qed.
Lemma ex_request_shown : group_shown ex_heck ex_request_set (ex_request "/a" "Del" "bob")
  [(str "route", LStr (str "/a")); (str "op", LInt 7); (str "user", LStr (str "bob")); (str "agent", LStr (str "curl"))].
Proof. apply (visit_exact ex_heck); [exact ex_request_wf|apply ex_request_member|reflexivity]. Qed.

(** Deciding [enums_apart]. *)
Definition clash (a b : lvalue) : bool :=
  match a, b with
  | LInt x, LInt y => (x =? y)%Z
  | LStr x, LStr y => beqb x y
  | LInt z, LStr s | LStr s, LInt z => match read_int s with Some y => (z =? y)%Z | None => false end
  | _, _ => true
  end.
Lemma no_clash : forall a b t, clash a b = false -> ~ (label_shows (fun _ => []) a t /\ label_shows (fun _ => []) b t).
Proof.
  intros [x|x|x] [y|y|y] t C [S T]; cbn in C, S, T; try discriminate; subst.
  - assert (x = y) by congruence. subst. rewrite Z.eqb_refl in C. discriminate.
  - rewrite S, Z.eqb_refl in C. discriminate.
  - rewrite T, Z.eqb_refl in C. discriminate.
  - rewrite beqb_refl in C. discriminate.
Qed.
Definition enum_apart_b (heck : rename_all -> bytes -> bytes) (e : enum_spec) : bool :=
  forallb (fun v => forallb (fun w => beqb (v_ident v) (v_ident w) || negb (clash (shown_of heck e v) (shown_of heck e w))) (en_variants e)) (en_variants e).
Lemma enums_apart_check : forall heck s,
  forallb (fun f => match f_set f with SStatic e => enum_apart_b heck e | _ => true end) s = true -> enums_apart heck s.
Proof.
  intros heck s H f e u v x y t I E NE X Y. rewrite forallb_forall in H. specialize (H f I). rewrite E in H.
  apply variant_shown_iff in X. apply variant_shown_iff in Y. destruct X as (a & A & <- & ->), Y as (b & B & <- & ->).
  unfold enum_apart_b in H. rewrite forallb_forall in H. specialize (H a A). rewrite forallb_forall in H. specialize (H b B).
  apply orb_true_iff in H. destruct H as [H|H]; [apply beqb_spec in H; contradiction|].
  apply no_clash. now destruct (clash _ _).
Qed.

Lemma ex_request_apart : enums_apart ex_heck ex_request_set.
Proof. apply enums_apart_check. reflexivity. Qed.
Lemma ex_request_labels : NoDup (map field_label ex_request_set).
Proof. apply nodupb_NoDup. reflexivity. Qed.

(** A float formatter for the examples. *)
Lemma ex_ryu_faithful : faithful ex_ryu.
Proof.
  assert (R : forall x, read_digits 0 (ex_ryu x) = Some x) by exact itoa_nat_read. split.
  - intros x y _ _ E. pose proof (R x) as A. rewrite E, (R y) in A. congruence.
  - intros x _ I. pose proof (R x) as A. destruct I as [E|[E|[E|[]]]]; rewrite <- E in A; discriminate.
Qed.

(** struct { requests_total: CounterVec<RequestSet>, latency: Histogram<2>, #[metric(namespace = "db")] db: { up: Gauge } } *)
Definition ex_scrape : group :=
  GStruct (FieldMetric (str "requests") (Some (str "requests_total")) [str "requests"]
    (FamVec KCounter (Done [ (group_visit ex_heck ex_request_set (ex_request "/a" "Del" "bob"), MCounter 3);
                             (group_visit ex_heck ex_request_set (ex_request "/" "PutObject" "bob"), MCounter 4) ]))
    (FieldMetric (str "latency") None [] (FamMetric (MHistogram [4607182418800017408; 4611686018427387904] [2; 3] 4 7))
      (FieldNamespace (str "db") (GStruct (FieldMetric (str "up") None [] (FamMetric (MGauge 1)) FieldsNil)) FieldsNil))).

Lemma two_apart : forall ryu l1 l2 m1 m2, labels_apart ryu l1 l2 -> labels_apart ryu l2 l1 -> forall i j p q,
  nth_error [(l1, m1); (l2, m2) : labels * metric] i = Some p -> nth_error [(l1, m1); (l2, m2)] j = Some q -> i <> j ->
  labels_apart ryu (fst p) (fst q).
Proof.
  intros ryu l1 l2 m1 m2 A B [|[|[|i]]] [|[|[|j]]] p q P Q NE; cbn in P, Q; try discriminate; try congruence;
    injection P as <-; injection Q as <-; assumption.
Qed.

Lemma ex_scrape_families : Forall (fun p => family_ok ex_ryu (snd p)) (named_families [] ex_scrape).
Proof.
  repeat (apply Forall_cons || apply Forall_nil); cbn [snd family_ok].
  - split.
    + repeat (apply Forall_cons || apply Forall_nil); (split; [reflexivity|]); (split; [apply nodupb_NoDup; reflexivity|]);
        (split; [exact I|discriminate]).
    + apply two_apart; apply groups_apart;
        first [exact ex_request_wf|exact ex_request_labels|exact ex_request_apart|apply ex_request_member|discriminate].
  - apply thresholds_apart; [exact ex_ryu_faithful| |].
    + repeat (apply Forall_cons || apply Forall_nil); (split; [reflexivity|exact I]).
    + constructor; [intros [E|[]]; discriminate|]. constructor; [intros []|constructor].
  - exact I.
Qed.
Lemma ex_scrape_names : names_apart ex_scrape.
Proof. split; apply nodupb_NoDup; reflexivity. Qed.

Definition ex_scrape_events : list event :=
  [ EvHelp [] (str "requests_total") (str "requests"); EvType [] (str "requests_total") KCounter;
    EvSample [] (str "requests_total") (group_visit ex_heck ex_request_set (ex_request "/a" "Del" "bob")) (MCounter 3);
    EvSample [] (str "requests_total") (group_visit ex_heck ex_request_set (ex_request "/" "PutObject" "bob")) (MCounter 4);
    EvType [] (str "latency") KHistogram;
    EvSample [] (str "latency") [] (MHistogram [4607182418800017408; 4611686018427387904] [2; 3] 4 7);
    EvType [str "db"] (str "up") KGauge; EvSample [str "db"] (str "up") [] (MGauge 1) ].
Lemma ex_scrape_collects : group_events [] ex_scrape ex_scrape_events.
Proof.
  assert (EQ : forall l l', group_events [] ex_scrape l -> l = l' -> group_events [] ex_scrape l') by (intros l l' H <-; exact H).
  eapply EQ.
  - apply GE_struct. eapply FE_documented; [discriminate|exact (trim_trimmed (str "requests"))|].
    apply FE_undocumented. apply FE_ns.
    + apply valid_metric_nameb_spec. reflexivity.
    + apply GE_struct. apply FE_undocumented. apply FE_nil.
    + apply FE_nil.
  - reflexivity.
Qed.
Lemma ex_scrape_valid : Forall event_ok ex_scrape_events.
Proof.
  assert (V : forall l, forallb valid_metric_nameb l = true -> Forall valid_metric_name l).
  { intros l H. apply Forall_forall. intros n I. rewrite forallb_forall in H. apply valid_metric_nameb_spec. auto. }
  assert (VL : forall ls, forallb (fun l => valid_label_nameb (fst l)) ls = true -> labels_valid ls).
  { intros ls H. apply Forall_forall. intros n I. rewrite forallb_forall in H. apply valid_label_nameb_spec. auto. }
  unfold ex_scrape_events. repeat match goal with |- Forall event_ok _ => constructor end; cbn [event_ok].
  all: try (apply V; reflexivity).
  - split; [apply V; reflexivity|]. split; intros H; repeat (destruct H as [H|H]; [discriminate|]); destruct H.
  - split; [apply V; reflexivity|]. split; [apply VL; reflexivity|reflexivity].
  - split; [apply V; reflexivity|]. split; [apply VL; reflexivity|reflexivity].
  - split; [apply V; reflexivity|]. split; [apply VL; reflexivity|]. split; reflexivity.
  - split; [apply V; reflexivity|]. split; [apply VL; reflexivity|]. split; [discriminate|reflexivity].
Qed.

(** ** Scrapes that go wrong *)

(** The lines of the scrape of a group. *)
Definition scraped (g : group) (items : list item) : Prop :=
  exists s, collect_group (text_encoder ex_ryu Debug) g (text_new (good_writer [])) = (s, ROk) /\
    parse (w_out (te_writer s)) = Some items.

Definition metric1 (name : string) (f : family) : group := GStruct (FieldMetric (str name) None [] f FieldsNil).
Definition counter (n : N) : family := FamMetric (MCounter n).

(** Two groups with a metric of the same name, both flattened. *)
Definition ex_flattened : group :=
  GStruct (FieldGroup (metric1 "up" (counter 1)) (FieldGroup (metric1 "up" (counter 2)) FieldsNil)).
(** Namespace [a] with [b_c], namespace [a_b] with [c]. *)
Definition ex_namespaces : group :=
  GStruct (FieldNamespace (str "a") (metric1 "b_c" (counter 1)) (FieldNamespace (str "a_b") (metric1 "c" (counter 2)) FieldsNil)).
(** A histogram [x] and a counter [x_count]. *)
Definition ex_suffix : group :=
  GStruct (FieldMetric (str "x") None [] (FamMetric (MHistogram [] [] 4 7)) (FieldMetric (str "x_count") None [] (counter 2) FieldsNil)).
(** A histogram vec with a label [le]. *)
Definition ex_le_set : group_set := [ {| f_name := str "le"; f_rename := None; f_set := SFixedSet [str "a"; str "b"] |} ].
Definition ex_le : group :=
  metric1 "x" (FamVec KHistogram (Done [(group_visit ex_heck ex_le_set [(str "le", str "a")], MHistogram [0] [1] 0 0)])).
(** A vec over a composition of a group with itself. *)
Definition ex_composed : group :=
  metric1 "x" (FamVec KCounter (Done [(compose_labels (group_visit ex_heck ex_request_set (ex_request "/a" "Del" "bob"))
                                                     (group_visit ex_heck ex_request_set (ex_request "/" "Get" "ann")), MCounter 1)])).
(** enum { #[label(rename = "1")] A, B = 1 } *)
Definition ex_same_enum : enum_spec :=
  {| en_rename_all := Snake;
     en_variants := [ {| v_ident := str "A"; v_value := None; v_rename := Some (str "1") |};
                      {| v_ident := str "B"; v_value := Some 1%Z; v_rename := None |} ] |}.
Definition ex_same_set : group_set := [ {| f_name := str "k"; f_rename := None; f_set := SStatic ex_same_enum |} ].
Definition ex_same : group :=
  metric1 "x" (FamVec KCounter (Done [(group_visit ex_heck ex_same_set [(str "k", str "A")], MCounter 1);
                                      (group_visit ex_heck ex_same_set [(str "k", str "B")], MCounter 2)])).

Ltac scrape := eexists; split; [eexists; split; [vm_compute; reflexivity|vm_compute; reflexivity]|].
Ltac twice i j := intros H; refine (H i j _ _ eq_refl eq_refl _ _); [discriminate|]; cbn; auto using Permutation_refl.

Lemma flattened_clash : exists items, scraped ex_flattened items /\ ~ no_repeated_series items /\ ~ headers_once items.
Proof. scrape. split; [twice 1%nat 4%nat|twice 0%nat 3%nat]. Qed.
Lemma namespaces_clash : exists items, scraped ex_namespaces items /\ ~ no_repeated_series items /\ ~ headers_once items.
Proof. scrape. split; [twice 1%nat 4%nat|twice 0%nat 3%nat]. Qed.
Lemma suffix_clash : exists items, scraped ex_suffix items /\ ~ no_repeated_series items /\ NoDup (map fst (named_families [] ex_suffix)).
Proof. scrape. split; [twice 3%nat 6%nat|]. apply nodupb_NoDup. reflexivity. Qed.
Lemma le_clash : wf_group_set ex_le_set /\ NoDup (map field_label ex_le_set) /\
  exists items, scraped ex_le items /\ ~ labels_once items.
Proof.
  split; [apply wf_group_check; reflexivity|]. split; [apply nodupb_NoDup; reflexivity|]. scrape.
  intros H. specialize (H _ _ _ _ (or_intror (or_introl eq_refl))). cbn in H. inversion H as [|? ? NI _]. apply NI. now left.
Qed.
Lemma composed_clash : exists items, scraped ex_composed items /\ ~ labels_once items.
Proof.
  scrape. intros H. specialize (H _ _ _ _ (or_intror (or_introl eq_refl))). cbn in H. inversion H as [|? ? NI _]. apply NI. cbn. auto 6.
Qed.
Lemma same_clash : wf_group_set ex_same_set /\ NoDup (map field_label ex_same_set) /\
  exists items, scraped ex_same items /\ ~ no_repeated_series items.
Proof.
  split; [apply wf_group_check; reflexivity|]. split; [apply nodupb_NoDup; reflexivity|]. scrape. twice 1%nat 2%nat.
Qed.

(** struct { requests: Counter, latency: Histogram<1> } *)
Definition ex_flat_struct : list field_input :=
  [ {| fi_name := str "requests"; fi_attrs := [] |}; {| fi_name := str "latency"; fi_attrs := [doc "how long"] |} ].
Definition ex_flat_contents : list (mfield * content) :=
  [ ({| mg_name := str "requests"; mg_attrs := {| mf_docs := None; mf_kind := KMetric None; mf_init := None |} |}, CFamily (counter 1));
    ({| mg_name := str "latency"; mg_attrs := {| mf_docs := Some (str "how long"); mf_kind := KMetric None; mf_init := None |} |},
     CFamily (FamMetric (MHistogram [0] [1] 0 0))) ].
Definition ex_flat_fields : gfields :=
  FieldMetric (str "requests") None [] (counter 1)
    (FieldMetric (str "latency") None [str "how long"] (FamMetric (MHistogram [0] [1] 0 0)) FieldsNil).
Lemma ex_flat_ok : derive_metric_group ex_shouty ex_ident [] (DataStruct ex_flat_struct) = Some (map fst ex_flat_contents, None) /\
  struct_of ex_flat_contents = Some ex_flat_fields /\ flat ex_flat_fields /\ suffixes_free (named_fields [] ex_flat_fields).
Proof.
  split; [reflexivity|]. split; [reflexivity|]. split; [exact I|].
  apply reserved_iff; apply nodupb_NoDup; reflexivity.
Qed.
