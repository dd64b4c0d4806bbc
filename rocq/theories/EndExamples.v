(** Vecs used in the examples of [P_End]. *)
From Coq Require Import String List NArith ZArith Bool Lia Permutation.
From Verif Require Import Base BaseFacts Writer NameModel NameSpec NameProofs LabelModel LabelSpec LabelProofs FloatModel EncoderModel FamilyModel
  TextModel TextSpec EncoderSpec EncoderProofs TextTheorems TextExamples VecModel VecSpec VecTheorems MetricModel MetricSpec MetricExamples
  ScrapeSpec ScrapeExamples CallModel EndSpec.
Import ListNotations.
Local Open Scope N_scope.

(** The world of [ex_world] for any metric. *)
Definition ex_world_at {M} (d : M) : world (derived_lgset Debug) M := {|
  w_bd := Debug;
  w_default := d;
  w_hash := ex_hash : lg_unique (derived_lgset Debug) -> N;
  w_visits := fun h h' => (h / 2 ^ 60 =? h' / 2 ^ 60);
  w_grows := fun _ => true;
  w_iter := fun t => rev t;
  w_geqb := group_val_eqb : lg_group (derived_lgset Debug) -> lg_group (derived_lgset Debug) -> bool |}.

Lemma ex_world_at_ok : forall M (d : M), world_ok (ex_world_at d).
Proof.
  intros M d. constructor.
  - intros h. apply N.eqb_refl.
  - intros t. symmetry. apply Permutation_rev.
  - exact group_val_eqb_spec.
Qed.

Definition ex_fresh (M : Type) : metric_vec (derived_lgset Debug) M :=
  match vec_new Debug (derived_lgset Debug) M 3 ex_request_set with
  | Done v => v
  | Panic => {| mv_metrics := Dense []; mv_set := ([] : lg_state (derived_lgset Debug)) |}
  end.
Lemma ex_fresh_constructed : forall M (d : M), constructed (ex_world_at d) 3 ex_request_set (ex_fresh M).
Proof.
  intros M d. split; [vm_compute; discriminate|]. split; [vm_compute; discriminate|]. left. reflexivity.
Qed.
Lemma ex_request_sound : sound_set ex_request_set.
Proof. split; [exact ex_request_wf|split; reflexivity]. Qed.
Lemma ex_request_label_names : Forall (fun f => valid_label_name (field_label f)) ex_request_set.
Proof. repeat (apply Forall_cons || apply Forall_nil); apply valid_label_nameb_spec; reflexivity. Qed.

Definition ex_bob := ex_request "/a" "Del" "bob".
Definition ex_eve := ex_request "/" "PutObject" "eve".

(** The vec after the calls, or as it was if one panics. *)
Definition ex_called {M} (d : M) (calls : list (call (derived_lgset Debug) M)) (v : metric_vec (derived_lgset Debug) M) :=
  match run_calls (ex_world_at d) calls v with Done v' => v' | Panic => v end.

Definition ex_counts : list (group_val * N) := [(ex_bob, 3); (ex_eve, 1); (ex_bob, 4)].
Definition ex_counter_calls : list (call (derived_lgset Debug) N) :=
  [ @counter_vec_inc_by (derived_lgset Debug) ex_bob 3; @counter_vec_inc_mut (derived_lgset Debug) Debug ex_eve;
    @counter_vec_inc_by_mut (derived_lgset Debug) Debug ex_bob 4 ].
Definition ex_gauges : list (group_val * gauge_op) := [(ex_bob, GIncBy 3); (ex_bob, GDecBy 5); (ex_eve, GSet 7); (ex_bob, GInc)].
Definition ex_observations : list (group_val * f64) := [(ex_bob, f_half); (ex_eve, f_three); (ex_bob, f_two)].
(** The same observations: a value, a duration and the time since an instant. *)
Definition ex_observe_calls : list (call (derived_lgset Debug) hist) :=
  [ @histogram_vec_observe (derived_lgset Debug) StdFrom182 ex_ts ex_bob f_half;
    @histogram_vec_observe_duration (derived_lgset Debug) StdFrom182 ex_ts ex_eve {| d_secs := 3; d_nanos := 0 |};
    @histogram_vec_observe_since (derived_lgset Debug) StdFrom182 ex_ts ex_bob 5000000000 7000000000 ].
Lemma ex_observe_calls_fine : Forall2 (@observes (derived_lgset Debug) StdFrom182 ex_ts) ex_observations ex_observe_calls.
Proof.
  apply Forall2_cons; [left; reflexivity|]. apply Forall2_cons; [right; left; eexists; split; [|reflexivity]; vm_compute; reflexivity|].
  apply Forall2_cons; [|apply Forall2_nil]. right; right. exists 5000000000, 7000000000, {| d_secs := 2; d_nanos := 0 |}.
  split; [reflexivity|]. split; [reflexivity|]. split; [vm_compute; reflexivity|reflexivity].
Qed.
Definition ex_float_gauges : list (group_val * fgauge_op) := [(ex_bob, FSet f_two); (ex_eve, FIncBy f_1_5); (ex_bob, FDecBy f_half); (ex_eve, FDec)].
Lemma ex_float_gauges_bits : forall g y, In (g, FSet y) ex_float_gauges -> y < 2 ^ 64.
Proof.
  intros g y I. cbn [ex_float_gauges In] in I. destruct I as [E|[E|[E|[E|[]]]]]; inversion E. reflexivity.
Qed.

Definition ex_vec_group {M} (name : string) (k : kind) (read : M -> metric) (v : metric_vec (derived_lgset Debug) M) : group :=
  GStruct (FieldMetric (str name) None []
    (vec_family (derived_lgset Debug) M (fun t => rev t) (group_visit ex_heck ex_request_set) k read v) FieldsNil).

Lemma ex_vec_group_events : forall M name k read (v : metric_vec (derived_lgset Debug) M),
  group_events [] (ex_vec_group name k read v)
    ([] ++ family_events [] (str name) (vec_family (derived_lgset Debug) M (fun t => rev t) (group_visit ex_heck ex_request_set) k read v) ++ []).
Proof. intros. apply GE_struct. apply (FE_undocumented [] (str name) None). apply FE_nil. Qed.

Definition ex_text (g : group) : bytes :=
  w_out (te_writer (fst (collect_group (text_encoder ex_ryu Debug) g (text_new (good_writer []))))).

(** The bounds of C62 hold of these calls. *)
Lemma ex_counts_small : forall g, fold_right N.add 0 (given g ex_counts) < 2 ^ 63.
Proof.
  intros g. unfold given, ex_counts. cbn [filter fst].
  destruct (group_val_eqb ex_bob g); destruct (group_val_eqb ex_eve g); vm_compute; reflexivity.
Qed.
Ltac each_prefix ys E :=
  destruct ys as [|? ys];
  [reflexivity|cbn [app] in E; first [discriminate E|injection E as <- E; each_prefix ys E]].
Lemma ex_gauges_small : forall g ys zs, given g ex_gauges = ys ++ zs -> (- 2 ^ 63 <= fold_left on_integer ys 0 < 2 ^ 63)%Z.
Proof.
  intros g ys zs. unfold given, ex_gauges. cbn [filter fst].
  assert (SMALL : forall z, ((- 100 <=? z) && (z <=? 100) = true -> - 2 ^ 63 <= z < 2 ^ 63)%Z).
  { intros z H. apply andb_true_iff in H as [H1 H2]. apply Z.leb_le in H1, H2.
    split; [apply Z.le_trans with (-100)%Z; [vm_compute; discriminate|exact H1]|apply Z.le_lt_trans with 100%Z; [exact H2|reflexivity]]. }
  destruct (group_val_eqb ex_bob g); destruct (group_val_eqb ex_eve g); cbn [map snd]; intros E; apply SMALL; each_prefix ys E.
Qed.
Lemma ex_observations_fine : forall g, no_nan (given g ex_observations) /\ N.of_nat (length (given g ex_observations)) < 2 ^ 63.
Proof.
  intros g. unfold given, ex_observations. cbn [filter fst].
  destruct (group_val_eqb ex_bob g); destruct (group_val_eqb ex_eve g);
    (split; [intros x H; cbn in H; repeat (destruct H as [<-|H]; [reflexivity|]); destruct H|vm_compute; reflexivity]).
Qed.
