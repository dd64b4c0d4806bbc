(** Concrete cases for the properties of P_Metrics.v. *)
From Coq Require Import String List NArith ZArith Bool Lia.
From Verif Require Import Base BaseFacts Writer NameModel NameSpec NameProofs LabelModel FloatModel FloatOrder EncoderModel FamilyModel TextModel TextSpec
  EncoderSpec EncoderProofs TextTheorems TextExamples TextExampleProofs MetricModel MetricSpec MetricProofs MetricTheorems HistTheorems.
Import ListNotations.
Local Open Scope N_scope.

(** 0.5 1.5 2 3 *)
Definition f_half : f64 := 4602678819172646912.
Definition f_1_5 : f64 := 4609434218613702656.
Definition f_two : f64 := 4611686018427387904.
Definition f_three : f64 := 4613937818241073152.

Definition ex_ts : list f64 := [f_one; f_two].
Definition ex_xs : list f64 := [f_half; f_two; f_three; f_1_5].
Definition ex_hist : hist := {| h_buckets := [1; 2]; h_inf := 1; h_sum := f_of_Z 7 |}.
Definition ex_hist_group : group :=
  GStruct (FieldMetric (str "errors") None [] (FamVec KCounter (Done [(ex_label "x", MCounter 3)]))
    (FieldMetric (str "latency") None [] (FamVec KHistogram (Done [(ex_label "x", hist_sample ex_ts ex_hist)])) FieldsNil)).

Lemma ex_thresholds : with_buckets Debug ex_ts = Done ex_ts /\ with_buckets Release ex_ts = Done ex_ts.
Proof. vm_compute. auto. Qed.

Lemma ex_no_nan : no_nan ex_ts /\ no_nan ex_xs.
Proof.
  split; intros x H; cbn in H; repeat (destruct H as [<-|H]; [reflexivity|]); destruct H.
Qed.

Lemma ex_observed : observe_all StdFrom182 ex_ts ex_xs (hist_new 2) = Done ex_hist /\
  observe_all StdBefore182 ex_ts ex_xs (hist_new 2) = Done ex_hist.
Proof. vm_compute. auto. Qed.

Lemma ex_hist_events : group_events [] ex_hist_group
  ([EvType [] (str "errors") KCounter; EvSample [] (str "errors") (ex_label "x") (MCounter 3);
    EvType [] (str "latency") KHistogram] ++
   EvSample [] (str "latency") (ex_label "x") (hist_sample ex_ts ex_hist) :: []).
Proof.
  eapply GE_eq.
  - apply GE_struct. apply FE_undocumented. apply FE_undocumented. apply FE_nil.
  - reflexivity.
Qed.

(** Three timers on one histogram: one dropped, one observed, one forgotten. *)
Definition ex_ops : list (timer_op unit) :=
  [ TStart unit tt 100; TStart unit tt 200; TStart unit tt 300;
    TObserve unit 1 1500000200 1600000000; TForget unit 2 1700000000; TDrop unit 0 2000000100 ].
Definition ex_recordings : list (recording unit) := [ (1%nat, tt, 200, 1500000200); (0%nat, tt, 100, 2000000100) ].

Lemma ex_proper : proper unit ex_ops.
Proof.
  intros pre o post i E EN. unfold ex_ops in E.
  repeat (destruct pre as [|p0 pre]; cbn in E;
    [injection E as E0 _; subst o; cbn in EN; (contradiction || (subst i; split;
      [cbn; lia|intros (o' & I & EN'); cbn in I;
       repeat (destruct I as [I|I]; [subst o'; cbn in EN'; (contradiction || discriminate)|]); contradiction]))
    | injection E as E0 E; subst p0]).
  destruct pre; discriminate.
Qed.

Lemma ex_recorded : recordings unit ex_ops ex_ops ex_recordings.
Proof.
  unfold ex_ops at 2, ex_recordings.
  do 3 (apply Rec_skip; [intros ? ? []|]). apply Rec_cons; [split; reflexivity|reflexivity|].
  apply Rec_skip; [intros ? ? []|]. apply Rec_cons; [split; reflexivity|reflexivity|]. constructor.
Qed.

Lemma ex_timers_run : timer_run unit hist (since StdFrom182 ex_ts) ex_ops ([], hist_new 2) =
  Done ([None; None; None], {| h_buckets := [0; 2]; h_inf := 0; h_sum := f_add f_1_5 f_two |}).
Proof. vm_compute. reflexivity. Qed.
