(** Property C73: the figures of tokio runtimes; and C50 where the system's
    answers are out of range. *)
From Coq Require Import String List NArith ZArith Bool.
From Verif Require Import Base Writer NameModel LabelModel FloatModel TextModel EncoderModel MetricModel CollectorModel
  CollectorSpec CollectorExamples TokioSpec TokioProofs TokioExamples.
Import ListNotations.
Local Open Scope N_scope.

(** C73: runtimes added under names: exactly the figures of each are exported,
    under its name, in the families listed, in this order. *)
Theorem C73_named : forall heck bd net adds, Forall (fun a => runtime_ok (fst a)) adds -> exists fs,
  exports (fun S e => tokio_collect heck bd net e (fold_left (fun l a => named_add l (fst a) (snd a)) adds [])) fs /\
  families_are fs (runtime_families net) /\
  samples_are fs (fun n sf ls m => exists a, In a adds /\ runtime_figure heck net (fst a) (Some (snd a)) n sf ls m).
Proof. exact named_figures. Qed.
Print Assumptions C73_named.

(** A single runtime is shown under the last name it was given, and without a
    label runtime until it is given one. *)
Theorem C73_single : forall heck bd net rt names, runtime_ok rt ->
  exists fs, exports (fun S e => runtime_collect heck bd net e (fold_left with_name names (runtime_new rt))) fs /\
    families_are fs (runtime_families net) /\ samples_are fs (runtime_figure heck net rt (last (map Some names) None)).
Proof. exact runtime_figures. Qed.
Print Assumptions C73_single.

(** Two runtimes: the tasks queued for worker 1 of the second and the time spent
    in its second bucket. *)
Example C73_case : Forall (fun a => runtime_ok (fst a)) [(ex_rt 1, str "a"); (ex_rt 2, str "b")] /\
  runtime_figure ex_lower true (ex_rt 2) (Some (str "b")) (str "queued_tasks") None
    [(str "runtime", LStr (str "b")); (str "kind", LStr (str "1"))] (MGauge 4) /\
  runtime_figure ex_lower true (ex_rt 2) None (str "worker_poll_time_seconds") (Some Bucket)
    [(str "worker", LInt 1); (str "le", LFloat f_infinity)] (MCounter 43) /\
  fold_left (fun l a => named_add l (fst a) (snd a)) [(ex_rt 1, str "a"); (ex_rt 2, str "b")] [] =
    [with_name (runtime_new (ex_rt 1)) (str "a"); with_name (runtime_new (ex_rt 2)) (str "b")].
Proof.
  split; [constructor; [apply ex_rt_ok|constructor; [apply ex_rt_ok|constructor]]|].
  split; [exact (RF_queue_worker ex_lower true (ex_rt 2) (Some (str "b")) 1 eq_refl)|].
  split; [|reflexivity].
  exact (RF_bucket ex_lower true (ex_rt 2) None 1 1 f_infinity eq_refl eq_refl eq_refl (BB_last (ex_rt 2) 1 eq_refl)).
Qed.

(** C50, answers out of range: collecting panics exactly where the number of bytes
    or of ticks overflows in a debug build, or the ticks cannot be divided. *)
Theorem C50_panics : forall S (e : encoder S), accepting e -> forall bd o c, os_typed o -> forall s,
  snd (process_collect bd o c e s) <> RErr /\
  (snd (process_collect bd o c e s) = RPanic <-> exists p, os_process o (pc_pid c) = Some p /\ must_panic bd o p).
Proof. exact @collect_panics_iff. Qed.
Print Assumptions C50_panics.

(** So does making the collector. *)
Theorem C50_new_panics : forall bd o pid, os_typed o -> (process_new bd o pid = Panic <-> new_panics bd o).
Proof. exact new_panics_iff. Qed.
Print Assumptions C50_new_panics.

(** With 100 ticks per second and 3 pages all is well: 6 families.  With 0 ticks
    per second both builds panic, after the memory.  With 2^51 pages of 4096
    bytes, one more than the largest number, a debug build panics before that; a
    page less is shown. *)
Example C50_panics_case : accepting ex_count /\
  os_typed (ex_odd 100 3 150) /\ os_typed (ex_odd 0 3 150) /\ os_typed (ex_odd 100 2251799813685248 150) /\
  ex_end Debug 100 3 150 = (12%nat, ROk) /\
  ex_end Debug 0 3 150 = (7%nat, RPanic) /\ ex_end Release 0 3 150 = (7%nat, RPanic) /\
  ex_end Debug 100 2251799813685248 150 = (5%nat, RPanic) /\ ex_end Release 100 2251799813685248 150 = (12%nat, ROk) /\
  ex_end Debug 100 2251799813685247 150 = (12%nat, ROk) /\
  ex_end Debug 100 3 (2 ^ 64 - 50) = (7%nat, RPanic) /\ ex_end Release 100 3 (2 ^ 64 - 50) = (12%nat, ROk) /\
  process_new Debug (ex_odd 0 3 150) 7 = Panic /\
  process_new Release (ex_odd (-1) 3 150) 7 = Done {| pc_pid := 7; pc_start_time := Some 650%Z |}.
Proof.
  split; [exact ex_count_accepts|].
  split; [apply ex_odd_typed; [split|..]; vm_compute; congruence|].
  split; [apply ex_odd_typed; [split|..]; vm_compute; congruence|].
  split; [apply ex_odd_typed; [split|..]; vm_compute; congruence|].
  repeat split; vm_compute; reflexivity.
Qed.
