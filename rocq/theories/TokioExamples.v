(** Examples for the figures of runtimes and the panics of the process collector. *)
From Coq Require Import String List NArith ZArith Bool Lia ZifyBool ZifyN.
From Verif Require Import Base Writer NameModel LabelModel FloatModel TextModel EncoderModel MetricModel CollectorModel
  CollectorSpec CollectorExamples TokioSpec.
Import ListNotations.
Local Open Scope N_scope.

(** An encoder that counts the calls. *)
Definition ex_count : encoder nat :=
  {| e_help := fun _ _ s => (S s, ROk); e_type := fun _ _ s => (S s, ROk); e_collect := fun _ _ _ s => (S s, ROk) |}.
Lemma ex_count_accepts : accepting ex_count.
Proof. split; reflexivity. Qed.

(** One process: this many ticks per second, bytes per page and pages in memory;
    it was started at tick 350 and has run for [run] and 50 ticks. *)
Definition ex_stats (rss run : N) : proc_stat :=
  {| ps_starttime := 350; ps_vsize := 8192; ps_rss := rss; ps_utime := run; ps_stime := 50; ps_num_threads := 4 |}.
Definition ex_odd (tck : Z) (rss run : N) : os :=
  {| os_self := 7%Z; os_boot_time := Some 1000;
     os_process := fun pid => if (pid =? 7)%Z then
       Some {| p_fd_count := Some 12; p_soft_limit := Some Unlimited; p_stat := Some (ex_stats rss run) |} else None;
     os_clk_tck := tck; os_pagesize := 4096 |}.
Lemma ex_odd_typed : forall tck rss run, fits_i64 tck -> fits_u64 rss -> fits_u64 run -> os_typed (ex_odd tck rss run).
Proof.
  intros tck rss run T R U. split; [exact T|]. split; [unfold fits_i64; cbn; lia|]. split.
  - intros boot E. inversion E. unfold fits_u64. lia.
  - intros pid p st E F. cbn in E. destruct (pid =? 7)%Z; [|discriminate]. inversion E. subst p. inversion F. subst st.
    cbn. unfold fits_u64 in *. repeat split; try assumption; lia.
Qed.
Definition ex_end (bd : build) (tck : Z) (rss run : N) : nat * result :=
  process_collect bd (ex_odd tck rss run) {| pc_pid := 7; pc_start_time := Some 1003%Z |} ex_count 0%nat.
