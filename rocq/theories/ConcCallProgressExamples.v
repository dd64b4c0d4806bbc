(** Concrete states in which some threads wait. *)
From Coq Require Import List NArith ZArith Bool Arith.
From Verif Require Import Base FloatModel MetricModel MetricExamples LabelModel LabelSpec ConcModel ConcSpec ConcVecModel ConcVecSpec
  ConcLabelModel ConcDenseModel ConcCallModel ConcCallSpec ConcCallTheorems ConcCallExamples ConcDenseCallModel ConcDenseCallSpec ConcDenseCallExamples.
Import ListNotations.
Local Open Scope nat_scope.

(** Which of the first threads can take a step, if the locks let readers pass
    waiting writers or not as [ch] says. *)
Definition can_step {Sh Op Res Mic} (M : machine Sh Op Res Mic) (prog : program Op Res) (ch : nat) (c : config Sh Op Res Mic) (j : nat) : bool :=
  match t_cur (c_th c j) with
  | Some (_, mic) => match m_step M j ch mic (c_sh c) with Some _ => true | None => false end
  | None => match prog j (t_done (c_th c j)) with Some _ => true | None => false end
  end.

Definition ex_vec_steps {Sh Op Res Mic V} (m : metric_code Sh Op Res Mic V) (P : call_program Op Res V) (ch n : nat) (s : schedule) : list bool :=
  let w := ex_setup in
  map (can_step (shared_vec (su_build w) (su_fields w) (su_loc w) (su_accepts w) (su_shard_of w) (mc_machine m) (mc_new m) (mc_view m))
         (calling (su_shards w) (mc_read m) P) ch
         (at_time (su_build w) (su_fields w) (su_loc w) (su_accepts w) (su_shard_of w) (mc_machine m) (mc_new m) (mc_view m)
            (su_shards w) (mc_read m) P (su_strings w) s)) (seq 0 n).

Definition ex_dense_steps {Sh Op Res Mic V} (m : metric_code Sh Op Res Mic V) (P : dense_program (derived_lgset Debug) Op Res) (ch n : nat) (s : schedule) : list bool :=
  let w := ex_dense_setup in
  map (can_step (shared_dense w m) (follow dense_init (dense_next (dn_cells w) (mc_read m)) dense_adv P) ch (dense_at_time w m P s)) (seq 0 n).
