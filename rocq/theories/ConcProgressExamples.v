(** Runs that block. *)
From Coq Require Import List NArith ZArith Bool Arith Lia.
From Verif Require Import Base FloatModel MetricModel MetricExamples ConcModel ConcSpec ConcProofs ConcTheorems ConcExamples
  ConcVecModel ConcVecSpec ConcVecTheorems ConcVecExamples ConcProgressSpec.
Import ListNotations.
Local Open Scope nat_scope.

Notation ex_vec := (counter_vec Nat.eqb ex_shard).

(** Thread 0 has a guard; the others wait. *)
Definition ex_wait := run ex_vec (calls (at_nat ex_cvec_calls)) (firstn 16 ex_cvec_schedule) (start_config sv_new).

(** A second guard, for a new label of the same shard. *)
Definition ex_two_calls : list (list (vec_op nat counter_op)) := [[SGet 0 5; SGet 1 7]].
Definition ex_two_schedule : schedule := rounds 20 [(0, 0)].
(** A collection by a thread that has a guard, while another waits to remove. *)
Definition ex_collect_calls : list (list (vec_op nat counter_op)) := [[SGet 0 5; SOpen 1 1; SDrop 1; SDrop 0]; [SRemove 5]].
Definition ex_collect_schedule : schedule := rounds 8 [(0, 0)] ++ rounds 4 [(1, 0)] ++ rounds 4 [(0, 0)].

(** Threads below [n] have no step to take under choice 0. *)
Definition stuck {Sh Op Res Mic} (M : machine Sh Op Res Mic) (prog : program Op Res) (c : config Sh Op Res Mic) (n : nat) : bool :=
  forallb (fun j => match t_cur (c_th c j) with
    | Some (_, mic) => match m_step M j 0 mic (c_sh c) with None => true | Some _ => false end
    | None => match prog j (t_done (c_th c j)) with None => true | Some _ => false end
    end) (seq 0 n).
Definition busy {Sh Op Res Mic} (c : config Sh Op Res Mic) (j : nat) : bool :=
  match t_cur (c_th c j) with Some _ => true | None => false end.

Lemma stuck_not_free : forall Sh Op Res Mic (M : machine Sh Op Res Mic) prog sh0 s n,
  forallb (fun e => Nat.ltb (fst e) n) s = true ->
  (forall i, n <= i -> prog i [] = None) ->
  stuck M prog (run M prog s (start_config sh0)) n = true ->
  busy (run M prog s (start_config sh0)) 0 = true ->
  ~ deadlock_free M sh0 prog.
Proof.
  intros Sh Op Res Mic M prog sh0 s n HS HP HB H0 H. specialize (H s). cbv zeta in H.
  assert (U := fun i L => untouched _ _ _ _ M prog s (start_config sh0) n i HS L).
  unfold stuck in HB. unfold busy in H0. revert H HB H0 U. generalize (run M prog s (start_config sh0)) as c. intros c H HB H0 U.
  destruct H as (j & A & E).
  - exists 0. left. destruct (t_cur (c_th c 0)); [discriminate|discriminate H0].
  - specialize (E 0). unfold enabled in E. destruct (Nat.lt_ge_cases j n) as [L|L].
    + rewrite forallb_forall in HB. specialize (HB j ltac:(apply in_seq; lia)). cbv beta in HB.
      destruct (t_cur (c_th c j)) as [[op mic]|].
      * destruct (m_step M j 0 mic (c_sh c)); [discriminate HB|]. apply E. reflexivity.
      * destruct (prog j (t_done (c_th c j))); [discriminate HB|]. apply E. reflexivity.
    + rewrite (U j L) in E. cbn in E. apply E, HP, L.
Qed.

Lemma two_guards_stuck : ~ deadlock_free ex_vec sv_new (calls (at_nat ex_two_calls)).
Proof.
  apply (stuck_not_free _ _ _ _ ex_vec (calls (at_nat ex_two_calls)) sv_new ex_two_schedule 1).
  - vm_compute. reflexivity.
  - intros [|i] L; [lia|]. unfold calls, at_nat. rewrite nth_overflow; [reflexivity|]. cbn. lia.
  - vm_compute. reflexivity.
  - vm_compute. reflexivity.
Qed.

Lemma collect_with_guard_stuck : ~ deadlock_free ex_vec sv_new (calls (at_nat ex_collect_calls)).
Proof.
  apply (stuck_not_free _ _ _ _ ex_vec (calls (at_nat ex_collect_calls)) sv_new ex_collect_schedule 2).
  - vm_compute. reflexivity.
  - intros [|[|i]] L; [lia|lia|]. unfold calls, at_nat. rewrite nth_overflow; [reflexivity|]. cbn. lia.
  - vm_compute. reflexivity.
  - vm_compute. reflexivity.
Qed.
