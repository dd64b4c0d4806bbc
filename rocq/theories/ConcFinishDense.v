(** Whole calls on a dense vec come to an end. *)
From Coq Require Import List NArith ZArith Bool Arith Lia.
From Verif Require Import Base FloatModel MetricModel LabelModel LabelSpec ConcModel ConcSpec ConcProofs ConcVecSpec
  ConcDenseModel ConcDenseSpec ConcCallModel ConcScript ConcCallSpec ConcDenseCallModel ConcDenseCallSpec ConcProgressSpec ConcProgress ConcCallProgress
  ConcFinishSpec ConcFinish ConcFinishVec ConcFinishCalls.
Import ListNotations.
Local Open Scope nat_scope.
Local Set Asymmetric Patterns.

Section Calls.
  Context {L : lgset} {Sh Op Res Mic V : Type}.
  Variable w : dense_setup L.
  Variable m : metric_code Sh Op Res Mic V.
  Variable bad : nat -> Mic -> Sh -> bool.
  Variable P : dense_program L Op Res.
  Variable n k : nat.
  Hypothesis brief : brief_metric (mc_machine m) (mc_new m) bad.
  Hypothesis bounded : bounded_calls n k P.
  Notation Ml := (look_machine (dn_build w) L (dn_set w) (dn_cells w)).
  Notation Md := (dense_machine (mc_machine m) (mc_new m) (dn_cells w)).
  Notation next := (dense_next (dn_cells w) (mc_read m)).
  Notation prog := (follow dense_init next dense_adv P).
  Notation cfg s := (run (both Ml Md) prog s (start_config (tt, dv_new))).

  Lemma dense_few : forall i, n <= i -> prog i [] = None.
  Proof. intros i LE. unfold follow. cbn. now rewrite (proj1 bounded i LE). Qed.

  Lemma dense_path_length : forall call (tr : trace (look_op L + dense_op Op) (look_res L + dense_res Res)) st, path next dense_adv (dense_init call) tr st ->
    length tr <= 3 + 3 * dn_cells w /\
    match st with
    | XLook _ _ | XFind _ => length tr = 0
    | XGet _ _ => length tr = 1
    | XUse _ _ => length tr = 2
    | XCell q | XTally q => q <= dn_cells w /\ length tr <= 3 * q
    | XName q => q < dn_cells w /\ length tr <= 3 * q + 1
    | XRead q => q < dn_cells w /\ length tr <= 3 * q + 2
    | XEnd => True
    end.
  Proof.
    intros call tr st H. induction H as [|tr st op r H [IH0 IH] N]; [destruct call; cbn; lia|]. rewrite app_length. cbn [length].
    destruct st as [g u|q u|q u|g|q|q|q|q|]; cbn [dense_next] in N; try discriminate;
      try (destruct (Nat.ltb_spec q (dn_cells w)) as [LS|]; [|discriminate]); injection N as <-;
      destruct r as [[[[r|]|]|[r|]]|[|[|]|r| | |]]; cbn [dense_adv]; lia.
  Qed.

  Lemma dense_ops_bound : forall s i, length (t_done (c_th (cfg s) i)) <= k * (3 + 3 * dn_cells w).
  Proof.
    intros s i. eapply (length_bound dense_init next dense_adv k (P i)) with (size := @length _);
      [apply (run_good dense_init next dense_adv (both Ml Md) (tt, dv_new) P s i)|apply calls_bound; exact (proj2 bounded i)|apply app_length|reflexivity|].
    intros call tr st H _. now apply dense_path_length in H.
  Qed.

  Lemma look_ranked : ranked_on Ml tt never n 0 (fun _ _ => 0) (fun _ => True) (fun _ => True).
  Proof.
    split; [exact I|]. split; [easy|]. split; [lia|]. intros i ch mic sh sh' x _ _ H. split; [exact I|]. split; [now destruct x|].
    exists 0. split; [lia|]. cbn in *. destruct (look_eff _ _ _ _ mic sh). injection H as _ <-. lia.
  Qed.

  Section Ranks.
    Variable most : nat.
    Variable rank : Mic -> Sh -> nat.
    Variable inv : Sh -> Prop.
    Hypothesis rk : ranked (mc_machine m) (mc_new m) bad n most rank inv.
    Lemma dense_all_ranked : ranked_on (both Ml Md) (tt, dv_new) (right_spurious (dense_spurious bad)) n (0 + (4 + most))
      (both_rank (fun _ _ => 0) (dense_rank most rank)) (fun sh => True /\ dense_inv inv (snd sh)) (both_valid (fun _ => True) (fun _ => True)).
    Proof.
      eapply (both_ranked Ml Md tt dv_new (dense_spurious bad) n _ _ _ _ (fun _ => True) (dense_inv inv)); [apply look_ranked|]. apply dense_ranked. exact rk.
    Qed.
  End Ranks.

  Lemma dense_work_bounded : exists a c, forall s, dense_work w m P s <= a + c * dense_failures w m P bad s.
  Proof.
    destruct (brief n) as (most & rank & inv & rk). eexists _, _. intros s.
    eapply work_bounded; [exact (dense_all_ranked most rank inv rk)|exact dense_few|]. intros s' i _. apply dense_ops_bound.
  Qed.

  Lemma dense_finishes : deadlock_free (both Ml Md) (tt, dv_new) prog -> 0 < dn_cells w ->
    forall f, fair n f -> (exists r, forall t, dense_failures w m P bad (up_to f t) <= r) ->
    exists t0, forall t, t0 <= t -> dense_over w m P (up_to f t).
  Proof.
    intros DF SH f FA RT. destruct (brief n) as (most & rank & inv & rk).
    destruct (all_finish _ _ _ _ _ _ _ _ (dense_all_ranked most rank inv rk) prog dense_few _ (fun s' i _ => dense_ops_bound s' i) DF f FA RT) as (T & HT).
    exists T. intros t LE i. specialize (HT t LE i).
    pose proof (run_good dense_init next dense_adv (both Ml Md) (tt, dv_new) P (up_to f t) i) as [[_ _ C] _]. unfold hist in C.
    unfold dense_underway, dense_finished, dense_at_time, shared_dense. unfold active, follow in HT. unfold follow in C |- *.
    match goal with |- context [history_of ?a ?b ?c ?d ?e] => remember (history_of a b c d e) as h eqn:EH end.
    match type of HT with context [t_cur ?x] => destruct (t_cur x) as [p|]; [exfalso; apply HT; left; discriminate|] end.
    destruct (h_cur h) as [[[call st] tr]|]; [exfalso; apply HT; right; apply C|].
    split; [reflexivity|]. destruct (P i (h_done h)) as [call|]; [|reflexivity]. exfalso. apply HT. right.
    destruct call; cbn [dense_init dense_next]; try discriminate; destruct (Nat.ltb_spec 0 (dn_cells w)); discriminate || lia.
  Qed.
End Calls.

Theorem dense_all_finish : forall (L : lgset) Sh Op Res Mic V St (w : dense_setup L) (m : metric_code Sh Op Res Mic V) spec (st_new : St) aview bad
  (P : dense_program L Op Res) n k f, 0 < dn_cells w -> lively_metric (mc_machine m) (mc_new m) (mc_view m) spec st_new aview ->
  brief_metric (mc_machine m) (mc_new m) bad -> bounded_calls n k P ->
  fair n f -> (exists r, forall t, dense_failures w m P bad (up_to f t) <= r) ->
  exists t0, forall t, t0 <= t -> dense_over w m P (up_to f t).
Proof.
  intros L Sh Op Res Mic V St w m spec st_new aview bad P n k f SH LV BR BC FA RT.
  eapply dense_finishes; try eassumption. eapply dense_calls_free; eassumption.
Qed.

Lemma dense_never_fails : forall (L : lgset) Sh Op Res Mic V (w : dense_setup L) (m : metric_code Sh Op Res Mic V) (P : dense_program L Op Res) s,
  dense_failures w m P never s = 0.
Proof.
  intros L Sh Op Res Mic V w m P s. unfold dense_failures.
  match goal with |- count_steps _ _ _ s ?c = 0 => generalize c end.
  induction s as [|ic s IH]; intros c; [reflexivity|]. cbn [count_steps]. rewrite IH. unfold fails.
  destruct (t_cur (c_th c (fst ic))) as [[op [mic|mic]]|]; [reflexivity| |reflexivity].
  cbn [right_spurious]. unfold dense_spurious. destruct mic as [| | | | | |x id y]; try reflexivity.
  destruct (d_cells (snd (c_sh c)) x) as [| |id' sh]; try reflexivity. unfold never. now rewrite andb_false_r.
Qed.

Lemma counters_finish : forall w (P : ConcCallTheorems.call_program counter_op N N) n k f, setup_ok w -> 0 < su_shards w -> calls_shaped (su_fields w) P ->
  bounded_calls n k P -> fair n f -> exists t0, forall t, t0 <= t -> sparse_over w counter_code P (up_to f t).
Proof.
  intros w P n k f A B C D F. eapply (sparse_all_finish _ _ _ _ _ _ w counter_code _ _ _ never); try eassumption.
  - exact (atomic_lively _ _ _ _ _).
  - exact (atomic_brief _ _ _ _ _).
  - exists 0. intros t. now rewrite never_fails.
Qed.

Lemma dense_counters_finish : forall (L : lgset) (w : dense_setup L) (P : dense_program L counter_op N) n k f, 0 < dn_cells w ->
  bounded_calls n k P -> fair n f -> exists t0, forall t, t0 <= t -> dense_over w counter_code P (up_to f t).
Proof.
  intros L w P n k f A B F. eapply (dense_all_finish _ _ _ _ _ _ _ w counter_code _ _ _ never); try eassumption.
  - exact (atomic_lively _ _ _ _ _).
  - exact (atomic_brief _ _ _ _ _).
  - exists 0. intros t. now rewrite dense_never_fails.
Qed.
