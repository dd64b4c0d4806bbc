(** A lock, the threads' phases and the guards they have. *)
From Coq Require Import List NArith ZArith Bool Arith Lia.
From Verif Require Import Base ConcModel ConcSpec ConcProofs ConcHist.
Import ListNotations.
Local Open Scope nat_scope.

(** Where a thread is with respect to one lock: nowhere, reading without a
    guard yet, waiting to write, writing, or writing with a guard already
    counted. *)
Inductive phase := PNone | PLook | PWait | PWrite | PDown.

Definition is_look (p : phase) : nat := match p with PLook => 1 | _ => 0 end.
Definition is_down (p : phase) : nat := match p with PDown => 1 | _ => 0 end.
Definition writing (p : phase) : bool := match p with PWrite | PDown => true | _ => false end.
Definition waiting (p : phase) : bool := match p with PWait => true | _ => false end.

Fixpoint cnt (i : nat) (l : list nat) : nat :=
  match l with [] => 0 | j :: t => (if Nat.eqb j i then 1 else 0) + cnt i t end.

Lemma cnt_remove : forall i j l, cnt i (remove_one j l) = if Nat.eqb j i then cnt i l - 1 else cnt i l.
Proof.
  intros i j l. induction l as [|k l IH]; cbn; [now destruct (Nat.eqb j i)|].
  destruct (Nat.eqb_spec j k) as [->|N]; cbn.
  - destruct (Nat.eqb k i); lia.
  - rewrite IH. destruct (Nat.eqb_spec j i) as [->|N']; [|reflexivity].
    destruct (Nat.eqb_spec k i) as [->|N'']; [congruence|]. lia.
Qed.
Lemma cnt_pos : forall i l, 0 < cnt i l <-> In i l.
Proof.
  intros i l. induction l as [|k l IH]; cbn; [lia|]. destruct (Nat.eqb_spec k i) as [->|N]; [split; [auto|lia]|].
  rewrite Nat.add_0_l, IH. tauto.
Qed.

(** [ng i]: the guards of thread [i]. *)
Record lock_inv (l : rwlock) (ng : nat -> nat) (ph : nat -> phase) : Prop := {
  li_read : forall i, cnt i (rw_readers l) + is_down (ph i) = ng i + is_look (ph i);
  li_write : forall i, rw_writer l = Some i <-> writing (ph i) = true;
  li_excl : rw_writer l <> None -> rw_readers l = [];
  li_wait : forall i, In i (rw_wait l) <-> waiting (ph i) = true;
  li_nodup : NoDup (rw_wait l)
}.

Lemma li_ext : forall l ng ph ng' ph', lock_inv l ng ph -> (forall i, ng' i = ng i) -> (forall i, ph' i = ph i) -> lock_inv l ng' ph'.
Proof. intros l ng ph ng' ph' [R W E A N] G P. split; auto; intros i; rewrite ?G, P; auto. Qed.

Lemma li_free : lock_inv rw_free (fun _ => 0) (fun _ => PNone).
Proof. split; cbn; try (intros; split; intros; (contradiction || discriminate)); try congruence; auto; constructor. Qed.

Ltac li_upd i := match goal with |- context [upd _ i _ ?j] => destruct (Nat.eq_dec j i) as [->|?NE];
  [rewrite ?upd_same in *|rewrite ?upd_other in * by assumption] end.

Lemma li_do_read : forall l ng ph i ch l', lock_inv l ng ph -> ph i = PNone -> rw_read i ch l = Some l' ->
  lock_inv l' ng (upd ph i PLook).
Proof.
  intros l ng ph i ch l' [R W E A N] P H. unfold rw_read in H. destruct (rw_writer l) as [w|] eqn:EW; [discriminate|].
  assert (EL : l' = {| rw_readers := i :: rw_readers l; rw_writer := None; rw_wait := rw_wait l |}).
  { destruct (rw_wait l), ch; congruence. }
  subst l'. split; cbn [rw_readers rw_writer rw_wait].
  - intros j. specialize (R j). cbn [cnt]. li_upd i; [rewrite Nat.eqb_refl; rewrite P in R; cbn in *; lia|].
    destruct (Nat.eqb_spec i j); [congruence|]. lia.
  - intros j. specialize (W j). li_upd i; [rewrite P in W; cbn in *; split; discriminate|exact W].
  - congruence.
  - intros j. specialize (A j). li_upd i; [rewrite P in A; exact A|exact A].
  - exact N.
Qed.

Lemma li_do_look : forall l ng ph i, lock_inv l ng ph -> ph i = PLook ->
  lock_inv l (upd ng i (S (ng i))) (upd ph i PNone).
Proof.
  intros l ng ph i [R W E A N] P. split; auto.
  - intros j. specialize (R j). li_upd i; [rewrite P in R; cbn in *; lia|exact R].
  - intros j. specialize (W j). li_upd i; [rewrite P in W; exact W|exact W].
  - intros j. specialize (A j). li_upd i; [rewrite P in A; exact A|exact A].
Qed.

Lemma li_no_writer : forall l ng ph i, lock_inv l ng ph -> 0 < ng i + is_look (ph i) -> is_down (ph i) = 0 -> rw_writer l = None.
Proof.
  intros l ng ph i [R W E A N] G D. destruct (rw_writer l) eqn:EW; [|reflexivity]. specialize (R i).
  rewrite E in R by congruence. cbn in R. lia.
Qed.

Lemma li_do_unread : forall l ng ph i, lock_inv l ng ph -> ph i = PLook ->
  lock_inv (rw_unread i l) ng (upd ph i PNone).
Proof.
  intros l ng ph i I P. pose proof (li_no_writer _ _ _ i I) as NW. rewrite P in NW. cbn in NW. specialize (NW ltac:(lia) eq_refl).
  destruct I as [R W E A N]. split; cbn [rw_unread rw_readers rw_writer rw_wait]; auto.
  - intros j. specialize (R j). rewrite cnt_remove. li_upd i; [rewrite Nat.eqb_refl; rewrite P in R; cbn in *; lia|].
    destruct (Nat.eqb_spec i j); [congruence|exact R].
  - intros j. specialize (W j). li_upd i; [rewrite P in W; exact W|exact W].
  - congruence.
  - intros j. specialize (A j). li_upd i; [rewrite P in A; exact A|exact A].
Qed.

Lemma li_do_drop : forall l ng ph i n, lock_inv l ng ph -> ph i = PNone -> ng i = S n ->
  lock_inv (rw_unread i l) (upd ng i n) ph.
Proof.
  intros l ng ph i n I P G. pose proof (li_no_writer _ _ _ i I) as NW. rewrite P in NW. cbn in NW. specialize (NW ltac:(lia) eq_refl).
  destruct I as [R W E A N]. split; cbn [rw_unread rw_readers rw_writer rw_wait]; auto.
  - intros j. specialize (R j). rewrite cnt_remove. li_upd i; [rewrite Nat.eqb_refl; rewrite P in *; cbn in *; lia|].
    destruct (Nat.eqb_spec i j); [congruence|exact R].
  - congruence.
Qed.

Lemma li_do_request : forall l ng ph i, lock_inv l ng ph -> ph i = PNone ->
  lock_inv (rw_request i l) ng (upd ph i PWait).
Proof.
  intros l ng ph i [R W E A N] P. split; cbn [rw_request rw_readers rw_writer rw_wait]; auto.
  - intros j. specialize (R j). li_upd i; [rewrite P in R; exact R|exact R].
  - intros j. specialize (W j). li_upd i; [rewrite P in W; exact W|exact W].
  - intros j. specialize (A j). cbn [In]. li_upd i; [cbn; tauto|]. rewrite <- A. split; [intros [X|X]; [congruence|exact X]|auto].
  - constructor; [|exact N]. rewrite A, P. discriminate.
Qed.

Lemma li_do_write : forall l ng ph i l', lock_inv l ng ph -> ph i = PWait -> rw_write i l = Some l' ->
  lock_inv l' ng (upd ph i PWrite).
Proof.
  intros l ng ph i l' [R W E A N] P H. unfold rw_write in H. destruct (rw_readers l) eqn:ER; [|discriminate].
  destruct (rw_writer l) eqn:EW; [discriminate|]. inversion H; subst; clear H.
  split; cbn [rw_readers rw_writer rw_wait]; auto.
  - intros j. specialize (R j). li_upd i; [rewrite P in R; exact R|exact R].
  - intros j. specialize (W j). li_upd i; [cbn; tauto|]. split; [congruence|]. intros X. apply W in X. discriminate.
  - intros j. specialize (A j). rewrite remove_one_In by exact N. li_upd i; [cbn; split; [tauto|discriminate]|].
    rewrite <- A. split; [tauto|]. intros X. split; [exact X|congruence].
  - now apply remove_one_NoDup.
Qed.

Lemma li_do_guard : forall l ng ph i, lock_inv l ng ph -> ph i = PWrite ->
  lock_inv l (upd ng i (S (ng i))) (upd ph i PDown).
Proof.
  intros l ng ph i [R W E A N] P. split; auto.
  - intros j. specialize (R j). li_upd i; [rewrite P in R; cbn in *; lia|exact R].
  - intros j. specialize (W j). li_upd i; [rewrite P in W; exact W|exact W].
  - intros j. specialize (A j). li_upd i; [rewrite P in A; exact A|exact A].
Qed.

Lemma li_do_downgrade : forall l ng ph i, lock_inv l ng ph -> ph i = PDown ->
  lock_inv (rw_downgrade i l) ng (upd ph i PNone).
Proof.
  intros l ng ph i [R W E A N] P. pose proof (proj2 (W i)) as EW. rewrite P in EW. specialize (EW eq_refl).
  split; cbn [rw_downgrade rw_readers rw_writer rw_wait]; auto.
  - intros j. specialize (R j). cbn [cnt]. li_upd i; [rewrite Nat.eqb_refl; rewrite P in R; cbn in *; lia|].
    destruct (Nat.eqb_spec i j); [congruence|]. exact R.
  - intros j. specialize (W j). li_upd i; [cbn; split; discriminate|]. split; [discriminate|]. intros X. apply W in X. congruence.
  - congruence.
  - intros j. specialize (A j). li_upd i; [rewrite P in A; exact A|exact A].
Qed.

Lemma li_do_unwrite : forall l ng ph i, lock_inv l ng ph -> ph i = PWrite ->
  lock_inv (rw_unwrite l) ng (upd ph i PNone).
Proof.
  intros l ng ph i [R W E A N] P. pose proof (proj2 (W i)) as EW. rewrite P in EW. specialize (EW eq_refl).
  split; cbn [rw_unwrite rw_readers rw_writer rw_wait]; auto.
  - intros j. specialize (R j). li_upd i; [rewrite P in R; exact R|exact R].
  - intros j. specialize (W j). li_upd i; [cbn; split; discriminate|]. split; [discriminate|]. intros X. apply W in X. congruence.
  - intros j. specialize (A j). li_upd i; [rewrite P in A; exact A|exact A].
Qed.

(** A writer is alone. *)
Lemma li_alone : forall l ng ph i, lock_inv l ng ph -> ph i = PWrite -> forall j, ng j = 0 /\ is_look (ph j) = 0.
Proof.
  intros l ng ph i [R W E A N] P j. pose proof (proj2 (W i)) as EW. rewrite P in EW. specialize (EW eq_refl).
  specialize (R j). rewrite E in R by congruence. cbn in R. destruct (ph j) eqn:PJ; cbn in *; try lia.
  exfalso. pose proof (proj2 (W j)) as EJ. rewrite PJ in EJ. specialize (EJ eq_refl). assert (i = j) by congruence. subst. congruence.
Qed.
