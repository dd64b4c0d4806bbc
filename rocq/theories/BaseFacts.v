(** Facts about the vocabulary of [Base]. *)
From Coq Require Import List NArith ZArith Bool Lia ZifyBool ZifyN ZifyNat.
From Verif Require Import Base.
Import ListNotations.

Lemma beqb_spec : forall a b, beqb a b = true <-> a = b.
Proof.
  induction a as [|x a IH]; destruct b as [|y b]; simpl; split; intro H; try easy.
  - apply andb_true_iff in H as [H1 H2]. apply N.eqb_eq in H1. apply IH in H2. now subst.
  - injection H as -> ->. rewrite N.eqb_refl. simpl. now apply IH.
Qed.

Lemma beqb_refl : forall a, beqb a a = true.
Proof. intro; now apply beqb_spec. Qed.

Lemma beqb_neq : forall a b, beqb a b = false <-> a <> b.
Proof.
  intros a b. destruct (beqb a b) eqn:E.
  - apply beqb_spec in E. split; congruence.
  - split; [|easy]. intros _ H. apply beqb_spec in H. congruence.
Qed.

Lemma bytes_eq_dec : forall a b : bytes, {a = b} + {a <> b}.
Proof. intros. destruct (beqb a b) eqn:E; [left; now apply beqb_spec | right; now apply beqb_neq]. Qed.

Lemma nlen_length : forall {A} (l : list A), nlen l = N.of_nat (length l).
Proof. induction l; simpl; [easy|]. rewrite IHl. lia. Qed.

Lemma nlen_app : forall {A} (a b : list A), nlen (a ++ b) = (nlen a + nlen b)%N.
Proof. intros. rewrite !nlen_length, app_length. lia. Qed.

Lemma nlen_map : forall {A B} (f : A -> B) l, nlen (map f l) = nlen l.
Proof. intros. now rewrite !nlen_length, map_length. Qed.

Lemma nnth_nth_error : forall {A} (l : list A) i, nnth l i = nth_error l (N.to_nat i).
Proof.
  induction l; intros i; simpl.
  - now destruct (N.to_nat i).
  - destruct (N.eqb_spec i 0).
    + subst. easy.
    + rewrite IHl. replace (N.to_nat i) with (S (N.to_nat (N.pred i))) by lia. easy.
Qed.

Lemma nnth_Some_lt : forall {A} (l : list A) i x, nnth l i = Some x -> (i < nlen l)%N.
Proof.
  intros A l i x H. rewrite nnth_nth_error in H.
  assert (N.to_nat i < length l)%nat by (apply nth_error_Some; congruence).
  rewrite nlen_length. lia.
Qed.

Lemma nnth_lt_Some : forall {A} (l : list A) i, (i < nlen l)%N -> exists x, nnth l i = Some x.
Proof.
  intros A l i H. rewrite nnth_nth_error. rewrite nlen_length in H.
  destruct (nth_error l (N.to_nat i)) eqn:E; [eauto|].
  apply nth_error_None in E. lia.
Qed.

Lemma nnth_None : forall {A} (l : list A) i, nnth l i = None <-> (nlen l <= i)%N.
Proof.
  intros A l i. rewrite nnth_nth_error, nlen_length. rewrite nth_error_None. lia.
Qed.

Lemma nnth_In : forall {A} (l : list A) i x, nnth l i = Some x -> In x l.
Proof. intros A l i x H. rewrite nnth_nth_error in H. eapply nth_error_In; eauto. Qed.

Lemma In_nnth : forall {A} (l : list A) x, In x l -> exists i, nnth l i = Some x.
Proof.
  intros A l x H. apply In_nth_error in H as [n H]. exists (N.of_nat n).
  now rewrite nnth_nth_error, Nnat.Nat2N.id.
Qed.

Lemma nnth_NoDup_inj : forall {A} (l : list A) i j x,
  NoDup l -> nnth l i = Some x -> nnth l j = Some x -> i = j.
Proof.
  intros A l i j x ND Hi Hj. pose proof (nnth_Some_lt _ _ _ Hi) as Li.
  rewrite nnth_nth_error in *. rewrite nlen_length in Li.
  assert (N.to_nat i = N.to_nat j).
  { eapply NoDup_nth_error; eauto; [lia|congruence]. }
  lia.
Qed.

Lemma nnth_app1 : forall {A} (a b : list A) i, (i < nlen a)%N -> nnth (a ++ b) i = nnth a i.
Proof.
  intros. rewrite !nnth_nth_error. rewrite nlen_length in H. apply nth_error_app1. lia.
Qed.

Lemma nnth_app2 : forall {A} (a b : list A) i, (nlen a <= i)%N -> nnth (a ++ b) i = nnth b (i - nlen a).
Proof.
  intros. rewrite !nnth_nth_error, nlen_length in *. rewrite nth_error_app2 by lia. f_equal. lia.
Qed.

Lemma nfind_Some : forall {A} (p : A -> bool) l i,
  nfind p l = Some i -> exists x, nnth l i = Some x /\ p x = true.
Proof.
  induction l; simpl; intros i H; [easy|].
  destruct (p a) eqn:E.
  - injection H as <-. exists a. easy.
  - destruct (nfind p l) eqn:F; [|easy]. injection H as <-.
    destruct (IHl n eq_refl) as (x & H1 & H2). exists x.
    destruct (N.eqb_spec (N.succ n) 0); [lia|]. rewrite N.pred_succ. easy.
Qed.

Lemma nfind_None : forall {A} (p : A -> bool) l,
  nfind p l = None <-> forall x, In x l -> p x = false.
Proof.
  induction l; simpl; split; intros H; try easy.
  - destruct (p a) eqn:E; [easy|]. destruct (nfind p l) eqn:F; [easy|].
    intros x [->|Hx]; [easy|]. now apply IHl.
  - rewrite (H a) by auto. replace (nfind p l) with (@None N); [easy|].
    symmetry. apply IHl. auto.
Qed.

Lemma nfind_beqb : forall l x i, nfind (beqb x) l = Some i -> nnth l i = Some x.
Proof.
  intros l x i H. apply nfind_Some in H as (y & H & E). apply beqb_spec in E. now subst.
Qed.

Lemma nfind_beqb_NoDup : forall l x i, NoDup l -> nnth l i = Some x -> nfind (beqb x) l = Some i.
Proof.
  intros l x i ND H. destruct (nfind (beqb x) l) as [j|] eqn:E.
  - f_equal. eapply nnth_NoDup_inj; eauto using nfind_beqb.
  - exfalso. rewrite nfind_None in E.
    specialize (E x (nnth_In _ _ _ H)). rewrite beqb_refl in E. easy.
Qed.

Lemma nfind_beqb_None : forall l x, nfind (beqb x) l = None <-> ~ In x l.
Proof.
  intros. rewrite nfind_None. split; intros H.
  - intro I. specialize (H x I). rewrite beqb_refl in H. easy.
  - intros y Hy. apply beqb_neq. intros ->. auto.
Qed.

Lemma assoc_Some_In : forall {V} k (l : list (bytes * V)) v, assoc k l = Some v -> In (k, v) l.
Proof.
  induction l as [|[k' v'] l IH]; simpl; intros v H; [easy|].
  destruct (beqb k k') eqn:E; [apply beqb_spec in E; left; congruence | right; auto].
Qed.

Lemma assoc_None : forall {V} k (l : list (bytes * V)), assoc k l = None <-> ~ In k (map fst l).
Proof.
  induction l as [|[k' v'] l IH]; simpl; [easy|].
  destruct (beqb k k') eqn:E.
  - apply beqb_spec in E. subst. split; [easy|]. intros []. auto.
  - apply beqb_neq in E. rewrite IH. split; intros H; [intros [?|?]; congruence || auto | auto].
Qed.

Lemma assoc_In_NoDup : forall {V} k v (l : list (bytes * V)),
  NoDup (map fst l) -> In (k, v) l -> assoc k l = Some v.
Proof.
  induction l as [|[k' v'] l IH]; simpl; intros ND H; [easy|].
  inversion ND; subst. destruct H as [H|H].
  - injection H as -> ->. now rewrite beqb_refl.
  - destruct (beqb k k') eqn:E; [|auto]. apply beqb_spec in E. subst.
    exfalso. apply H2. apply in_map_iff. exists (k', v). auto.
Qed.

Lemma W64_eq : W64 = (2 ^ 64)%N.
Proof. reflexivity. Qed.

Lemma W64_pos : (0 < W64)%N.
Proof. reflexivity. Qed.

Lemma u_add_small : forall bd a b, (a + b < W64)%N -> u_add bd a b = Done (a + b)%N.
Proof.
  intros [] a b H; unfold u_add.
  - destruct (N.ltb_spec (a + b) W64); [easy|lia].
  - now rewrite N.mod_small.
Qed.

Lemma u_mul_small : forall bd a b, (a * b < W64)%N -> u_mul bd a b = Done (a * b)%N.
Proof.
  intros [] a b H; unfold u_mul.
  - destruct (N.ltb_spec (a * b) W64); [easy|lia].
  - now rewrite N.mod_small.
Qed.

Lemma Forall2_impl : forall {A B} (P Q : A -> B -> Prop) l m,
  (forall a b, P a b -> Q a b) -> Forall2 P l m -> Forall2 Q l m.
Proof. induction 2; constructor; auto. Qed.

Lemma Forall2_length' : forall {A B} (P : A -> B -> Prop) l m, Forall2 P l m -> length l = length m.
Proof. induction 1; simpl; auto. Qed.

Lemma NoDup_map_filter : forall {A B} (f : A -> B) p l, NoDup (map f l) -> NoDup (map f (filter p l)).
Proof.
  induction l as [|x l IH]; simpl; intros ND; [constructor|]. inversion ND; subst.
  destruct (p x); [|auto]. simpl. constructor; [|auto].
  intro H. apply H1. apply in_map_iff in H as (y & E & Hy). apply filter_In in Hy as [Hy _].
  rewrite <- E. now apply in_map.
Qed.

Lemma NoDup_app_single : forall {A} (l : list A) x, NoDup l -> ~ In x l -> NoDup (l ++ [x]).
Proof.
  induction l as [|y l IH]; simpl; intros x ND H; [constructor; [easy|constructor]|].
  inversion ND; subst. constructor; [|apply IH; auto].
  rewrite in_app_iff. simpl. intros [?|[?|[]]]; [easy|]. subst. apply H. now left.
Qed.

(** Deciding duplicate-freeness, for examples. *)
Fixpoint nodupb (l : list bytes) : bool :=
  match l with [] => true | x :: t => negb (existsb (beqb x) t) && nodupb t end.

Lemma nodupb_NoDup : forall l, nodupb l = true -> NoDup l.
Proof.
  induction l as [|x l IH]; simpl; intros H; [constructor|].
  apply andb_true_iff in H as [H1 H2]. constructor; [|auto].
  intro I. rewrite negb_true_iff in H1. apply not_true_iff_false in H1. apply H1.
  apply existsb_exists. exists x. split; [easy|apply beqb_refl].
Qed.

Lemma NoDup_app_disjoint : forall {A} (a b : list A), NoDup a -> NoDup b ->
  (forall x, In x a -> In x b -> False) -> NoDup (a ++ b).
Proof.
  induction a as [|x a IH]; simpl; intros b Ha Hb D; [easy|]. inversion Ha; subst.
  constructor; [|apply IH; eauto].
  rewrite in_app_iff. intros [?|?]; [easy|]. eapply D; eauto.
Qed.

Lemma fold_symmetric_add : forall {A} (f : A -> N) l acc,
  fold_left (fun acc t => acc + f t)%N l acc = (acc + fold_right (fun t acc => f t + acc)%N 0%N l)%N.
Proof. induction l as [|x l IH]; intros acc; cbn [fold_left fold_right]; [lia|]. rewrite IH. lia. Qed.
