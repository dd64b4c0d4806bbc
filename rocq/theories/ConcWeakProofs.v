(** The calls on a cell take effect in its modification order. *)
From Coq Require Import List NArith ZArith Bool Arith Lia.
From Verif Require Import Base FloatModel MetricModel ConcModel ConcWeakModel ConcWeakSpec.
Import ListNotations.

(** ** Lists *)

Lemma rank_notin : forall l e, ~ In e l -> rank_in l e = 0.
Proof.
  induction l as [|d l IH]; intros e N; [reflexivity|]. cbn. destruct (Nat.eqb_spec d e) as [->|D]; [destruct N; now left|].
  rewrite IH; [reflexivity|]. intros I. apply N. now right.
Qed.
Lemma rank_split : forall a b e, ~ In e a -> rank_in (a ++ e :: b) e = S (length a).
Proof.
  induction a as [|d a IH]; intros b e N; cbn; [now rewrite Nat.eqb_refl|].
  destruct (Nat.eqb_spec d e) as [->|D]; [destruct N; now left|]. rewrite IH; [reflexivity|]. intros I. apply N. now right.
Qed.
Lemma rank_le : forall l e, rank_in l e <= length l.
Proof.
  induction l as [|d l IH]; intros e; cbn; [lia|]. destruct (Nat.eqb d e); [lia|]. specialize (IH e). destruct (rank_in l e); lia.
Qed.
Lemma nodup_split : forall {A} (l : list A) e, NoDup l -> In e l -> exists a b, l = a ++ e :: b /\ ~ In e a.
Proof.
  intros A l e N I. apply in_split in I as (a & b & ->). exists a, b. split; [reflexivity|].
  intros J. apply NoDup_remove_2 in N. apply N, in_or_app. now left.
Qed.

Lemma nodup_concat : forall {A B} (f : A -> list B) ks p q k k' e, NoDup (concat (map f ks)) ->
  nth_error ks p = Some k -> nth_error ks q = Some k' -> In e (f k) -> In e (f k') -> p = q.
Proof.
  intros A B f ks. induction ks as [|h ks IH]; intros p q k k' e N P Q I J; [destruct p; discriminate|].
  cbn [map concat] in N.
  assert (D : forall x, In x (f h) -> In x (concat (map f ks)) -> False).
  { intros x X Y. revert N X Y. generalize (f h), (concat (map f ks)). clear. induction l as [|z l IH]; intros m N X Y; [destruct X|].
    cbn in N. inversion N; subst. destruct X as [->|X]; [apply H1, in_or_app; now right|]. exact (IH m H2 X Y). }
  assert (M : forall p k, nth_error ks p = Some k -> forall x, In x (f k) -> In x (concat (map f ks))).
  { intros p' k0 E x X. apply in_concat. exists (f k0). split; [|exact X]. apply in_map. eapply nth_error_In; eauto. }
  destruct p as [|p], q as [|q]; cbn in P, Q.
  - reflexivity.
  - injection P as <-. destruct (D e I (M _ _ Q e J)).
  - injection Q as <-. destruct (D e J (M _ _ P e I)).
  - f_equal. eapply IH; eauto. clear - N. revert N. generalize (f h), (concat (map f ks)). induction l as [|z l IH]; intros m N; [exact N|].
    inversion N; subst. now apply IH.
Qed.

Lemma Forall2_nodup : forall {A B} (R : A -> B -> Prop) l m, Forall2 R l m -> NoDup l ->
  (forall a b p, In a l -> In b l -> R a p -> R b p -> a = b) -> NoDup m.
Proof.
  intros A B R l m F. induction F as [|a p l m X F IH]; intros N U; [constructor|]. inversion N; subst. constructor.
  - intros I. assert (exists b, In b l /\ R b p) as (b & J & Y).
    { clear - F I. induction F as [|b q l m Y F IH]; [destruct I|]. destruct I as [->|I]; [exists b; split; [now left|exact Y]|].
      destruct (IH I) as (c & J & Z). exists c. split; [now right|exact Z]. }
    rewrite (U a b p) in H1; [contradiction|now left|now right|exact X|exact Y].
  - apply IH; [assumption|]. intros; eapply U; eauto; now right.
Qed.

Lemma Forall2_owner : forall {A B} (R : A -> B -> Prop) l, (forall a, In a l -> exists p, R a p) -> exists m, Forall2 R l m.
Proof.
  intros A B R. induction l as [|a l IH]; intros H; [exists []; constructor|].
  destruct (H a (or_introl eq_refl)) as (p & P). destruct IH as (m & M); [intros; apply H; now right|]. exists (p :: m). now constructor.
Qed.

Lemma Forall2_nth_r : forall {A B} (R : A -> B -> Prop) l m, Forall2 R l m -> forall p, In p m -> exists a, In a l /\ R a p.
Proof.
  intros A B R l m F. induction F as [|a q l m X F IH]; intros p I; [destruct I|].
  destruct I as [->|I]; [exists a; split; [now left|exact X]|]. destruct (IH p I) as (b & J & Y). exists b. split; [now right|exact Y].
Qed.
Lemma Forall2_nth_l : forall {A B} (R : A -> B -> Prop) l m, Forall2 R l m -> forall a, In a l -> exists p, In p m /\ R a p.
Proof.
  intros A B R l m F. induction F as [|a q l m X F IH]; intros b I; [destruct I|].
  destruct I as [->|I]; [exists q; split; [now left|exact X]|]. destruct (IH b I) as (p & J & Y). exists p. split; [now right|exact Y].
Qed.

(** ** One cell *)

Section Cell.
  Context {V Op Res : Type}.
  Variable does : Op -> Res -> list (nat * access V) -> Prop.
  Variable E : execution V.
  Variable ks : list (wcall Op Res).
  Hypothesis CON : consistent E.
  Hypothesis KS : calls_of does E ks.
  Variable c : nat.
  Variable changes : Op -> bool.
  Variable effect : Op -> V -> V.

  Definition one_change (op : Op) (l : list (nat * access V)) : Prop :=
    exists l1 a l2, l = l1 ++ (c, a) :: l2 /\
      (forall ca, In ca (l1 ++ l2) -> fst ca = c -> value_written (snd ca) = None) /\
      ((exists v, a = AUpdate v (effect op v)) \/ (exists w, a = AWrite w /\ forall v, effect op v = w)).
  Hypothesis CHANGES : forall op r l, does op r l -> changes op = true -> one_change op l.
  Hypothesis KEEPS : forall op r l a, does op r l -> changes op = false -> In (c, a) l -> value_written a = None.

  Definition owns (e p : nat) : Prop := exists k, nth_error ks p = Some k /\ In e (k_accesses k).

  Lemma owns_unique : forall e p q, owns e p -> owns e q -> p = q.
  Proof.
    intros e p q (k & P & I) (k' & Q & J). eapply (nodup_concat k_accesses); eauto. exact (ks_apart _ _ _ KS).
  Qed.

  Lemma Forall2_in_l : forall (l : list nat) (m : list (nat * access V)) e,
    Forall2 (fun e ca => nth_error (x_accesses E) e = Some ca) l m -> In e l -> exists ca, In ca m /\ nth_error (x_accesses E) e = Some ca.
  Proof. intros l m e F I. exact (Forall2_nth_l _ _ _ F e I). Qed.

  (** The changing access of a call. *)
  Lemma change_access : forall p k, nth_error ks p = Some k -> changes (k_op k) = true ->
    exists e a, In e (k_accesses k) /\ access_at E e c a /\ In e (x_mo E c) /\
      ((exists v, a = AUpdate v (effect (k_op k) v)) \/ (exists w, a = AWrite w /\ forall v, effect (k_op k) v = w)) /\
      forall e', In e' (k_accesses k) -> In e' (x_mo E c) -> e' = e.
  Proof.
    intros p k P C. destruct (ks_does _ _ _ KS k (nth_error_In _ _ P)) as (l & F & D).
    destruct (CHANGES _ _ _ D C) as (l1 & a & l2 & -> & NW & A).
    apply Forall2_app_inv_r in F as (e1 & er & F1 & F2 & EK). inversion F2 as [|e ? e2 ? AE F3]; subst.
    exists e, a. rewrite EK.
    assert (W : exists w, value_written a = Some w) by (destruct A as [(v & ->)|(w & -> & _)]; cbn; eauto).
    assert (IM : In e (x_mo E c)). { apply (mo_writes E CON). destruct W as (w & W). exists a, w. split; [exact AE|exact W]. }
    split; [apply in_or_app; right; now left|]. split; [exact AE|]. split; [exact IM|]. split; [exact A|].
    intros e' I J. apply (mo_writes E CON) in J as (b & w & AB & WB). unfold access_at in AB.
    assert (X : forall l l', Forall2 (fun e ca => nth_error (x_accesses E) e = Some ca) l l' -> In e' l -> In (c, b) l').
    { intros l l' F I'. destruct (Forall2_in_l _ _ _ F I') as (ca & J' & E'). rewrite AB in E'. injection E' as <-. exact J'. }
    apply in_app_or in I as [I|[I|I]]; [| now symmetry |].
    - exfalso. specialize (X _ _ F1 I). specialize (NW (c, b) (in_or_app _ _ _ (or_introl X)) eq_refl). cbn in NW. congruence.
    - exfalso. specialize (X _ _ F3 I). specialize (NW (c, b) (in_or_app _ _ _ (or_intror X)) eq_refl). cbn in NW. congruence.
  Qed.

  Lemma owner_changes : forall e p k, In e (x_mo E c) -> nth_error ks p = Some k -> In e (k_accesses k) -> changes (k_op k) = true.
  Proof.
    intros e p k I P J. destruct (changes (k_op k)) eqn:C; [reflexivity|]. exfalso.
    destruct (ks_does _ _ _ KS k (nth_error_In _ _ P)) as (l & F & D).
    destruct (Forall2_in_l _ _ _ F J) as (ca & K & A). apply (mo_writes E CON) in I as (b & w & AB & WB). unfold access_at in AB.
    rewrite AB in A. injection A as <-. rewrite (KEEPS _ _ _ _ D C K) in WB. discriminate.
  Qed.

  Variable order : list nat.
  Hypothesis ORD : Forall2 owns (x_mo E c) order.

  Lemma order_members : forall p, In p order <-> exists k, nth_error ks p = Some k /\ changes (k_op k) = true.
  Proof.
    intros p. split.
    - intros I. destruct (Forall2_nth_r _ _ _ ORD p I) as (e & J & k & P & K). exists k. split; [exact P|]. eapply owner_changes; eauto.
    - intros (k & P & C). destruct (change_access p k P C) as (e & a & I & _ & J & _).
      destruct (Forall2_nth_l _ _ _ ORD e J) as (q & Q & O). replace p with q; [exact Q|]. eapply owns_unique; [exact O|]. now exists k.
  Qed.

  Lemma order_nodup : NoDup order.
  Proof.
    apply (Forall2_nodup _ _ _ ORD); [apply (mo_nodup E CON)|]. intros a b p A B (k & P & I) (k' & P' & J).
    rewrite P in P'. injection P' as <-. pose proof (owner_changes a p k A P I) as C.
    destruct (change_access p k P C) as (e & x & _ & _ & _ & _ & U). rewrite (U a I A), (U b J B). reflexivity.
  Qed.

  (** The value after the writes [pre] of the modification order. *)
  Definition last_value (pre : list nat) (v : V) : Prop :=
    match rev pre with
    | [] => v = x_init E c
    | e :: _ => exists a, access_at E e c a /\ value_written a = Some v
    end.

  Lemma last_value_det : forall pre v w, last_value pre v -> last_value pre w -> v = w.
  Proof.
    intros pre v w. unfold last_value. destruct (rev pre) as [|e t]; [congruence|].
    intros (a & A & X) (b & B & Y). unfold access_at in *. rewrite A in B. injection B as <-. congruence.
  Qed.

  Lemma prefix_value : forall pre opre post, x_mo E c = pre ++ post -> Forall2 owns pre opre ->
    last_value pre (outcome_of ks effect (x_init E c) opre).
  Proof.
    intros pre. pattern pre. apply rev_ind; clear pre.
    - intros opre post _ F. inversion F; subst. reflexivity.
    - intros e pre IH opre post M F. apply Forall2_app_inv_l in F as (o1 & o2 & F1 & F2 & ->).
      inversion F2 as [|? p ? ? O F3]; subst. inversion F3; subst. rewrite <- app_assoc in M. cbn [app] in M.
      specialize (IH o1 (e :: post) M F1).
      destruct O as (k & P & I).
      assert (IM : In e (x_mo E c)) by (rewrite M; apply in_or_app; right; now left).
      pose proof (owner_changes e p k IM P I) as C.
      destruct (change_access p k P C) as (e' & a & _ & A & _ & S & U). rewrite <- (U e I IM) in A.
      unfold outcome_of, ops_of_calls. rewrite flat_map_app, fold_left_app. cbn [flat_map]. rewrite P. cbn [app fold_left].
      fold (ops_of_calls ks o1). change (fold_left (fun v op => effect op v) (ops_of_calls ks o1) (x_init E c)) with (outcome_of ks effect (x_init E c) o1).
      set (v0 := outcome_of ks effect (x_init E c) o1) in *.
      unfold last_value. rewrite rev_app_distr. cbn [rev app]. exists a. split; [exact A|].
      destruct S as [(v & ->)|(w & -> & S)]; [|cbn; now rewrite S].
      cbn. f_equal. f_equal.
      (* the value seen by a read-modify-write *)
      pose proof (rmw_atomic E CON _ _ _ _ A) as R. cbn [rank] in R.
      assert (NE : ~ In e pre).
      { pose proof (mo_nodup E CON c) as N. rewrite M in N. apply NoDup_remove_2 in N. intros J. apply N, in_or_app. now left. }
      rewrite M in R at 1. rewrite rank_split in R by exact NE. injection R as R.
      pose proof (rf_sees E CON _ _ _ _ A eq_refl) as RF.
      apply (last_value_det pre); [|exact IH].
      destruct (x_rf E e) as [w|]; cbn [rank] in R.
      + destruct RF as (b & B & W).
        assert (IW : In w (x_mo E c)) by (apply (mo_writes E CON); eauto).
        destruct (nodup_split _ _ (mo_nodup E CON c) IW) as (x & y & EQ & NX).
        rewrite EQ, rank_split in R by exact NX.
        assert (PX : pre = x ++ [w]).
        { rewrite EQ in M. clear - M R. revert pre M R. induction x as [|z x IH]; intros [|q pre] M R; cbn in *; try lia.
          - injection M as -> M. destruct pre; [reflexivity|discriminate].
          - injection M as -> M. f_equal. apply IH; [exact M|lia]. }
        unfold last_value. rewrite PX, rev_app_distr. cbn [rev app]. eauto.
      + destruct pre; [|discriminate]. exact RF.
  Qed.

  Definition seen_of (e : nat) : list nat := firstn (rank E c (x_rf E e)) order.

  Lemma split_at : forall a e b, x_mo E c = a ++ e :: b -> exists oa p ob, order = oa ++ p :: ob /\
    Forall2 owns a oa /\ owns e p /\ Forall2 owns b ob /\ length oa = length a.
  Proof.
    intros a e b M. pose proof ORD as F. rewrite M in F. apply Forall2_app_inv_l in F as (oa & r & F1 & F2 & ->).
    inversion F2; subst. eexists _, _, _. split; [reflexivity|]. split; [exact F1|]. split; [eassumption|]. split; [assumption|].
    clear - F1. induction F1; cbn; [reflexivity|now f_equal].
  Qed.

  Lemma order_hb : forall p q k k', nth_error ks p = Some k -> nth_error ks q = Some k' -> In p order -> In q order ->
    before E k k' -> exists a b d, order = a ++ p :: b ++ q :: d.
  Proof.
    intros p q k k' P Q I J B.
    apply order_members in I as (k0 & P0 & C). rewrite P in P0. injection P0 as <-.
    apply order_members in J as (k1 & Q0 & C'). rewrite Q in Q0. injection Q0 as <-.
    destruct (change_access p k P C) as (e & a & IE & _ & ME & _). destruct (change_access q k' Q C') as (f & a' & IF & _ & MF & _).
    pose proof (co_ww E CON c e f ME MF (B e f IE IF)) as R. cbn [rank] in R.
    destruct (nodup_split _ _ (mo_nodup E CON c) ME) as (x & y & EQ & NX).
    assert (IY : In f y).
    { rewrite EQ in MF. apply in_app_or in MF as [MF|[->|MF]]; [|lia|exact MF]. exfalso.
      apply in_split in MF as (x1 & x2 & EX). rewrite EQ, rank_split in R by exact NX.
      assert (NF : ~ In f x1). { pose proof (mo_nodup E CON c) as N. rewrite EQ, EX, <- app_assoc in N. cbn [app] in N. apply NoDup_remove_2 in N. intros K. apply N, in_or_app. now left. }
      rewrite EX, <- app_assoc in R. cbn [app] in R. rewrite rank_split in R by exact NF. rewrite app_length in R. cbn in R. lia. }
    apply in_split in IY as (y1 & y2 & ->).
    destruct (split_at x e _ EQ) as (oa & p' & ob & EO & _ & OP & F & _). apply Forall2_app_inv_l in F as (o1 & o2 & _ & F & ->).
    destruct o2 as [|q' o3]; [inversion F|]. assert (OQ : owns f q') by (clear - F; inversion F; assumption). exists oa, o1, o3. rewrite EO.
    replace p with p' by (apply (owns_unique e); [exact OP|now exists k]). replace q with q' by (apply (owns_unique f); [exact OQ|now exists k']). reflexivity.
  Qed.

  Lemma read_explained : forall k e v, In k ks -> In e (k_accesses k) -> access_at E e c (ARead v) ->
    explained E ks effect order (x_init E c) k v (seen_of e).
  Proof.
    intros k e v IK IE A. unfold seen_of. exists (skipn (rank E c (x_rf E e)) order). split; [symmetry; apply firstn_skipn|].
    pose proof (rf_sees E CON _ _ _ _ A eq_refl) as RF. split.
    - destruct (x_rf E e) as [w|]; cbn [rank]; [|exact RF].
      destruct RF as (b & B & W). assert (IW : In w (x_mo E c)) by (apply (mo_writes E CON); eauto).
      destruct (nodup_split _ _ (mo_nodup E CON c) IW) as (x & y & EQ & NX). rewrite EQ, rank_split by exact NX.
      destruct (split_at x w y EQ) as (oa & p & ob & -> & F1 & OP & F2 & L).
      replace (firstn (S (length x)) (oa ++ p :: ob)) with (oa ++ [p]).
      2: { rewrite firstn_app, firstn_all2 by lia. replace (S (length x) - length oa) with 1 by lia. reflexivity. }
      apply (last_value_det (x ++ [w])).
      + unfold last_value. rewrite rev_app_distr. cbn [rev app]. eauto.
      + apply (prefix_value _ _ y); [rewrite <- app_assoc; exact EQ|]. apply Forall2_app; [exact F1|]. constructor; [exact OP|constructor].
    - intros q k' Q IQ. apply order_members in IQ as (k0 & Q0 & C). rewrite Q in Q0. injection Q0 as <-.
      destruct (change_access q k' Q C) as (f & a & IF & _ & MF & _).
      destruct (nodup_split _ _ (mo_nodup E CON c) MF) as (x & y & EQ & NX).
      destruct (split_at x f y EQ) as (oa & q' & ob & EO & _ & OQ & _ & L).
      replace q' with q in * by (apply (owns_unique f); [now exists k'|exact OQ]).
      assert (RK : rank E c (Some f) = S (length x)) by (cbn [rank]; rewrite EQ; now apply rank_split).
      set (n := rank E c (x_rf E e)) in *. split; intros B.
      + pose proof (co_wr E CON c f e _ v MF A eq_refl (B f e IF IE)) as R. fold n in R. rewrite RK in R.
        rewrite EO, firstn_app. apply in_or_app. right. replace (n - length oa) with (S (n - length oa - 1)) by lia. now left.
      + pose proof (co_rw E CON c e _ v f A eq_refl MF (B e f IE IF)) as R. fold n in R. rewrite RK in R.
        rewrite EO, skipn_app. apply in_or_app. right. replace (n - length oa) with 0 by lia. now left.
  Qed.

  Lemma reads_grow : forall e f v w, access_at E e c (ARead v) -> access_at E f c (ARead w) -> x_hb E e f ->
    exists more, seen_of f = seen_of e ++ more.
  Proof.
    intros e f v w A B H. pose proof (co_rr E CON c e f _ _ v w A eq_refl B eq_refl H) as R. unfold seen_of.
    exists (skipn (rank E c (x_rf E e)) (firstn (rank E c (x_rf E f)) order)).
    rewrite <- (firstn_skipn (rank E c (x_rf E e)) (firstn (rank E c (x_rf E f)) order)) at 1. f_equal.
    rewrite firstn_firstn. now rewrite Nat.min_l.
  Qed.
End Cell.

Section CellTheorem.
  Context {V Op Res : Type}.
  Variable does : Op -> Res -> list (nat * access V) -> Prop.
  Variable c : nat.
  Variable changes : Op -> bool.
  Variable effect : Op -> V -> V.
  Hypothesis CHANGES : forall op r l, does op r l -> changes op = true -> one_change c effect op l.
  Hypothesis KEEPS : forall op r l a, does op r l -> changes op = false -> In (c, a) l -> value_written a = None.

  Theorem cell_order : forall (E : execution V) (ks : list (wcall Op Res)), consistent E -> calls_of does E ks ->
    exists order seen, order_of_changes E ks changes order /\
      (forall k e v, In k ks -> In e (k_accesses k) -> access_at E e c (ARead v) ->
         explained E ks effect order (x_init E c) k v (seen e)) /\
      (forall e f v w, access_at E e c (ARead v) -> access_at E f c (ARead w) -> x_hb E e f ->
         exists more, seen f = seen e ++ more).
  Proof.
    intros E ks CON KS.
    destruct (Forall2_owner (owns ks) (x_mo E c)) as (order & ORD).
    { intros e I. apply (ks_all _ _ _ KS) in I. apply in_concat in I as (l & J & I). apply in_map_iff in J as (k & <- & J).
      apply In_nth_error in J as (p & P). exists p, k. now split. }
    exists order, (seen_of E c order). split; [split; [|split]|split].
    - eapply order_nodup; eauto.
    - eapply order_members; eauto.
    - intros p q k k' P Q I J B. eapply order_hb; eauto.
    - intros k e v. eapply read_explained; eauto.
    - intros e f v w. eapply reads_grow; eauto.
  Qed.
End CellTheorem.
