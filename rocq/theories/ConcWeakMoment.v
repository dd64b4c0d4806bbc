(** What the memory model leaves of the moments of C79: the calls a read sees are an
    initial part of every thread. *)
From Coq Require Import List NArith ZArith Bool Arith Permutation Lia.
From Verif Require Import Base FloatModel MetricModel ConcModel ConcSpec ConcWeakModel ConcWeakSpec ConcWeakTheorems ConcMomentSpec ConcMoment ConcWeakMomentSpec.
Import ListNotations.
Local Open Scope nat_scope.

Definition precedes (l : list nat) (p q : nat) : Prop := exists a b c, l = a ++ p :: b ++ q :: c.

Lemma same_order : forall l2 l1, NoDup l1 -> NoDup l2 -> (forall p, In p l1 <-> In p l2) -> (forall p q, precedes l2 p q -> precedes l1 p q) -> l1 = l2.
Proof.
  induction l2 as [|x l2 IH]; intros l1 N1 N2 M O.
  - destruct l1 as [|y l1]; [reflexivity|]. destruct (proj1 (M y) (or_introl eq_refl)).
  - destruct l1 as [|y l1]; [destruct (proj2 (M x) (or_introl eq_refl))|].
    apply NoDup_cons_iff in N1 as [A1 N1]. apply NoDup_cons_iff in N2 as [A2 N2].
    assert (XY : x = y).
    { destruct (proj1 (M y) (or_introl eq_refl)) as [E|I]; [exact E|]. exfalso.
      apply in_split in I as (b & c & ->). destruct (O x y) as (a & b' & c' & E); [exists [], b, c; reflexivity|].
      destruct a as [|z a]; injection E as EZ E; subst.
      - apply A2, in_or_app. right. now left.
      - apply A1, in_or_app. right. right. apply in_or_app. right. now left. }
    subst y. f_equal. apply IH; auto.
    + intros p. specialize (M p). cbn in M. split; intros I.
      * destruct (proj1 M (or_intror I)) as [->|]; [contradiction|assumption].
      * destruct (proj2 M (or_intror I)) as [->|]; [contradiction|assumption].
    + intros p q (a & b & c & ->). destruct (O p q) as (a' & b' & c' & E); [exists (x :: a), b, c; reflexivity|].
      destruct a' as [|z a']; injection E as EZ E; subst; [|exists a', b', c'; reflexivity].
      exfalso. apply A2, in_or_app. right. now left.
Qed.

Lemma ord_pairs : forall R t p q, ForallOrdPairs R t -> precedes t p q -> R p q.
Proof.
  intros R t p q F (a & b & c & ->). induction a as [|x a IH]; inversion F; subst; [|auto].
  match goal with H : Forall _ (b ++ q :: c) |- _ => rewrite Forall_forall in H; apply H end. apply in_or_app. right. now left.
Qed.

Lemma precedes_filter : forall f l p q, f p = true -> f q = true -> precedes l p q -> precedes (filter f l) p q.
Proof.
  intros f l p q FP FQ (a & b & c & ->). exists (filter f a), (filter f b), (filter f c).
  rewrite filter_app. cbn [filter]. rewrite FP, filter_app. cbn [filter]. now rewrite FQ.
Qed.

Lemma in_by_thread : forall t seen q, In q (by_thread t seen) <-> In q seen /\ In q t.
Proof.
  intros t seen q. unfold by_thread. rewrite filter_In, existsb_exists. split.
  - intros [A (y & B & C)]. apply Nat.eqb_eq in C. now subst.
  - intros [A B]. split; [exact A|]. exists q. split; [exact B|apply Nat.eqb_refl].
Qed.

Lemma nodup_concat : forall (ts : list (list nat)) t, NoDup (concat ts) -> In t ts -> NoDup t.
Proof.
  induction ts as [|u ts IH]; intros t N I; [contradiction|]. cbn in N. destruct I as [->|I].
  - clear IH. induction t as [|x t IH]; [constructor|]. inversion N; subst. constructor; [|auto]. intros J. apply H1, in_or_app. now left.
  - apply IH; [|exact I]. clear -N. induction u as [|x u IH]; [exact N|]. inversion N; auto.
Qed.

Lemma parts_of_threads : forall ts seen, NoDup (concat ts) -> NoDup seen -> (forall q, In q seen -> In q (concat ts)) ->
  Permutation seen (concat (map (fun t => by_thread t seen) ts)).
Proof.
  intros ts seen N NS I. apply NoDup_Permutation; [exact NS| |].
  - clear I. induction ts as [|t ts IH]; [constructor|]. cbn in N |- *.
    assert (D : forall q, In q t -> ~ In q (concat ts)).
    { clear -N. induction t as [|x t IH]; intros q I; [contradiction|]. inversion N; subst. destruct I as [->|I]; [|now apply IH].
      intros J. apply H1, in_or_app. now right. }
    assert (N' : NoDup (concat ts)) by (clear -N; induction t as [|x t IH]; [exact N|]; inversion N; auto).
    specialize (IH N'). clear N N'.
    assert (NF : NoDup (by_thread t seen)) by (now apply NoDup_filter).
    assert (DJ : forall q, In q (by_thread t seen) -> ~ In q (concat (map (fun t => by_thread t seen) ts))).
    { intros q A B. apply in_by_thread in A as [_ A]. apply (D q A). apply in_concat in B as (u & B & C). apply in_map_iff in B as (v & <- & B).
      apply in_by_thread in C as [_ C]. apply in_concat. eauto. }
    revert NF DJ. generalize (by_thread t seen). intros l NF DJ. induction l as [|x l IHl]; [exact IH|]. inversion NF; subst. cbn. constructor.
    + intros J. apply in_app_or in J as [J|J]; [contradiction|]. apply (DJ x (or_introl eq_refl) J).
    + apply IHl; auto. intros q Q. apply DJ. now right.
  - intros q. split; intros Q.
    + specialize (I q Q). apply in_concat in I as (t & A & B). apply in_concat. exists (by_thread t seen). split; [apply in_map_iff; eauto|]. apply in_by_thread. auto.
    + apply in_concat in Q as (u & A & B). apply in_map_iff in A as (t & <- & A). now apply in_by_thread in B.
Qed.

Section Cut.
  Context {V Op Res : Type}.
  Variable E : execution V.
  Variable ks : list (wcall Op Res).
  Variable changes : Op -> bool.
  Variable effect : Op -> V -> V.

  Lemma cut : forall order init k r seen ts, order_of_changes E ks changes order -> explained E ks effect order init k r seen ->
    threads_of E ks changes ts -> r = outcome_of ks effect init seen /\ cut_at E ks ts k seen.
  Proof.
    intros order init k r seen ts (ND & MEM & HB) (unseen & EO & R & S) (NT & MT & FT). split; [exact R|].
    assert (SAME : forall q, In q order <-> In q (concat ts)) by (intros q; rewrite MEM, MT; reflexivity).
    assert (NS : NoDup seen /\ forall q, In q seen -> ~ In q unseen).
    { rewrite EO in ND. clear -ND. induction seen as [|x l IH]; [split; [constructor|contradiction]|]. inversion ND; subst. destruct (IH H2) as [A B]. split.
      - constructor; [|exact A]. intros J. apply H1, in_or_app. now left.
      - intros q [->|Q]; [|now apply B]. intros J. apply H1, in_or_app. now right. }
    split; [apply NS|]. split; [intros q Q; apply SAME; rewrite EO; apply in_or_app; now left|]. split.
    - intros t IT. exists (by_thread t unseen). transitivity (by_thread t order).
      + symmetry. apply same_order.
        * apply NoDup_filter. exact ND.
        * now apply (nodup_concat ts).
        * intros p. rewrite in_by_thread. split; [tauto|]. intros I. split; [|exact I]. apply SAME. apply in_concat. eauto.
        * intros p q PR. pose proof (ord_pairs _ _ _ _ (FT t IT) PR) as B. destruct PR as (a & b & c & ET).
          assert (IP : In p t) by (rewrite ET; apply in_or_app; right; now left).
          assert (IQ : In q t) by (rewrite ET; apply in_or_app; right; right; apply in_or_app; right; now left).
          assert (OP : In p order) by (apply SAME, in_concat; eauto). assert (OQ : In q order) by (apply SAME, in_concat; eauto).
          destruct (proj1 (MEM p) OP) as (kp & KP & _). destruct (proj1 (MEM q) OQ) as (kq & KQ & _).
          assert (T : forall z, In z t -> existsb (Nat.eqb z) t = true) by (intros z Z; apply existsb_exists; exists z; split; [exact Z|apply Nat.eqb_refl]).
          apply precedes_filter; [now apply T|now apply T|]. exact (HB p q kp kq KP KQ OP OQ (B kp kq KP KQ)).
      + rewrite EO. unfold by_thread. apply filter_app.
    - intros q k' Q I. apply SAME in I. destruct (S q k' Q I) as [S1 S2]. split; [exact S1|]. intros B J. exact (proj2 NS q J (S2 B)).
  Qed.
End Cut.

Theorem weak_gauge_moment : forall E ks p k ts, consistent E -> calls_of igauge_does E ks -> threads_of E ks igauge_writes ts ->
  nth_error ks p = Some k -> k_op k = IRead ->
  exists seen, k_res k = outcome_of ks gauge_result (x_init E 0) seen /\ cut_at E ks ts k seen.
Proof.
  intros E ks p k ts CON KS TS P R. destruct (igauge_order E ks CON KS) as (order & seen & O & X & _).
  specialize (X p k P ltac:(now rewrite R)). exists (seen p). exact (cut E ks _ _ order _ k _ _ ts O X TS).
Qed.

Theorem weak_float_moment : forall E ks p k ts, consistent E -> calls_of float_does E ks -> threads_of E ks ConcWeakSpec.float_writes ts ->
  nth_error ks p = Some k -> k_op k = FRead ->
  exists seen, k_res k = outcome_of ks float_result (x_init E 0) seen /\ cut_at E ks ts k seen.
Proof.
  intros E ks p k ts CON KS TS P R. destruct (float_order E ks CON KS) as (order & seen & O & X & _).
  specialize (X p k P ltac:(now rewrite R)). exists (seen p). exact (cut E ks _ _ order _ k _ _ ts O X TS).
Qed.

Lemma ops_concat : forall Op Res (ks : list (wcall Op Res)) ls, ops_of_calls ks (concat ls) = concat (map (ops_of_calls ks) ls).
Proof. intros Op Res ks. induction ls as [|l ls IH]; [reflexivity|]. cbn. unfold ops_of_calls in *. now rewrite flat_map_app, IH. Qed.

(** Bounds for every thread add up. *)
Theorem weak_gauge_between : forall E ks p k ts, consistent E -> calls_of igauge_does E ks -> threads_of E ks igauge_writes ts ->
  nth_error ks p = Some k -> k_op k = IRead -> x_init E 0 = 0%Z -> (forall k', In k' ks -> is_set (k_op k') = false) ->
  forall lo hi : list nat -> Z,
  (forall t c, In t ts -> initial c t ->
     (forall q k', nth_error ks q = Some k' -> In q t -> (before E k' k -> In q c) /\ (before E k k' -> ~ In q c)) ->
     (lo t <= sum_over gauge_delta (ops_of_calls ks c) <= hi t)%Z) ->
  (- 2 ^ 63 <= sum_over lo ts)%Z -> (sum_over hi ts < 2 ^ 63)%Z -> (sum_over lo ts <= k_res k <= sum_over hi ts)%Z.
Proof.
  intros E ks p k ts CON KS TS P R I0 NS lo hi B L H.
  destruct (weak_gauge_moment E ks p k ts CON KS TS P R) as (seen & V & ND & SUB & INI & BEF). rewrite V. unfold outcome_of. rewrite I0, gauge_sum.
  2:{ intros op I. apply in_flat_map in I as (q & _ & I). destruct (nth_error ks q) as [k'|] eqn:Q; [|contradiction]. destruct I as [<-|[]]. apply NS. now apply nth_error_In in Q. }
  2:{ lia. }
  assert (S : fold_right Z.add 0%Z (map gauge_delta (ops_of_calls ks seen)) = sum_over (fun t => sum_over gauge_delta (ops_of_calls ks (by_thread t seen))) ts).
  { destruct TS as (NT & _ & _).
    assert (PM : Permutation (ops_of_calls ks seen) (concat (map (fun t => ops_of_calls ks (by_thread t seen)) ts))).
    { rewrite <- (map_map (fun t => by_thread t seen) (ops_of_calls ks)), <- ops_concat. unfold ops_of_calls.
      apply Permutation_flat_map. now apply parts_of_threads. }
    rewrite (sumZ_perm _ _ (Permutation_map gauge_delta PM)). clear. unfold sum_over.
    induction ts as [|t ts IH]; [reflexivity|]. cbn [map concat fold_right]. rewrite map_app, fold_right_app, <- IH.
    generalize (fold_right Z.add 0%Z (map gauge_delta (concat (map (fun t => ops_of_calls ks (by_thread t seen)) ts)))). intros z.
    induction (ops_of_calls ks (by_thread t seen)) as [|u l IHl]; cbn; [lia|]. rewrite IHl. lia. }
  rewrite S.
  assert (LE : (sum_over lo ts <= sum_over (fun t => sum_over gauge_delta (ops_of_calls ks (by_thread t seen))) ts <= sum_over hi ts)%Z).
  { assert (G : forall us, (forall t, In t us -> In t ts) -> (sum_over lo us <= sum_over (fun t => sum_over gauge_delta (ops_of_calls ks (by_thread t seen))) us <= sum_over hi us)%Z).
    { induction us as [|t us IH]; intros X; [cbn; lia|]. specialize (IH (fun q Q => X q (or_intror Q))). pose proof (X t (or_introl eq_refl)) as IT.
      assert (B' : (lo t <= sum_over gauge_delta (ops_of_calls ks (by_thread t seen)) <= hi t)%Z).
      { apply (B t _ IT (INI t IT)). intros q k' Q IQ. destruct (BEF q k' Q ltac:(apply in_concat; eauto)) as [B1 B2]. rewrite in_by_thread. split; [auto|]. intros X1 [X2 _]. exact (B2 X1 X2). }
      unfold sum_over in *. cbn [fold_right]. lia. }
    now apply G. }
  unfold wrapped. rewrite Z.mod_small by lia. lia.
Qed.

Theorem weak_gauge_in_flight : forall E ks p k ts, consistent E -> calls_of igauge_does E ks -> threads_of E ks igauge_writes ts ->
  nth_error ks p = Some k -> k_op k = IRead -> x_init E 0 = 0%Z -> (forall k', In k' ks -> is_set (k_op k') = false) ->
  (forall t c, In t ts -> initial c t -> (0 <= sum_over gauge_delta (ops_of_calls ks c) <= 1)%Z) ->
  (Z.of_nat (length ts) < 2 ^ 63)%Z -> (0 <= k_res k <= Z.of_nat (length ts))%Z.
Proof.
  intros E ks p k ts CON KS TS P R I0 NS B H.
  assert (C : forall z (l : list (list nat)), sum_over (fun _ => z) l = (z * Z.of_nat (length l))%Z).
  { intros z. induction l as [|t l IH]; [cbn; lia|]. unfold sum_over in *. cbn [fold_right length]. rewrite IH. lia. }
  pose proof (weak_gauge_between E ks p k ts CON KS TS P R I0 NS (fun _ => 0%Z) (fun _ => 1%Z)) as X. rewrite !C in X. specialize (X (fun t c I J _ => B t c I J)). lia.
Qed.

(** One thread writes: the value after an initial part of its calls. *)
Lemma one_thread : forall V Op Res (E : execution V) (ks : list (wcall Op Res)) t k seen, cut_at E ks [t] k seen -> initial seen t.
Proof.
  intros V Op Res E ks t k seen (_ & SUB & INI & _). assert (B : by_thread t seen = seen); [|rewrite <- B; apply INI; now left].
  assert (S : forall q, In q seen -> In q t) by (intros q Q; specialize (SUB q Q); cbn in SUB; now rewrite app_nil_r in SUB). clear -S.
  unfold by_thread. induction seen as [|x l IH]; [reflexivity|]. cbn [filter].
  assert (X : existsb (Nat.eqb x) t = true) by (apply existsb_exists; exists x; split; [apply S; now left|apply Nat.eqb_refl]).
  rewrite X, IH; [reflexivity|]. intros q Q. apply S. now right.
Qed.

Theorem weak_gauge_alone : forall E ks p k t, consistent E -> calls_of igauge_does E ks -> threads_of E ks igauge_writes [t] ->
  nth_error ks p = Some k -> k_op k = IRead ->
  exists c, initial c t /\ k_res k = outcome_of ks gauge_result (x_init E 0) c /\
    forall q k', nth_error ks q = Some k' -> In q t -> (before E k' k -> In q c) /\ (before E k k' -> ~ In q c).
Proof.
  intros E ks p k t CON KS TS P R. destruct (weak_gauge_moment E ks p k [t] CON KS TS P R) as (seen & V & C). exists seen.
  split; [exact (one_thread _ _ _ _ _ _ _ _ C)|]. split; [exact V|]. intros q k' Q I. apply C; [exact Q|]. cbn. now rewrite app_nil_r.
Qed.

Theorem weak_float_alone : forall E ks p k t, consistent E -> calls_of float_does E ks -> threads_of E ks ConcWeakSpec.float_writes [t] ->
  nth_error ks p = Some k -> k_op k = FRead ->
  exists c, initial c t /\ k_res k = outcome_of ks float_result (x_init E 0) c /\
    forall q k', nth_error ks q = Some k' -> In q t -> (before E k' k -> In q c) /\ (before E k k' -> ~ In q c).
Proof.
  intros E ks p k t CON KS TS P R. destruct (weak_float_moment E ks p k [t] CON KS TS P R) as (seen & V & C). exists seen.
  split; [exact (one_thread _ _ _ _ _ _ _ _ C)|]. split; [exact V|]. intros q k' Q I. apply C; [exact Q|]. cbn. now rewrite app_nil_r.
Qed.
