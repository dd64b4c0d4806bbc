(** Every cell of a vec is a cell of the memory model: the theorem about one cell, for
    the rows of collections. *)
From Coq Require Import List NArith ZArith Bool Arith Permutation Lia.
From Verif Require Import Base FloatModel FloatFacts FloatArith MetricModel ConcModel ConcSpec ConcWeakModel ConcWeakSpec ConcWeakProofs ConcWeakTheorems
  ConcMomentSpec ConcWeakMomentSpec ConcWeakMoment ConcWeakVecModel ConcWeakVecSpec.
Import ListNotations.
Local Open Scope nat_scope.

Section Cells.
  Context {V Op : Type}.
  Variable does : Op -> V -> list (nat * access V) -> Prop.
  Variable read : Op.
  Variable changes : Op -> bool.
  Variable effect : Op -> V -> V.
  Hypothesis ZERO : forall op r l ca, does op r l -> In ca l -> fst ca = 0.
  Hypothesis CHANGES : forall op r l, does op r l -> changes op = true -> one_change 0 effect op l.
  Hypothesis READS : forall op r l, does op r l -> changes op = false -> l = [(0, ARead r)].
  Let effect_at (op : vop Op) : V -> V := effect (on_metric read op).

  Lemma vec_changes : forall c op r l, vec_does does op r l -> changes_at changes c op = true -> one_change c effect_at op l.
  Proof.
    intros c op r l D C. destruct D as [c' op r l D|rows]; [|discriminate]. cbn in C. apply andb_true_iff in C as [Q C]. apply Nat.eqb_eq in Q as ->.
    destruct (CHANGES _ _ _ D C) as (l1 & a & l2 & -> & K & W).
    exists (map (fun ca => (c, snd ca)) l1), a, (map (fun ca => (c, snd ca)) l2). split; [now rewrite map_app|]. split; [|exact W].
    intros ca I _. rewrite <- map_app in I. apply in_map_iff in I as (ca' & <- & I). cbn [snd]. apply K; [exact I|].
    apply (ZERO _ _ _ _ D). apply in_app_or in I as [I|I]; apply in_or_app; [now left|right; now right].
  Qed.

  Lemma vec_keeps : forall c op r l a, vec_does does op r l -> changes_at changes c op = false -> In (c, a) l -> value_written a = None.
  Proof.
    intros c op r l a D C I. destruct D as [c' op r l D|rows].
    - apply in_map_iff in I as (ca & E & I). injection E as -> <-. cbn in C. rewrite Nat.eqb_refl in C. cbn in C.
      rewrite (READS _ _ _ D C) in I. destruct I as [<-|[]]. reflexivity.
    - apply in_map_iff in I as (row & E & I). injection E as _ <-. reflexivity.
  Qed.

  (** The access of a row. *)
  Lemma row_access : forall E ks k c v, calls_of (vec_does does) E ks -> In k ks -> has_row k c v ->
    exists e, In e (k_accesses k) /\ access_at E e c (ARead v).
  Proof.
    intros E ks k c v KS K (rows & R & I). destruct (ks_does _ _ _ KS k K) as (l & F & D). rewrite R in D. inversion D as [|rows' O Q L]; subst.
    assert (J : In (c, ARead v) (map (fun row : nat * V => (fst row, ARead (snd row))) rows)) by (apply in_map_iff; exists (c, v); now split).
    clear -F J. induction F as [|e ca es l A F IH]; [contradiction|]. destruct J as [->|J].
    - exists e. split; [now left|exact A].
    - destruct (IH J) as (e' & X & Y). exists e'. split; [now right|exact Y].
  Qed.

  Theorem vec_cell : forall (E : execution V) ks c, consistent E -> calls_of (vec_does does) E ks ->
    exists order, order_of_changes E ks (changes_at changes c) order /\
      (forall k v, In k ks -> has_row k c v -> exists seen, explained E ks effect_at order (x_init E c) k v seen) /\
      (forall k k' v w, In k ks -> In k' ks -> has_row k c v -> has_row k' c w -> before E k k' ->
         exists seen more, explained E ks effect_at order (x_init E c) k v seen /\
           explained E ks effect_at order (x_init E c) k' w (seen ++ more)).
  Proof.
    intros E ks c CON KS.
    destruct (cell_order (vec_does does) c (changes_at changes c) effect_at (vec_changes c) (vec_keeps c) E ks CON KS) as (order & seen & O & X & G).
    exists order. split; [exact O|]. split.
    - intros k v K R. destruct (row_access E ks k c v KS K R) as (e & I & A). exists (seen e). eapply X; eauto.
    - intros k k' v w K K' R R' B. destruct (row_access E ks k c v KS K R) as (e & I & A). destruct (row_access E ks k' c w KS K' R') as (f & J & A').
      destruct (G e f v w A A' (B e f I J)) as (more & M). exists (seen e), more. rewrite <- M. split; eapply X; eauto.
  Qed.
End Cells.

Lemma ops_on_metric : forall {V Op Res} (ks : list (wcall (vop Op) Res)) (effect : Op -> V -> V) read (init : V) ps,
  outcome_of ks (fun op => effect (on_metric read op)) init ps = fold_left (fun v op => effect op v) (map (on_metric read) (ops_of_calls ks ps)) init.
Proof. intros. unfold outcome_of. revert init. induction (ops_of_calls ks ps) as [|op l IH]; intros init; [reflexivity|]. cbn. apply IH. Qed.

(** ** Counters *)

Definition counter_at (op : vop counter_op) : N -> N := counted (on_metric KRead op).

Theorem counter_cells : forall E ks c, consistent E -> calls_of (vec_does counter_does) E ks ->
  exists order, order_of_changes E ks (changes_at increments c) order /\
    (forall k v, In k ks -> has_row k c v -> exists seen, explained E ks counter_at order (x_init E c) k v seen) /\
    (forall k k' v w, In k ks -> In k' ks -> has_row k c v -> has_row k' c w -> before E k k' ->
       exists seen more, explained E ks counter_at order (x_init E c) k v seen /\
         explained E ks counter_at order (x_init E c) k' w (seen ++ more)).
Proof.
  apply (vec_cell counter_does KRead increments counted).
  - intros op r l ca D I. destruct D; destruct I as [<-|[]]; reflexivity.
  - intros op r l D C. destruct D as [v|x v|v]; try discriminate.
    + eexists [], _, []; split; [reflexivity|]; split; [intros ca []|]. left. exists v. reflexivity.
    + eexists [], _, []; split; [reflexivity|]; split; [intros ca []|]. left. exists v. reflexivity.
  - intros op r l D C. destruct D; try discriminate. reflexivity.
Qed.

Section CounterRows.
  Variable E : execution N.
  Variable ks : list (wcall (vop counter_op) (vres N)).
  Variable c : nat.
  Hypothesis B : (x_init E c < 2 ^ 64)%N.
  Let at_c := at_call (amount_at c) ks.

  (** What a row adds up to. *)
  Lemma row_value : forall order k v seen, order_of_changes E ks (changes_at increments c) order ->
    explained E ks counter_at order (x_init E c) k v seen ->
    v = ((x_init E c + sumN (map at_c seen)) mod 2 ^ 64)%N.
  Proof.
    intros order k v seen (ND & MEM & _) (unseen & EO & R & _). rewrite R. unfold counter_at. rewrite ops_on_metric, (counted_sum _ _ B). f_equal. f_equal.
    assert (S : forall q, In q seen -> exists k', nth_error ks q = Some k' /\ changes_at increments c (k_op k') = true) by (intros q Q; apply MEM; rewrite EO; apply in_or_app; now left).
    clear -S. induction seen as [|q seen IH]; [reflexivity|]. destruct (S q (or_introl eq_refl)) as (k' & Q & C).
    cbn [ops_of_calls flat_map map sumN fold_right]. rewrite Q. cbn [app map fold_right]. fold (ops_of_calls ks seen) (sumN (map at_c seen)).
    rewrite <- (IH (fun q' I => S q' (or_intror I))). unfold sumN. f_equal. unfold at_c, at_call. rewrite Q.
    destruct (k_op k') as [c' u|]; [|discriminate]. cbn in C |- *. apply andb_true_iff in C as [C _]. now rewrite C.
  Qed.

  Lemma all_parts : forall order seen unseen, order_of_changes E ks (changes_at increments c) order -> order = seen ++ unseen ->
    (sumN (map at_c seen) + sumN (map at_c unseen) = all_added_at c ks)%N.
  Proof.
    intros order seen unseen (ND & MEM & _) EO. rewrite <- sumN_app, <- map_app, <- EO. apply (sum_order (amount_at c) ks order ND).
    - intros q k' Q NZ. apply MEM. exists k'. split; [exact Q|]. destruct (k_op k') as [c' u|]; [|destruct (NZ eq_refl)]. cbn in NZ |- *.
      destruct (Nat.eqb c' c); [|destruct (NZ eq_refl)]. destruct u; [reflexivity|reflexivity|destruct (NZ eq_refl)].
    - intros q Q. apply MEM in Q as (k' & Q & _). congruence.
  Qed.

  (** Calls that change nothing in the cell add nothing. *)
  Lemma only_changes : forall qs, sumN (map (amount_at c) (ops_of_calls ks qs)) =
    sumN (map at_c (filter (fun q => match nth_error ks q with Some k' => changes_at increments c (k_op k') | None => false end) qs)).
  Proof.
    intros qs. rewrite (sum_calls (amount_at c)). fold at_c. induction qs as [|q qs IH]; [reflexivity|]. cbn [map filter sumN fold_right]. fold (sumN (map at_c qs)). rewrite IH.
    unfold at_c at 1, at_call. destruct (nth_error ks q) as [k'|] eqn:Q; [|reflexivity].
    destruct (changes_at increments c (k_op k')) eqn:C.
    - cbn [map sumN fold_right]. f_equal. unfold at_c, at_call. now rewrite Q.
    - destruct (k_op k') as [c' u|]; cbn in C |- *; [|reflexivity]. destruct (Nat.eqb c' c); [|reflexivity]. destruct u; try discriminate C. reflexivity.
  Qed.
End CounterRows.

Theorem counter_row : forall E ks k c v, consistent E -> calls_of (vec_does counter_does) E ks ->
  In k ks -> has_row k c v -> (x_init E c < 2 ^ 64)%N ->
  ((forall k', In k' ks -> changes_at increments c (k_op k') = true -> before E k' k) ->
   v = ((x_init E c + all_added_at c ks) mod 2 ^ 64)%N) /\
  ((x_init E c + all_added_at c ks < 2 ^ 64)%N ->
   (forall qs, NoDup qs -> (forall q, In q qs -> exists k', nth_error ks q = Some k' /\ before E k' k) ->
      (x_init E c + added_at c ks qs <= v)%N) /\
   (forall qs, NoDup qs -> (forall q, In q qs -> exists k', nth_error ks q = Some k' /\ before E k k') ->
      (v + added_at c ks qs <= x_init E c + all_added_at c ks)%N)).
Proof.
  intros E ks k c v CON KS K R B. destruct (counter_cells E ks c CON KS) as (order & O & X & _). destruct (X k v K R) as (seen & EX). clear X.
  pose proof (row_value E ks c B order k v seen O EX) as RV. destruct EX as (unseen & EO & _ & S). pose proof (all_parts E ks c order seen unseen O EO) as TOT.
  destruct O as (ND & MEM & _). set (at_c := at_call (amount_at c) ks) in *. split.
  - intros ALL. rewrite RV, <- TOT. f_equal. f_equal.
    assert (U : unseen = []).
    { destruct unseen as [|q u]; [reflexivity|]. exfalso.
      assert (I : In q order) by (rewrite EO; apply in_or_app; right; now left).
      pose proof I as I'. apply MEM in I' as (k' & Q & C). destruct (S q k' Q I) as [S1 _]. specialize (S1 (ALL k' (nth_error_In _ _ Q) C)).
      rewrite EO in ND. apply NoDup_remove_2 in ND. apply ND, in_or_app. now left. }
    rewrite U. cbn. lia.
  - intros LT. assert (VS : v = (x_init E c + sumN (map at_c seen))%N) by (rewrite RV; apply N.mod_small; lia).
    unfold added_at. split; intros qs NQ H; change (fold_right N.add 0%N ?l) with (sumN l); rewrite (only_changes ks c qs); fold at_c.
    + rewrite VS. apply N.add_le_mono_l. apply sum_incl; [now apply NoDup_filter|]. intros q I. apply filter_In in I as [I C].
      destruct (H q I) as (k' & Q & BF). rewrite Q in C. apply (S q k' Q); [|exact BF]. apply MEM. now exists k'.
    + rewrite VS, <- TOT.
      assert (Z : (sumN (map at_c (filter (fun q => match nth_error ks q with Some k' => changes_at increments c (k_op k') | None => false end) qs)) <= sumN (map at_c unseen))%N).
      { apply sum_incl; [now apply NoDup_filter|]. intros q I. apply filter_In in I as [I C].
        destruct (H q I) as (k' & Q & BF). rewrite Q in C. apply (S q k' Q); [|exact BF]. apply MEM. now exists k'. }
      lia.
Qed.

Theorem counter_rows_grow : forall E ks k k' c v w, consistent E -> calls_of (vec_does counter_does) E ks ->
  In k ks -> In k' ks -> has_row k c v -> has_row k' c w -> before E k k' ->
  (x_init E c + all_added_at c ks < 2 ^ 64)%N -> (v <= w)%N.
Proof.
  intros E ks k k' c v w CON KS K K' R R' BF LT. assert (B : (x_init E c < 2 ^ 64)%N) by lia.
  destruct (counter_cells E ks c CON KS) as (order & O & _ & X). destruct (X k k' v w K K' R R' BF) as (seen & more & E1 & E2). clear X.
  rewrite (row_value E ks c B order k v seen O E1), (row_value E ks c B order k' w (seen ++ more) O E2).
  destruct E2 as (unseen & EO & _ & _). pose proof (all_parts E ks c order (seen ++ more) unseen O EO) as TOT.
  rewrite map_app, sumN_app in TOT |- *. rewrite !N.mod_small by lia. lia.
Qed.

(** ** Gauges *)

Theorem gauge_cells : forall E ks c, consistent E -> calls_of (vec_does igauge_does) E ks ->
  exists order, order_of_changes E ks (changes_at igauge_writes c) order /\
    (forall k v, In k ks -> has_row k c v -> exists seen, explained E ks gauge_at order (x_init E c) k v seen) /\
    (forall k k' v w, In k ks -> In k' ks -> has_row k c v -> has_row k' c w -> before E k k' ->
       exists seen more, explained E ks gauge_at order (x_init E c) k v seen /\
         explained E ks gauge_at order (x_init E c) k' w (seen ++ more)).
Proof.
  apply (vec_cell igauge_does IRead igauge_writes gauge_result).
  - intros op r l ca D I. destruct D; destruct I as [<-|[]]; reflexivity.
  - intros op r l D C. destruct D as [op v NS|x|v]; try discriminate.
    + eexists [], _, []; split; [reflexivity|]; split; [intros ca []|]. left. exists v.
      destruct op; cbn [gauge_result gauge_shared]; rewrite ?to_i64_wrapped; reflexivity.
    + eexists [], _, []; split; [reflexivity|]; split; [intros ca []|]. right. exists x. split; [reflexivity|]. reflexivity.
  - intros op r l D C. destruct D; try discriminate. reflexivity.
Qed.

Lemma loop_zero : forall delta l ca, loop_does 0 delta l -> In ca l -> fst ca = 0.
Proof.
  intros delta l ca D. induction D as [cur|cur seen rest D IH]; intros I.
  - destruct I as [<-|[<-|[]]]; reflexivity.
  - destruct I as [<-|[<-|I]]; [reflexivity|reflexivity|auto].
Qed.

Theorem float_cells : forall E ks c, consistent E -> calls_of (vec_does float_does) E ks ->
  exists order, order_of_changes E ks (changes_at ConcWeakSpec.float_writes c) order /\
    (forall k v, In k ks -> has_row k c v -> exists seen, explained E ks float_at order (x_init E c) k v seen) /\
    (forall k k' v w, In k ks -> In k' ks -> has_row k c v -> has_row k' c w -> before E k k' ->
       exists seen more, explained E ks float_at order (x_init E c) k v seen /\
         explained E ks float_at order (x_init E c) k' w (seen ++ more)).
Proof.
  apply (vec_cell float_does FRead ConcWeakSpec.float_writes float_result).
  - intros op r l ca D I. destruct D as [op delta l B L|x|v]; [exact (loop_zero _ _ _ L I)| |]; destruct I as [<-|[]]; reflexivity.
  - intros op r l D C. destruct D as [op delta l B L|x|v]; try discriminate.
    + apply loop_changes in L as (l1 & v & -> & H). exists l1, (AUpdate v (f_add v delta)), []. split; [reflexivity|].
      split; [intros ca I _; rewrite app_nil_r in I; now apply H|]. left. exists v. f_equal.
      destruct op; cbn in B; try discriminate; injection B as <-; cbn [float_result]; rewrite ?f_sub_add; reflexivity.
    + eexists [], _, []; split; [reflexivity|]; split; [intros ca []|]. right. exists x. split; reflexivity.
  - intros op r l D C. destruct D; try discriminate. reflexivity.
Qed.

Theorem gauge_row : forall E ks k c v ts, consistent E -> calls_of (vec_does igauge_does) E ks -> threads_of E ks (changes_at igauge_writes c) ts ->
  In k ks -> has_row k c v -> exists seen, v = outcome_of ks gauge_at (x_init E c) seen /\ cut_at E ks ts k seen.
Proof.
  intros E ks k c v ts CON KS TS K R. destruct (gauge_cells E ks c CON KS) as (order & O & X & _). destruct (X k v K R) as (seen & EX).
  exists seen. exact (cut E ks _ _ order _ k _ _ ts O EX TS).
Qed.

Theorem float_row : forall E ks k c v ts, consistent E -> calls_of (vec_does float_does) E ks -> threads_of E ks (changes_at ConcWeakSpec.float_writes c) ts ->
  In k ks -> has_row k c v -> exists seen, v = outcome_of ks float_at (x_init E c) seen /\ cut_at E ks ts k seen.
Proof.
  intros E ks k c v ts CON KS TS K R. destruct (float_cells E ks c CON KS) as (order & O & X & _). destruct (X k v K R) as (seen & EX).
  exists seen. exact (cut E ks _ _ order _ k _ _ ts O EX TS).
Qed.

Definition delta_of (op : vop igauge_op) : Z := gauge_delta (on_metric IRead op).

(** Bounds for every thread add up. *)
Theorem gauge_row_between : forall E ks k c v ts, consistent E -> calls_of (vec_does igauge_does) E ks -> threads_of E ks (changes_at igauge_writes c) ts ->
  In k ks -> has_row k c v -> x_init E c = 0%Z -> (forall k' u, In k' ks -> k_op k' = VCall c u -> is_set u = false) ->
  forall lo hi : list nat -> Z,
  (forall t i, In t ts -> initial i t ->
     (forall q k', nth_error ks q = Some k' -> In q t -> (before E k' k -> In q i) /\ (before E k k' -> ~ In q i)) ->
     (lo t <= sum_over (fun op => gauge_delta (on_metric IRead op)) (ops_of_calls ks i) <= hi t)%Z) ->
  (- 2 ^ 63 <= sum_over lo ts)%Z -> (sum_over hi ts < 2 ^ 63)%Z -> (sum_over lo ts <= v <= sum_over hi ts)%Z.
Proof.
  intros E ks k c v ts CON KS TS K R I0 NS lo hi B L H.
  destruct (gauge_row E ks k c v ts CON KS TS K R) as (seen & V & ND & SUB & INI & BEF). rewrite V. unfold gauge_at. rewrite ops_on_metric, I0, gauge_sum.
  2:{ intros op I. apply in_map_iff in I as (vo & <- & I). apply in_flat_map in I as (q & IQ & I). destruct TS as (_ & MT & _).
      destruct (proj1 (MT q) (SUB q IQ)) as (k' & Q & C). rewrite Q in I. destruct I as [<-|[]].
      destruct (k_op k') as [c' u|] eqn:OP; [|discriminate]. cbn in C. apply andb_true_iff in C as [C _]. apply Nat.eqb_eq in C as ->. cbn.
      apply (NS k' u (nth_error_In _ _ Q) OP). }
  2:{ lia. }
  rewrite map_map.
  change (fun x : vop igauge_op => gauge_delta (on_metric IRead x)) with delta_of. change (fun op : vop igauge_op => gauge_delta (on_metric IRead op)) with delta_of in B.
  assert (S : fold_right Z.add 0%Z (map delta_of (ops_of_calls ks seen)) = sum_over (fun t => sum_over delta_of (ops_of_calls ks (by_thread t seen))) ts).
  { destruct TS as (NT & _ & _).
    assert (PM : Permutation (ops_of_calls ks seen) (concat (map (fun t => ops_of_calls ks (by_thread t seen)) ts))).
    { rewrite <- (map_map (fun t => by_thread t seen) (ops_of_calls ks)), <- ops_concat. unfold ops_of_calls.
      apply Permutation_flat_map. now apply parts_of_threads. }
    rewrite (sumZ_perm _ _ (Permutation_map delta_of PM)). clear. unfold sum_over.
    induction ts as [|t ts IH]; [reflexivity|]. cbn [map concat fold_right]. rewrite map_app, fold_right_app, <- IH.
    generalize (fold_right Z.add 0%Z (map delta_of (concat (map (fun t => ops_of_calls ks (by_thread t seen)) ts)))). intros z.
    induction (ops_of_calls ks (by_thread t seen)) as [|u l IHl]; cbn; [lia|]. rewrite IHl. lia. }
  rewrite S.
  assert (LE : (sum_over lo ts <= sum_over (fun t => sum_over delta_of (ops_of_calls ks (by_thread t seen))) ts <= sum_over hi ts)%Z).
  { assert (G : forall us, (forall t, In t us -> In t ts) -> (sum_over lo us <= sum_over (fun t => sum_over delta_of (ops_of_calls ks (by_thread t seen))) us <= sum_over hi us)%Z).
    { induction us as [|t us IH]; intros X; [cbn; lia|]. specialize (IH (fun q Q => X q (or_intror Q))). pose proof (X t (or_introl eq_refl)) as IT.
      assert (B' : (lo t <= sum_over delta_of (ops_of_calls ks (by_thread t seen)) <= hi t)%Z).
      { apply (B t _ IT (INI t IT)). intros q k' Q IQ. destruct (BEF q k' Q ltac:(apply in_concat; eauto)) as [B1 B2]. rewrite in_by_thread. split; [auto|]. intros X1 [X2 _]. exact (B2 X1 X2). }
      unfold sum_over in *. cbn [fold_right]. lia. }
    now apply G. }
  unfold wrapped. rewrite Z.mod_small by lia. lia.
Qed.

Theorem gauge_row_in_flight : forall E ks k c v ts, consistent E -> calls_of (vec_does igauge_does) E ks -> threads_of E ks (changes_at igauge_writes c) ts ->
  In k ks -> has_row k c v -> x_init E c = 0%Z -> (forall k' u, In k' ks -> k_op k' = VCall c u -> is_set u = false) ->
  (forall t i, In t ts -> initial i t -> (0 <= sum_over (fun op => gauge_delta (on_metric IRead op)) (ops_of_calls ks i) <= 1)%Z) ->
  (Z.of_nat (length ts) < 2 ^ 63)%Z -> (0 <= v <= Z.of_nat (length ts))%Z.
Proof.
  intros E ks k c v ts CON KS TS K R I0 NS B H.
  assert (C : forall z (l : list (list nat)), sum_over (fun _ => z) l = (z * Z.of_nat (length l))%Z).
  { intros z. induction l as [|t l IH]; [cbn; lia|]. unfold sum_over in *. cbn [fold_right length]. rewrite IH. lia. }
  pose proof (gauge_row_between E ks k c v ts CON KS TS K R I0 NS (fun _ => 0%Z) (fun _ => 1%Z)) as X. rewrite !C in X. specialize (X (fun t i I J _ => B t i I J)). lia.
Qed.

(** After all calls on its metric, a row is exact. *)
Theorem gauge_row_exact : forall E ks k c v, consistent E -> calls_of (vec_does igauge_does) E ks ->
  In k ks -> has_row k c v -> (- 2 ^ 63 <= x_init E c < 2 ^ 63)%Z -> (forall k' u, In k' ks -> k_op k' = VCall c u -> is_set u = false) ->
  (forall k', In k' ks -> changes_at igauge_writes c (k_op k') = true -> before E k' k) ->
  v = wrapped (x_init E c + sum_over (fun k' => match k_op k' with VCall c' u => if Nat.eqb c' c then gauge_delta u else 0 | VCollect => 0 end)%Z ks).
Proof.
  intros E ks k c v CON KS K R I0 NS ALL. destruct (gauge_cells E ks c CON KS) as (order & O & X & _). destruct (X k v K R) as (seen & unseen & EO & V & S). clear X.
  pose proof O as (ND & MEM & _).
  assert (U : unseen = []).
  { destruct unseen as [|q u]; [reflexivity|]. exfalso.
    assert (I : In q order) by (rewrite EO; apply in_or_app; right; now left).
    pose proof I as I'. apply MEM in I' as (k' & Q & C). destruct (S q k' Q I) as [S1 _]. specialize (S1 (ALL k' (nth_error_In _ _ Q) C)).
    rewrite EO in ND. apply NoDup_remove_2 in ND. apply ND, in_or_app. now left. }
  subst unseen. rewrite app_nil_r in EO. subst seen. rewrite V. unfold gauge_at. rewrite ops_on_metric, gauge_sum.
  2:{ intros op I. apply in_map_iff in I as (vo & <- & I). apply in_flat_map in I as (q & IQ & I). 
      destruct (proj1 (MEM q) IQ) as (k' & Q & C). rewrite Q in I. destruct I as [<-|[]].
      destruct (k_op k') as [c' u|] eqn:OP; [|discriminate]. cbn in C. apply andb_true_iff in C as [C _]. apply Nat.eqb_eq in C as ->. cbn.
      apply (NS k' u (nth_error_In _ _ Q) OP). }
  2:{ exact I0. }
  f_equal. f_equal. rewrite map_map.
  pose proof (order_permutation E ks _ order O) as PM. rewrite (sumZ_perm _ _ (Permutation_map _ PM)). clear. unfold sum_over.
  induction ks as [|k ks IH]; [reflexivity|]. cbn [map filter fold_right]. rewrite <- IH. clear IH.
  destruct (k_op k) as [c' u|]; [|reflexivity]. cbn [changes_at]. destruct (Nat.eqb c' c); cbn [andb]; [|reflexivity].
  destruct u; reflexivity.
Qed.

(** One thread writes the metric: the value after an initial part of its calls. *)
Theorem gauge_row_alone : forall E ks k c v t, consistent E -> calls_of (vec_does igauge_does) E ks -> threads_of E ks (changes_at igauge_writes c) [t] ->
  In k ks -> has_row k c v ->
  exists i, initial i t /\ v = outcome_of ks gauge_at (x_init E c) i /\
    forall q k', nth_error ks q = Some k' -> In q t -> (before E k' k -> In q i) /\ (before E k k' -> ~ In q i).
Proof.
  intros E ks k c v t CON KS TS K R. destruct (gauge_row E ks k c v [t] CON KS TS K R) as (seen & V & C). exists seen.
  split; [exact (one_thread _ _ _ _ _ _ _ _ C)|]. split; [exact V|]. intros q k' Q I. apply C; [exact Q|]. cbn. now rewrite app_nil_r.
Qed.

Theorem float_row_alone : forall E ks k c v t, consistent E -> calls_of (vec_does float_does) E ks -> threads_of E ks (changes_at ConcWeakSpec.float_writes c) [t] ->
  In k ks -> has_row k c v ->
  exists i, initial i t /\ v = outcome_of ks float_at (x_init E c) i /\
    forall q k', nth_error ks q = Some k' -> In q t -> (before E k' k -> In q i) /\ (before E k k' -> ~ In q i).
Proof.
  intros E ks k c v t CON KS TS K R. destruct (float_row E ks k c v [t] CON KS TS K R) as (seen & V & C). exists seen.
  split; [exact (one_thread _ _ _ _ _ _ _ _ C)|]. split; [exact V|]. intros q k' Q I. apply C; [exact Q|]. cbn. now rewrite app_nil_r.
Qed.
