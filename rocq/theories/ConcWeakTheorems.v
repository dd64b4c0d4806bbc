(** Counters, gauges and histograms under the memory model of atomics (C66). *)
From Coq Require Import List NArith ZArith Bool Arith Permutation Lia.
From Verif Require Import Base FloatModel FloatFacts FloatArith MetricModel ConcModel ConcSpec ConcWeakModel ConcWeakSpec ConcWeakProofs.
Import ListNotations.

(** ** Sums over calls *)

Lemma ops_of_app : forall {Op Res} (ks : list (wcall Op Res)) a b, ops_of_calls ks (a ++ b) = ops_of_calls ks a ++ ops_of_calls ks b.
Proof. intros. unfold ops_of_calls. now rewrite flat_map_app. Qed.

Section Sums.
  Context {Op Res : Type}.
  Variable f : Op -> N.
  Variable ks : list (wcall Op Res).
  Definition at_call (p : nat) : N := match nth_error ks p with Some k => f (k_op k) | None => 0%N end.
  Definition sumN (l : list N) : N := fold_right N.add 0%N l.

  Lemma sumN_app : forall a b, sumN (a ++ b) = (sumN a + sumN b)%N.
  Proof. induction a as [|x a IH]; intros b; cbn; [reflexivity|]. fold (sumN (a ++ b)) (sumN a). rewrite IH. lia. Qed.

  Lemma sum_calls : forall ps, sumN (map f (ops_of_calls ks ps)) = sumN (map at_call ps).
  Proof.
    induction ps as [|p ps IH]; [reflexivity|]. cbn [ops_of_calls flat_map map]. fold (ops_of_calls ks ps). unfold at_call at 1.
    rewrite map_app, sumN_app, IH. cbn [sumN fold_right]. fold (sumN (map at_call ps)). destruct (nth_error ks p); cbn; lia.
  Qed.

  Lemma sum_incl : forall a b, NoDup a -> incl a b -> (sumN (map at_call a) <= sumN (map at_call b))%N.
  Proof.
    induction a as [|p a IH]; intros b N I; [cbn; lia|]. inversion N; subst.
    assert (J : In p b) by (apply I; now left). apply in_split in J as (x & y & ->).
    assert (K : incl a (x ++ y)).
    { intros q Q. assert (W : In q (x ++ p :: y)) by (apply I; now right). apply in_app_or in W as [W|[<-|W]]; [|contradiction|]; apply in_or_app; auto. }
    specialize (IH _ H2 K). rewrite map_app, sumN_app in IH |- *. cbn [map sumN fold_right]. fold (sumN (map at_call a)) (sumN (map at_call y)). lia.
  Qed.

  Lemma sum_zero : forall l, (forall p, In p l -> at_call p = 0%N) -> sumN (map at_call l) = 0%N.
  Proof.
    induction l as [|p l IH]; intros H; [reflexivity|]. cbn [map sumN fold_right]. fold (sumN (map at_call l)).
    rewrite IH by (intros; apply H; now right). rewrite (H p) by now left. reflexivity.
  Qed.

  Lemma sum_same : forall a b, NoDup a -> NoDup b -> incl a b -> (forall p, In p b -> ~ In p a -> at_call p = 0%N) ->
    sumN (map at_call a) = sumN (map at_call b).
  Proof.
    induction a as [|p a IH]; intros b N M I Z; [symmetry; apply sum_zero; intros p P; apply Z; [exact P|intros []]|].
    inversion N; subst. assert (J : In p b) by (apply I; now left). apply in_split in J as (x & y & ->).
    assert (MY : NoDup (x ++ y)) by (eapply NoDup_remove_1; eauto). assert (NP : ~ In p (x ++ y)) by (eapply NoDup_remove_2; eauto).
    assert (K : incl a (x ++ y)).
    { intros q Q. assert (W : In q (x ++ p :: y)) by (apply I; now right). apply in_app_or in W as [W|[<-|W]]; [|contradiction|]; apply in_or_app; auto. }
    assert (Z' : forall q, In q (x ++ y) -> ~ In q a -> at_call q = 0%N).
    { intros q Q NQ. apply Z; [apply in_app_or in Q as [Q|Q]; apply in_or_app; [now left|right; now right]|]. intros [<-|W]; contradiction. }
    specialize (IH _ H2 MY K Z'). rewrite map_app, sumN_app in IH |- *. cbn [map sumN fold_right]. fold (sumN (map at_call a)) (sumN (map at_call y)). lia.
  Qed.

  Lemma sum_seq : forall pre post, ks = pre ++ post -> sumN (map at_call (seq (length pre) (length post))) = sumN (map (fun k => f (k_op k)) post).
  Proof.
    intros pre post. revert pre. induction post as [|k post IH]; intros pre E; [reflexivity|]. cbn [length seq map sumN fold_right].
    fold (sumN (map at_call (seq (S (length pre)) (length post)))) (sumN (map (fun k => f (k_op k)) post)).
    unfold at_call at 1. rewrite E, nth_error_app2, Nat.sub_diag by lia. cbn [nth_error]. f_equal.
    specialize (IH (pre ++ [k])). rewrite app_length, Nat.add_1_r in IH. apply IH. now rewrite <- app_assoc.
  Qed.

  Lemma sum_order : forall order, NoDup order ->
    (forall p k, nth_error ks p = Some k -> f (k_op k) <> 0%N -> In p order) ->
    (forall p, In p order -> nth_error ks p <> None) ->
    sumN (map at_call order) = sumN (map (fun k => f (k_op k)) ks).
  Proof.
    intros order N C M. rewrite <- (sum_seq [] ks eq_refl). apply sum_same; [exact N|apply seq_NoDup| |].
    - intros p P. apply in_seq. specialize (M p P). apply nth_error_Some in M. cbn. lia.
    - intros p _ NP. unfold at_call. destruct (nth_error ks p) as [k|] eqn:K; [|reflexivity].
      destruct (N.eq_dec (f (k_op k)) 0) as [Z|Z]; [exact Z|]. destruct NP. eapply C; eauto.
  Qed.
End Sums.

Lemma NoDup_app_both : forall {A} (a b : list A), NoDup (a ++ b) -> NoDup a /\ NoDup b.
Proof.
  intros A. induction a as [|x a IH]; intros b N; [split; [constructor|exact N]|]. inversion N; subst. destruct (IH b H2) as [X Y].
  split; [|exact Y]. constructor; [|exact X]. intros I. apply H1, in_or_app. now left.
Qed.

Lemma filter_all : forall {A} (P : A -> bool) l, (forall x, In x l -> P x = true) -> filter P l = l.
Proof.
  intros A P. induction l as [|x l IH]; intros H; [reflexivity|]. cbn. rewrite (H x) by now left. f_equal. apply IH. intros; apply H; now right.
Qed.

(** ** Single cells: a call that reads returns what its one load sees *)

Section OneCell.
  Context {V Op : Type}.
  Variable does : Op -> V -> list (nat * access V) -> Prop.
  Variable changes : Op -> bool.
  Variable effect : Op -> V -> V.
  Hypothesis CHANGES : forall op r l, does op r l -> changes op = true -> one_change 0 effect op l.
  Hypothesis READS : forall op r l, does op r l -> changes op = false -> l = [(0, ARead r)].

  Lemma single_cell : forall (E : execution V) (ks : list (wcall Op V)), consistent E -> calls_of does E ks ->
    exists order seen, order_of_changes E ks changes order /\
      (forall p k, nth_error ks p = Some k -> changes (k_op k) = false ->
         explained E ks effect order (x_init E 0) k (k_res k) (seen p)) /\
      (forall p q k k', nth_error ks p = Some k -> nth_error ks q = Some k' ->
         changes (k_op k) = false -> changes (k_op k') = false -> before E k k' ->
         exists more, seen q = seen p ++ more).
  Proof.
    intros E ks CON KS.
    assert (KEEPS : forall op r l a, does op r l -> changes op = false -> In (0, a) l -> value_written a = None).
    { intros op r l a D C I. rewrite (READS _ _ _ D C) in I. destruct I as [X|[]]. injection X as <-. reflexivity. }
    destruct (cell_order does 0 changes effect CHANGES KEEPS E ks CON KS) as (order & seen & O & X & G).
    assert (ONE : forall p k, nth_error ks p = Some k -> changes (k_op k) = false ->
      exists e, k_accesses k = [e] /\ access_at E e 0 (ARead (k_res k))).
    { intros p k P C. destruct (ks_does _ _ _ KS k (nth_error_In _ _ P)) as (l & F & D). rewrite (READS _ _ _ D C) in F.
      inversion F as [|e ? r ? A F' EQ]; subst. inversion F'; subst. exists e. split; [reflexivity|exact A]. }
    exists order, (fun p => match nth_error ks p with Some k => seen (hd 0 (k_accesses k)) | None => [] end).
    split; [exact O|]. split.
    - intros p k P C. rewrite P. destruct (ONE p k P C) as (e & EQ & A). rewrite EQ. cbn [hd].
      apply X; [eapply nth_error_In; eauto|rewrite EQ; now left|exact A].
    - intros p q k k' P Q C C' B. rewrite P, Q. destruct (ONE p k P C) as (e & EQ & A). destruct (ONE q k' Q C') as (f & EQ' & A').
      rewrite EQ, EQ'. cbn [hd]. eapply G; eauto. apply B; [rewrite EQ|rewrite EQ']; now left.
  Qed.
End OneCell.

(** ** Counters *)

Theorem counter_order : forall E ks, consistent E -> calls_of counter_does E ks ->
  exists order seen, order_of_changes E ks increments order /\
    (forall p k, nth_error ks p = Some k -> increments (k_op k) = false ->
       explained E ks counted order (x_init E 0) k (k_res k) (seen p)) /\
    (forall p q k k', nth_error ks p = Some k -> nth_error ks q = Some k' ->
       increments (k_op k) = false -> increments (k_op k') = false -> before E k k' ->
       exists more, seen q = seen p ++ more).
Proof.
  apply single_cell.
  - intros op r l D C. destruct D as [v|x v|v]; try discriminate;
      (eexists [], _, []; split; [reflexivity|]; split; [intros ca []|left; exists v; reflexivity]).
  - intros op r l D C. destruct D; try discriminate. reflexivity.
Qed.

Lemma counted_sum : forall ops v, (v < 2 ^ 64)%N ->
  fold_left (fun v op => counted op v) ops v = ((v + sumN (map amount ops)) mod 2 ^ 64)%N.
Proof.
  induction ops as [|op ops IH]; intros v B; cbn [fold_left map sumN fold_right].
  - rewrite N.add_0_r. symmetry. now apply N.mod_small.
  - fold (sumN (map amount ops)). rewrite IH by (apply N.mod_lt; discriminate). unfold counted.
    rewrite N.add_mod_idemp_l by discriminate. f_equal. lia.
Qed.

Theorem counter_read : forall E ks p k, consistent E -> calls_of counter_does E ks ->
  nth_error ks p = Some k -> k_op k = KRead -> (x_init E 0 < 2 ^ 64)%N ->
  (** After all increments: the exact total. *)
  ((forall q k', nth_error ks q = Some k' -> increments (k_op k') = true -> before E k' k) ->
   k_res k = ((x_init E 0 + all_added ks) mod 2 ^ 64)%N) /\
  (** Below 2^64: at least what happened before, at most what did not happen after. *)
  ((x_init E 0 + all_added ks < 2 ^ 64)%N ->
   (forall qs, NoDup qs -> (forall q, In q qs -> exists k', nth_error ks q = Some k' /\ before E k' k) ->
      (x_init E 0 + added ks qs <= k_res k)%N) /\
   (forall qs, NoDup qs -> (forall q, In q qs -> exists k', nth_error ks q = Some k' /\ before E k k') ->
      (k_res k + added ks qs <= x_init E 0 + all_added ks)%N)).
Proof.
  intros E ks p k CON KS P R B. destruct (counter_order E ks CON KS) as (order & seen & (ND & MEM & _) & X & _).
  destruct (X p k P ltac:(now rewrite R)) as (unseen & EO & V & S). clear X.
  unfold outcome_of in V. rewrite (counted_sum _ _ B), (sum_calls amount) in V.
  assert (TOT : (sumN (map (at_call amount ks) (seen p)) + sumN (map (at_call amount ks) unseen) = all_added ks)%N).
  { rewrite <- sumN_app, <- map_app, <- EO. apply (sum_order amount ks order ND).
    - intros q k' Q NZ. apply MEM. exists k'. split; [exact Q|]. destruct (k_op k'); [reflexivity|reflexivity|destruct (NZ eq_refl)].
    - intros q Q. apply MEM in Q as (k' & Q & _). congruence. }
  assert (NDS : NoDup (seen p) /\ NoDup unseen) by (apply NoDup_app_both; now rewrite <- EO).
  split.
  - intros ALL. rewrite V. f_equal. f_equal. rewrite <- TOT.
    assert (U : unseen = []).
    { destruct unseen as [|q u]; [reflexivity|]. exfalso.
      assert (I : In q order) by (rewrite EO; apply in_or_app; right; now left).
      pose proof I as I'. apply MEM in I' as (k' & Q & C). destruct (S q k' Q I) as [S1 _]. specialize (S1 (ALL q k' Q C)).
      rewrite EO in ND. apply NoDup_remove_2 in ND. apply ND, in_or_app. now left. }
    rewrite U. cbn. lia.
  - intros LT. unfold added.
    assert (Y : forall qs, sumN (map amount (ops_of_calls ks qs)) = sumN (map (at_call amount ks) (filter (fun q => match nth_error ks q with Some k' => increments (k_op k') | None => false end) qs))).
    { intros qs. rewrite (sum_calls amount). induction qs as [|q qs IH]; [reflexivity|]. cbn [map filter sumN fold_right]. fold (sumN (map (at_call amount ks) qs)). rewrite IH.
      unfold at_call at 1. destruct (nth_error ks q) as [k'|] eqn:Q; [|reflexivity].
      destruct (k_op k') eqn:OP; cbn [increments amount map sumN fold_right]; try reflexivity; unfold at_call at 2; rewrite Q, OP; reflexivity. }
    assert (VS : k_res k = (x_init E 0 + sumN (map (at_call amount ks) (seen p)))%N) by (rewrite V; apply N.mod_small; lia).
    split; intros qs NQ H; change (fold_right N.add 0%N ?l) with (sumN l); rewrite (Y qs).
    + rewrite VS. apply N.add_le_mono_l. apply sum_incl; [now apply NoDup_filter|]. intros q I. apply filter_In in I as [I C].
      destruct (H q I) as (k' & Q & BF). rewrite Q in C. apply (S q k' Q); [|exact BF]. apply MEM. now exists k'.
    + rewrite VS, <- TOT.
      assert (Z : (sumN (map (at_call amount ks) (filter (fun q => match nth_error ks q with Some k' => increments (k_op k') | None => false end) qs)) <= sumN (map (at_call amount ks) unseen))%N).
      { apply sum_incl; [now apply NoDup_filter|]. intros q I. apply filter_In in I as [I C].
        destruct (H q I) as (k' & Q & BF). rewrite Q in C. apply (S q k' Q); [|exact BF]. apply MEM. now exists k'. }
      lia.
Qed.

(** ** Gauges *)

Lemma to_i64_wrapped : forall z, to_i64 z = wrapped z.
Proof.
  intros z. unfold to_i64, wrapped. change (Z.of_N W64) with (2 ^ 64)%Z.
  pose proof (Z.mod_pos_bound z (2 ^ 64) eq_refl) as B. set (y := (z mod 2 ^ 64)%Z) in *.
  assert (E : ((z + 2 ^ 63) mod 2 ^ 64 = (y + 2 ^ 63) mod 2 ^ 64)%Z) by (unfold y; now rewrite Z.add_mod_idemp_l).
  rewrite E. change (2 ^ 64)%Z with 18446744073709551616%Z in *. change (2 ^ 63)%Z with 9223372036854775808%Z in *.
  destruct (Z.ltb_spec y 9223372036854775808).
  - rewrite Z.mod_small by lia. lia.
  - replace (y + 9223372036854775808)%Z with ((y - 9223372036854775808) + 1 * 18446744073709551616)%Z by lia.
    rewrite Z.mod_add by discriminate. rewrite Z.mod_small by lia. lia.
Qed.

Theorem igauge_order : forall E ks, consistent E -> calls_of igauge_does E ks ->
  exists order seen, order_of_changes E ks igauge_writes order /\
    (forall p k, nth_error ks p = Some k -> igauge_writes (k_op k) = false ->
       explained E ks gauge_result order (x_init E 0) k (k_res k) (seen p)) /\
    (forall p q k k', nth_error ks p = Some k -> nth_error ks q = Some k' ->
       igauge_writes (k_op k) = false -> igauge_writes (k_op k') = false -> before E k k' ->
       exists more, seen q = seen p ++ more).
Proof.
  apply single_cell.
  - intros op r l D C. destruct D as [op v NS|x|v]; try discriminate.
    + eexists [], _, []; split; [reflexivity|]; split; [intros ca []|]. left. exists v.
      destruct op; cbn [gauge_result gauge_shared]; rewrite ?to_i64_wrapped; reflexivity.
    + eexists [], _, []; split; [reflexivity|]; split; [intros ca []|]. right. exists x. split; [reflexivity|]. reflexivity.
  - intros op r l D C. destruct D; try discriminate. reflexivity.
Qed.

Lemma order_permutation : forall {V Op Res} (E : execution V) (ks : list (wcall Op Res)) changes order,
  order_of_changes E ks changes order -> Permutation (ops_of_calls ks order) (filter changes (map k_op ks)).
Proof.
  intros V Op Res E ks changes order (ND & MEM & _).
  set (P := fun p => match nth_error ks p with Some k => changes (k_op k) | None => false end).
  assert (X : Permutation order (filter P (seq 0 (length ks)))).
  { apply NoDup_Permutation; [exact ND|apply NoDup_filter, seq_NoDup|]. intros p. rewrite MEM, filter_In, in_seq. unfold P. split.
    - intros (k & K & C). rewrite K. split; [|exact C]. assert (p < length ks) by (apply nth_error_Some; congruence). lia.
    - intros [_ C]. destruct (nth_error ks p) as [k|] eqn:K; [|discriminate]. now exists k. }
  eapply Permutation_trans; [apply Permutation_flat_map; exact X|].
  assert (Y : forall pre post, ks = pre ++ post ->
    flat_map (fun p => match nth_error ks p with Some k => [k_op k] | None => [] end) (filter P (seq (length pre) (length post))) = filter changes (map k_op post)).
  { intros pre post. revert pre. induction post as [|k post IH]; intros pre EQ; [reflexivity|]. cbn [length seq map filter].
    assert (K : nth_error ks (length pre) = Some k) by (rewrite EQ, nth_error_app2, Nat.sub_diag by lia; reflexivity).
    specialize (IH (pre ++ [k])). rewrite app_length, Nat.add_1_r in IH. specialize (IH ltac:(now rewrite <- app_assoc)).
    unfold P at 1. rewrite K. destruct (changes (k_op k)); [|exact IH]. cbn [flat_map]. rewrite K, IH. reflexivity. }
  specialize (Y [] ks eq_refl). cbn [length] in Y. rewrite <- Y. apply Permutation_refl.
Qed.

Lemma wrapped_idem : forall a b, wrapped (wrapped a + b) = wrapped (a + b).
Proof.
  intros a b. unfold wrapped. f_equal.
  replace ((a + 2 ^ 63) mod 2 ^ 64 - 2 ^ 63 + b + 2 ^ 63)%Z with ((a + 2 ^ 63) mod 2 ^ 64 + b)%Z by lia.
  rewrite Z.add_mod_idemp_l by discriminate. f_equal. lia.
Qed.

Lemma gauge_sum : forall ops z, (forall op, In op ops -> is_set op = false) -> (- 2 ^ 63 <= z < 2 ^ 63)%Z ->
  fold_left (fun z op => gauge_result op z) ops z = wrapped (z + fold_right Z.add 0%Z (map gauge_delta ops)).
Proof.
  induction ops as [|op ops IH]; intros z NS B; cbn [fold_left map fold_right].
  - unfold wrapped. rewrite Z.mod_small by lia. lia.
  - assert (NB : forall x, (- 2 ^ 63 <= wrapped x < 2 ^ 63)%Z) by (intros x; unfold wrapped; pose proof (Z.mod_pos_bound (x + 2 ^ 63) (2 ^ 64) eq_refl); lia).
    assert (NS' : forall op, In op ops -> is_set op = false) by (intros; apply NS; now right).
    specialize (NS op (or_introl eq_refl)).
    assert (G : gauge_result op z = wrapped (z + gauge_delta op)).
    { destruct op as [[|x| |x|x]|]; cbn [gauge_result gauge_delta]; try discriminate; try (f_equal; lia). unfold wrapped. rewrite Z.mod_small by lia. lia. }
    rewrite G, IH by auto. rewrite wrapped_idem. f_equal. lia.
Qed.

Lemma sumZ_perm : forall l m, Permutation l m -> fold_right Z.add 0%Z l = fold_right Z.add 0%Z m.
Proof. induction 1; cbn; lia. Qed.

Lemma sumZ_zero : forall (f : igauge_op -> Z) g l, (forall op, g op = false -> f op = 0%Z) ->
  fold_right Z.add 0%Z (map f (filter g l)) = fold_right Z.add 0%Z (map f l).
Proof.
  intros f g l Z. induction l as [|op l IH]; cbn; [reflexivity|]. destruct (g op) eqn:G; cbn; rewrite IH; [reflexivity|]. now rewrite (Z op G).
Qed.

Theorem igauge_read : forall E ks p k, consistent E -> calls_of igauge_does E ks ->
  nth_error ks p = Some k -> k_op k = IRead -> (- 2 ^ 63 <= x_init E 0 < 2 ^ 63)%Z ->
  (forall k', In k' ks -> is_set (k_op k') = false) ->
  (forall q k', nth_error ks q = Some k' -> igauge_writes (k_op k') = true -> before E k' k) ->
  k_res k = wrapped (x_init E 0 + fold_right Z.add 0%Z (map (fun k' => gauge_delta (k_op k')) ks)).
Proof.
  intros E ks p k CON KS P R B NS ALL. destruct (igauge_order E ks CON KS) as (order & seen & O & X & _).
  destruct (X p k P ltac:(now rewrite R)) as (unseen & EO & V & S). clear X.
  assert (U : unseen = []).
  { destruct unseen as [|q u]; [reflexivity|]. exfalso. destruct O as (ND & MEM & _).
    assert (I : In q order) by (rewrite EO; apply in_or_app; right; now left).
    pose proof I as I'. apply MEM in I' as (k' & Q & C). destruct (S q k' Q I) as [S1 _]. specialize (S1 (ALL q k' Q C)).
    rewrite EO in ND. apply NoDup_remove_2 in ND. apply ND, in_or_app. now left. }
  rewrite U, app_nil_r in EO. rewrite V, <- EO. unfold outcome_of.
  pose proof (order_permutation E ks _ _ O) as PM. rewrite gauge_sum.
  - f_equal. f_equal. rewrite (sumZ_perm _ _ (Permutation_map gauge_delta PM)), sumZ_zero; [now rewrite map_map|].
    intros [[]|]; try discriminate. reflexivity.
  - intros op I. apply (Permutation_in _ PM) in I. apply filter_In in I as [I _]. apply in_map_iff in I as (k' & <- & I). now apply NS.
  - exact B.
Qed.

(** ** Float gauges *)

Lemma loop_changes : forall cell delta l, loop_does cell delta l ->
  exists l1 v, l = l1 ++ [(cell, AUpdate v (f_add v delta))] /\ forall ca, In ca l1 -> value_written (snd ca) = None /\ fst ca = cell.
Proof.
  intros cell delta l D. induction D as [current|current seen rest D (l1 & v & -> & H)].
  - exists [(cell, ARead current)], current. split; [reflexivity|]. intros ca [<-|[]]. split; reflexivity.
  - exists ((cell, ARead current) :: (cell, ARead seen) :: l1), v. split; [reflexivity|]. intros ca [<-|[<-|I]]; [split; reflexivity|split; reflexivity|]. now apply H.
Qed.

Theorem float_order : forall E ks, consistent E -> calls_of float_does E ks ->
  exists order seen, order_of_changes E ks float_writes order /\
    (forall p k, nth_error ks p = Some k -> float_writes (k_op k) = false ->
       explained E ks float_result order (x_init E 0) k (k_res k) (seen p)) /\
    (forall p q k k', nth_error ks p = Some k -> nth_error ks q = Some k' ->
       float_writes (k_op k) = false -> float_writes (k_op k') = false -> before E k k' ->
       exists more, seen q = seen p ++ more).
Proof.
  apply single_cell.
  - intros op r l D C. destruct D as [op delta l B L|x|v]; try discriminate.
    + apply loop_changes in L as (l1 & v & -> & H). exists l1, (AUpdate v (f_add v delta)), []. split; [reflexivity|].
      split; [intros ca I _; rewrite app_nil_r in I; now apply H|]. left. exists v. f_equal.
      destruct op; cbn in B; try discriminate; injection B as <-; cbn [float_result]; rewrite ?f_sub_add; reflexivity.
    + eexists [], _, []; split; [reflexivity|]; split; [intros ca []|]. right. exists x. split; reflexivity.
  - intros op r l D C. destruct D; try discriminate. reflexivity.
Qed.

(** ** Histograms *)

Section Hist.
  Variable n : nat.
  Variable E : execution N.
  Variable ks : list (wcall hist_op hist_res).
  Hypothesis CON : consistent E.
  Hypothesis KS : calls_of (hist_does n) E ks.
  Hypothesis LOCK : locked E ks.

  Definition sum_effect (op : hist_op) (s : N) : N := match op with HObserve _ x => f_add s x | HSample => s end.
  Definition bucket_effect (op : hist_op) (v : N) : N := wrap64 (v + 1).

  Lemma sample_reads : forall bs i s a c, length bs = n ->
    In (c, a) (map (fun p => (fst p, @ARead N (snd p))) (combine (seq 0 n) bs) ++ [(n, ARead i); (S n, ARead s)]) -> value_written a = None.
  Proof.
    intros bs i s a c L I. apply in_app_or in I as [I|[I|[I|[]]]].
    - apply in_map_iff in I as (p & X & _). injection X as _ <-. reflexivity.
    - injection I as _ <-. reflexivity.
    - injection I as _ <-. reflexivity.
  Qed.

  Lemma sum_order_exists : exists order seen, order_of_changes E ks observing order /\
    (forall k e v, In k ks -> In e (k_accesses k) -> access_at E e (S n) (ARead v) ->
       explained E ks sum_effect order (x_init E (S n)) k v (seen e)) /\
    (forall e f v w, access_at E e (S n) (ARead v) -> access_at E f (S n) (ARead w) -> x_hb E e f -> exists more, seen f = seen e ++ more).
  Proof.
    apply (cell_order (hist_does n) (S n) observing sum_effect); [| |exact CON|exact KS].
    - intros op r l D C. destruct D as [b x v l LB L|bs i s LB]; [|discriminate].
      apply loop_changes in L as (l1 & u & -> & H). exists ((b, AUpdate v (wrap64 (v + 1))) :: l1), (AUpdate u (f_add u x)), [].
      split; [reflexivity|]. split; [|left; now exists u]. intros ca I F. rewrite app_nil_r in I. destruct I as [<-|I]; [cbn in F; lia|now apply H].
    - intros op r l a D C I. destruct D as [b x v l LB L|bs i s LB]; [discriminate|]. eapply sample_reads; eauto.
  Qed.

  Lemma bucket_order_exists : forall b, b <= n -> exists order seen, order_of_changes E ks (in_bucket b) order /\
    (forall k e v, In k ks -> In e (k_accesses k) -> access_at E e b (ARead v) ->
       explained E ks bucket_effect order (x_init E b) k v (seen e)).
  Proof.
    intros b LB.
    destruct (cell_order (hist_does n) b (in_bucket b) bucket_effect) with (E := E) (ks := ks) as (order & seen & O & X & _); [| |exact CON|exact KS|].
    - intros op r l D C. destruct D as [b' x v l LB' L|bs i s LB']; [|discriminate]. cbn in C. apply Nat.eqb_eq in C. subst b'.
      eexists [], _, _. split; [reflexivity|]. split; [|left; now exists v]. intros ca I F.
      apply loop_changes in L as (l1 & u & -> & H). cbn [app] in I. apply in_app_or in I as [I|[<-|[]]]; [now apply H|cbn in F; lia].
    - intros op r l a D C I. destruct D as [b' x v l LB' L|bs i s LB']; [|eapply sample_reads; eauto].
      cbn in C. apply Nat.eqb_neq in C. destruct I as [I|I]; [injection I as I _; lia|].
      apply loop_changes in L as (l1 & u & -> & H). apply in_app_or in I as [I|[I|[]]]; [now apply H in I|injection I as I _; lia].
    - exists order, seen. now split.
  Qed.

  Lemma bucket_fold : forall ops v, (v < 2 ^ 64)%N ->
    fold_left (fun v op => bucket_effect op v) ops v = ((v + N.of_nat (length ops)) mod 2 ^ 64)%N.
  Proof.
    induction ops as [|op ops IH]; intros v B; cbn [fold_left length].
    - rewrite N.add_0_r. symmetry. now apply N.mod_small.
    - rewrite IH by (apply N.mod_lt; discriminate). unfold bucket_effect, wrap64. change W64 with (2 ^ 64)%N.
      rewrite N.add_mod_idemp_l by discriminate. f_equal. lia.
  Qed.

  (** A read of a cell by a sample sees the calls that happened before it. *)
  Lemma seen_before : forall changes effect order init k p v seen, order_of_changes E ks changes order ->
    (forall op, changes op = true -> observing op = true) ->
    nth_error ks p = Some k -> k_op k = HSample -> explained E ks effect order init k v seen ->
    forall q, In q seen <-> exists k', nth_error ks q = Some k' /\ changes (k_op k') = true /\ before E k' k.
  Proof.
    intros changes effect order init k p v seen (ND & MEM & _) OB P S (unseen & EO & _ & H) q. split.
    - intros I. assert (IO : In q order) by (rewrite EO; apply in_or_app; now left).
      pose proof IO as IO'. apply MEM in IO' as (k' & Q & C). exists k'. split; [exact Q|]. split; [exact C|].
      assert (NE : q <> p). { intros ->. rewrite P in Q. injection Q as <-. apply OB in C. rewrite S in C. discriminate. }
      destruct (LOCK q p k' k Q P NE S) as [B|B]; [exact B|]. exfalso. destruct (H q k' Q IO) as [_ U]. specialize (U B).
      rewrite EO in ND. apply in_split in U as (u1 & u2 & ->). rewrite app_assoc in ND. apply NoDup_remove_2 in ND.
      apply ND, in_or_app. left. apply in_or_app. now left.
    - intros (k' & Q & C & B). apply (H q k' Q); [|exact B]. apply MEM. now exists k'.
  Qed.

  Lemma sample_accesses : forall p k, nth_error ks p = Some k -> k_op k = HSample ->
    exists bs i s, k_res k = Some (bs, i, s) /\ length bs = n /\
      (forall b v, nth_error bs b = Some v -> exists e, In e (k_accesses k) /\ access_at E e b (ARead v)) /\
      (exists e, In e (k_accesses k) /\ access_at E e n (ARead i)) /\
      In (last (k_accesses k) 0) (k_accesses k) /\ access_at E (last (k_accesses k) 0) (S n) (ARead s).
  Proof.
    intros p k P HS. destruct (ks_does _ _ _ KS k (nth_error_In _ _ P)) as (l & F & D). rewrite HS in D.
    assert (HD : exists bs i s, k_res k = Some (bs, i, s) /\ length bs = n /\
      l = map (fun p => (fst p, ARead (snd p))) (combine (seq 0 n) bs) ++ [(n, ARead i); (S n, ARead s)]).
    { inversion D as [|bs i s L E1 E2 E3]; subst. exists bs, i, s. now split. }
    destruct HD as (bs & i & s & R & L & EL). rewrite EL in F. exists bs, i, s. split; [exact R|]. split; [exact L|].
    assert (X : forall ca, In ca (map (fun p => (fst p, ARead (snd p))) (combine (seq 0 n) bs) ++ [(n, ARead i); (S n, ARead s)]) ->
      exists e, In e (k_accesses k) /\ nth_error (x_accesses E) e = Some ca).
    { intros ca I. destruct (Forall2_nth_r _ _ _ F ca I) as (e & J & A). exists e. now split. }
    split; [|split].
    - intros b v B. apply X. apply in_or_app. left. apply in_map_iff. exists (b, v). split; [reflexivity|].
      assert (LB : b < n) by (rewrite <- L; apply nth_error_Some; congruence). clear - B L LB.
      assert (G : forall m bs st b, nth_error bs b = Some v -> length bs = m -> In (st + b, v) (combine (seq st m) bs)).
      { clear. intros m. induction m as [|m IH]; intros [|h t] st b B L; try discriminate; [destruct b; discriminate|]. cbn [seq combine].
        destruct b as [|b]; cbn in B; [injection B as ->; left; f_equal; lia|]. right. specialize (IH t (S st) b B ltac:(cbn in L; lia)).
        now rewrite <- plus_n_Sm. }
      exact (G n bs 0 b B L).
    - apply X. apply in_or_app. right. now left.
    - apply Forall2_app_inv_r in F as (l1 & l2 & _ & F & EK). inversion F as [|e1 ? r1 ? A1 F1]; subst. inversion F1 as [|e2 ? r2 ? A2 F2]; subst. inversion F2; subst.
      rewrite EK. change (l1 ++ [e1; e2]) with (l1 ++ [e1] ++ [e2]). rewrite app_assoc, last_last.
      split; [apply in_or_app; right; now left|exact A2].
  Qed.

  Lemma count_calls : forall P ps, length (filter P (ops_of_calls ks ps)) = length (filter (fun p => match nth_error ks p with Some k => P (k_op k) | None => false end) ps).
  Proof.
    intros P. induction ps as [|p ps IH]; [reflexivity|]. cbn [ops_of_calls flat_map filter]. fold (ops_of_calls ks ps).
    rewrite filter_app, app_length, IH. destruct (nth_error ks p) as [k|]; [|reflexivity]. cbn [filter]. destruct (P (k_op k)); reflexivity.
  Qed.

  Theorem histogram_samples : (forall c, x_init E c < 2 ^ 64)%N ->
    exists order seen, order_of_changes E ks observing order /\
      (forall p k, nth_error ks p = Some k -> k_op k = HSample ->
         sample_of n E (ops_of_calls ks (seen p)) (k_res k) /\ (exists unseen, order = seen p ++ unseen) /\
         forall q, In q (seen p) <-> exists k', nth_error ks q = Some k' /\ observing (k_op k') = true /\ before E k' k) /\
      (forall p q k k', nth_error ks p = Some k -> nth_error ks q = Some k' -> k_op k = HSample -> k_op k' = HSample ->
         before E k k' -> exists more, seen q = seen p ++ more).
  Proof.
    intros BI. destruct sum_order_exists as (order & seen & O & X & G).
    set (seen' := fun p => match nth_error ks p with Some k => seen (last (k_accesses k) 0) | None => [] end).
    exists order, seen'. split; [exact O|]. split.
    - intros p k P S. unfold seen'. rewrite P.
      destruct (sample_accesses p k P S) as (bs & i & s & R & L & HB & (ei & II & AI) & IS & AS).
      set (sn := seen (last (k_accesses k) 0)).
      pose proof (X k _ s (nth_error_In _ _ P) IS AS) as XS. fold sn in XS.
      pose proof (seen_before observing sum_effect order _ k p s sn O (fun _ H => H) P S XS) as SB.
      split; [|split; [destruct XS as (u & EO & _); now exists u|exact SB]].
      assert (CELL : forall b v e, b <= n -> In e (k_accesses k) -> access_at E e b (ARead v) ->
        v = ((x_init E b + bucket_count b (ops_of_calls ks sn)) mod 2 ^ 64)%N).
      { intros b v e LB IE AE. destruct (bucket_order_exists b LB) as (ob & sb & OB & XB).
        specialize (XB k e v (nth_error_In _ _ P) IE AE).
        assert (OBS : forall op, in_bucket b op = true -> observing op = true) by (intros [b' x|]; [reflexivity|discriminate]).
        pose proof (seen_before (in_bucket b) bucket_effect ob _ k p v (sb e) OB OBS P S XB) as BB.
        destruct XB as (u & EO & V & _). rewrite V. unfold outcome_of. rewrite bucket_fold by apply BI. f_equal. f_equal. unfold bucket_count. f_equal.
        transitivity (length (filter (in_bucket b) (ops_of_calls ks (sb e)))).
        - f_equal. symmetry. apply filter_all. intros op I. unfold ops_of_calls in I. apply in_flat_map in I as (q & Q & I).
          apply BB in Q as (k' & Q & C & _). rewrite Q in I. destruct I as [<-|[]]. exact C.
        - rewrite !count_calls. apply Nat.le_antisymm.
          + apply NoDup_incl_length; [apply NoDup_filter; destruct OB as (ND & _); rewrite EO in ND; now apply NoDup_app_both in ND|].
            intros q I. apply filter_In in I as [I J]. apply filter_In. split; [|exact J].
            apply BB in I as (k' & Q & C & B). apply SB. exists k'. split; [exact Q|]. split; [now apply OBS|exact B].
          + apply NoDup_incl_length; [apply NoDup_filter; destruct O as (ND & _); destruct XS as (us & EO' & _); rewrite EO' in ND; now apply NoDup_app_both in ND|].
            intros q I. apply filter_In in I as [I J]. apply filter_In. split; [|exact J].
            apply SB in I as (k' & Q & C & B). apply BB. exists k'. split; [exact Q|]. rewrite Q in J. split; [exact J|exact B]. }
      exists bs, i. split.
      { rewrite R. do 2 f_equal. destruct XS as (u & _ & V & _). rewrite V. reflexivity. }
      split; [exact L|]. split.
      + intros b v B. destruct (HB b v B) as (e & IE & AE). apply (CELL b v e); [|exact IE|exact AE].
        assert (b < length bs) by (apply nth_error_Some; congruence). lia.
      + apply (CELL n i ei); [lia|exact II|exact AI].
    - intros p q k k' P Q S S' B. unfold seen'. rewrite P, Q.
      destruct (sample_accesses p k P S) as (bs & i & s & _ & _ & _ & _ & IS & AS).
      destruct (sample_accesses q k' Q S') as (bs' & i' & s' & _ & _ & _ & _ & IS' & AS').
      eapply G; eauto.
  Qed.
End Hist.
