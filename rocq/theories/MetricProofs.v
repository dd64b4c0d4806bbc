(** Facts about counters, gauges and histograms used one call at a time. *)
From Coq Require Import String List NArith ZArith Bool SpecFloat Lia ZifyBool ZifyN ZifyNat.
From Verif Require Import Base BaseFacts FloatModel FloatFacts FloatOrder EncoderModel TextSpec MetricModel MetricSpec.
Import ListNotations.
Local Open Scope N_scope.

(* ------------------------------------------------------------------ *)
(** ** Float order *)

Definition fv (x : f64) : Z := sval (f_decode x).

Lemma is_nan_decode : forall x, f_is_nan x = true <-> f_decode x = S754_nan.
Proof.
  intros x. unfold f_is_nan, f_decode. destruct (f_exp x =? 2047); cbn [andb].
  - destruct (f_mant x =? 0); cbn; split; congruence.
  - split; [discriminate|]. destruct (if f_exp x =? 0 then _ else _); discriminate.
Qed.

Lemma not_nan_decode : forall x, f_is_nan x = false <-> f_decode x <> S754_nan.
Proof. intros x. rewrite <- is_nan_decode. destruct (f_is_nan x); split; congruence. Qed.

Lemma f_cmp_val : forall a b, f_is_nan a = false -> f_is_nan b = false ->
  f_cmp a b = Some (fv a ?= fv b)%Z.
Proof. intros a b A B. apply SFcompare_val; try apply decode_canon; now apply not_nan_decode. Qed.

Lemma f_cmp_nan_l : forall a b, f_is_nan a = true -> f_cmp a b = None.
Proof. intros a b A. apply is_nan_decode in A. unfold f_cmp. now rewrite A. Qed.
Lemma f_cmp_nan_r : forall a b, f_is_nan b = true -> f_cmp a b = None.
Proof. intros a b A. apply is_nan_decode in A. unfold f_cmp. rewrite A. now destruct (f_decode a). Qed.

Lemma f_lt_iff : forall a b, f_lt a b = true <->
  f_is_nan a = false /\ f_is_nan b = false /\ (fv a < fv b)%Z.
Proof.
  intros a b. unfold f_lt. destruct (f_is_nan a) eqn:A; [rewrite f_cmp_nan_l by exact A; split; [discriminate|intros (? & _); discriminate]|].
  destruct (f_is_nan b) eqn:B; [rewrite f_cmp_nan_r by exact B; split; [discriminate|intros (_ & ? & _); discriminate]|].
  rewrite f_cmp_val by assumption. destruct (Z.compare_spec (fv a) (fv b)); split; try discriminate; intros; try (repeat split; lia); lia.
Qed.

Lemma f_le_iff : forall a b, f_le a b = true <->
  f_is_nan a = false /\ f_is_nan b = false /\ (fv a <= fv b)%Z.
Proof.
  intros a b. unfold f_le. destruct (f_is_nan a) eqn:A; [rewrite f_cmp_nan_l by exact A; split; [discriminate|intros (? & _); discriminate]|].
  destruct (f_is_nan b) eqn:B; [rewrite f_cmp_nan_r by exact B; split; [discriminate|intros (_ & ? & _); discriminate]|].
  rewrite f_cmp_val by assumption. destruct (Z.compare_spec (fv a) (fv b)); split; try discriminate; intros; try (repeat split; lia); lia.
Qed.

Lemma f_gt_iff : forall a b, f_gt a b = true <->
  f_is_nan a = false /\ f_is_nan b = false /\ (fv b < fv a)%Z.
Proof.
  intros a b. unfold f_gt. destruct (f_is_nan a) eqn:A; [rewrite f_cmp_nan_l by exact A; split; [discriminate|intros (? & _); discriminate]|].
  destruct (f_is_nan b) eqn:B; [rewrite f_cmp_nan_r by exact B; split; [discriminate|intros (_ & ? & _); discriminate]|].
  rewrite f_cmp_val by assumption. destruct (Z.compare_spec (fv a) (fv b)); split; try discriminate; intros; try (repeat split; lia); lia.
Qed.

Lemma f_gt_le : forall a b, f_is_nan a = false -> f_is_nan b = false -> f_gt a b = negb (f_le a b).
Proof.
  intros a b A B. unfold f_gt, f_le. rewrite f_cmp_val by assumption. now destruct (fv a ?= fv b)%Z.
Qed.

Lemma f_lt_trans : forall a b c, f_lt a b = true -> f_lt b c = true -> f_lt a c = true.
Proof. intros a b c. rewrite !f_lt_iff. intuition lia. Qed.

(* ------------------------------------------------------------------ *)
(** ** Threshold validation *)

Lemma with_buckets_loop_spec : forall n i l, (i + n < length l)%nat ->
  (with_buckets_loop n i l = Done tt <->
   forall j a b, (i <= j < i + n)%nat -> nth_error l j = Some a -> nth_error l (S j) = Some b -> f_lt a b = true) /\
  (with_buckets_loop n i l = Done tt \/ with_buckets_loop n i l = Panic).
Proof.
  induction n as [|n IH]; intros i l L; cbn [with_buckets_loop].
  - split; [|auto]. split; [|reflexivity]. intros _ j a b H. lia.
  - destruct (nth_error l i) as [a|] eqn:A; [|apply nth_error_None in A; lia].
    destruct (nth_error l (S i)) as [b|] eqn:B; [|apply nth_error_None in B; lia].
    destruct (f_lt a b) eqn:F.
    + destruct (IH (S i) l ltac:(lia)) as [H1 H2]. split; [|exact H2]. rewrite H1. split.
      * intros H j a' b' J A' B'. destruct (Nat.eq_dec j i) as [->|N].
        -- rewrite A in A'. rewrite B in B'. congruence.
        -- apply (H j); auto. lia.
      * intros H j a' b' J. apply H. lia.
    + split; [|auto]. split; [discriminate|]. intros H. rewrite (H i a b) in F; [discriminate|lia|exact A|exact B].
Qed.

Theorem with_buckets_exact : forall bd ts,
  (ts <> [] /\ ascending ts -> with_buckets bd ts = Done ts) /\
  (~ (ts <> [] /\ ascending ts) -> with_buckets bd ts = Panic).
Proof.
  intros bd ts. unfold with_buckets. destruct ts as [|t0 ts0] eqn:E.
  - split; [intros []; congruence|]. intros _. now destruct bd.
  - rewrite <- E. assert (L : length ts = S (length ts0)) by (subst; reflexivity). rewrite L.
    destruct (with_buckets_loop_spec (length ts0) 0 ts ltac:(lia)) as [H1 H2].
    assert (I : with_buckets_loop (length ts0) 0 ts = Done tt <-> ascending ts).
    { rewrite H1. unfold ascending. split; intros H i a b; [|intros _; apply H].
      intros A B. apply (H i a b); auto. assert (S i < length ts)%nat by (apply nth_error_Some; congruence). lia. }
    split.
    + intros [_ A]. apply I in A. now rewrite A.
    + intros N. destruct H2 as [H2|H2]; [|now rewrite H2].
      exfalso. apply N. split; [subst; discriminate|now apply I].
Qed.

Lemma with_buckets_done : forall bd ts r, with_buckets bd ts = Done r -> r = ts /\ ts <> [] /\ ascending ts.
Proof.
  intros bd ts r H. destruct (with_buckets_exact bd ts) as [_ B].
  assert (D : ts <> [] /\ ascending ts).
  { unfold with_buckets in H. destruct ts as [|t0 ts0]; [now destruct bd|]. split; [discriminate|].
    intros i a b A C. cbn [length] in H.
    destruct (with_buckets_loop_spec (length ts0) 0 (t0 :: ts0)) as [H1 H2]; [cbn; lia|].
    destruct H2 as [H2|H2]; rewrite H2 in H; [|discriminate].
    apply (proj1 H1 H2 i a b); auto.
    assert (S i < length (t0 :: ts0))%nat by (apply nth_error_Some; congruence). cbn in *. lia. }
  split; [|exact D]. destruct (with_buckets_exact bd ts) as [A _]. rewrite (A D) in H. congruence.
Qed.

Lemma ascending_all : forall ts, ascending ts -> forall i j a b, (i < j)%nat ->
  nth_error ts i = Some a -> nth_error ts j = Some b -> f_lt a b = true.
Proof.
  intros ts H i j a b L. revert b. induction L as [|j L IH]; intros b A B.
  - eapply H; eauto.
  - destruct (nth_error ts j) as [c|] eqn:C.
    + eapply f_lt_trans; [apply IH; eauto|]. eapply H; eauto.
    + apply nth_error_None in C. assert (S j < length ts)%nat by (apply nth_error_Some; congruence). lia.
Qed.

Lemma ascending_no_nan : forall ts, ascending ts -> (forall t, ts = [t] -> f_is_nan t = false) -> no_nan ts.
Proof.
  intros ts A S1 x I. apply In_nth_error in I. destruct I as [i I].
  destruct i as [|i].
  - destruct ts as [|a [|b ts]]; cbn in I; inversion I; subst; [now apply S1|].
    pose proof (A 0%nat x b eq_refl eq_refl) as L. apply f_lt_iff in L. tauto.
  - destruct (nth_error ts i) as [p|] eqn:P.
    + pose proof (A i p x P I) as L. apply f_lt_iff in L. tauto.
    + apply nth_error_None in P. assert (S i < length ts)%nat by (apply nth_error_Some; congruence). lia.
Qed.

(* ------------------------------------------------------------------ *)
(** ** Binary search *)

Lemma search_old_bound : forall fuel pred l size left right, (left <= right)%nat -> size = (right - left)%nat ->
  (search_old fuel pred l size left right <= right)%nat.
Proof.
  induction fuel as [|fuel IH]; intros pred l size left right L E; cbn [search_old]; [lia|].
  destruct (Nat.ltb_spec left right); [|lia].
  assert (left + size / 2 < right)%nat by (pose proof (Nat.div_lt size 2); lia).
  destruct (at_index pred l (left + size / 2)).
  - apply IH; lia.
  - transitivity (left + size / 2)%nat; [apply IH; lia|lia].
Qed.

Lemma search_old_spec : forall fuel pred l k size left right,
  (forall i, (i < length l)%nat -> at_index pred l i = (i <? k)%nat) ->
  (left <= k <= right)%nat -> (right <= length l)%nat -> size = (right - left)%nat -> (right - left < fuel)%nat ->
  search_old fuel pred l size left right = k.
Proof.
  induction fuel as [|fuel IH]; intros pred l k size left right P K R E F; [lia|]. cbn [search_old].
  destruct (Nat.ltb_spec left right); [|lia].
  assert (D : (left + size / 2 < right)%nat) by (pose proof (Nat.div_lt size 2); lia).
  rewrite P by lia. destruct (Nat.ltb_spec (left + size / 2) k).
  - apply IH; auto; lia.
  - apply IH; auto; lia.
Qed.

Lemma search_new_bound : forall fuel pred l size base, (1 <= size)%nat -> 
  (search_new fuel pred l size base < base + size)%nat.
Proof.
  induction fuel as [|fuel IH]; intros pred l size base S1; cbn [search_new]; [lia|].
  destruct (Nat.ltb_spec 1 size); [|lia].
  assert (1 <= size / 2)%nat by (apply Nat.div_le_lower_bound; lia).
  assert (size / 2 < size)%nat by (apply Nat.div_lt; lia).
  destruct (at_index pred l (base + size / 2)).
  - pose proof (IH pred l (size - size / 2)%nat (base + size / 2)%nat ltac:(lia)). lia.
  - pose proof (IH pred l (size - size / 2)%nat base ltac:(lia)). lia.
Qed.

Lemma search_new_spec : forall fuel pred l k size base,
  (forall i, (i < length l)%nat -> at_index pred l i = (i <? k)%nat) ->
  (1 <= size <= fuel + 1)%nat -> (base + size <= length l)%nat -> (base = 0 \/ base < k)%nat -> (k <= base + size)%nat ->
  let b := search_new fuel pred l size base in
  (b < length l)%nat /\ (b = 0 \/ b < k)%nat /\ (k <= b + 1)%nat.
Proof.
  induction fuel as [|fuel IH]; intros pred l k size base P S1 B1 B2 K; cbn [search_new].
  - cbn zeta. lia.
  - destruct (Nat.ltb_spec 1 size); [|cbn zeta; lia].
    assert (1 <= size / 2)%nat by (apply Nat.div_le_lower_bound; lia).
    assert (size / 2 < size)%nat by (apply Nat.div_lt; lia).
    rewrite P by lia. destruct (Nat.ltb_spec (base + size / 2) k); apply IH; auto; lia.
Qed.

Lemma partition_point_bound : forall v pred l, (partition_point v pred l <= length l)%nat.
Proof.
  intros [] pred l; cbn [partition_point].
  - apply search_old_bound; lia.
  - destruct l as [|a l]; [cbn; lia|]. cbn zeta.
    pose proof (search_new_bound (length (a :: l)) pred (a :: l) (length (a :: l)) 0 ltac:(cbn; lia)).
    destruct (at_index _ _ _); lia.
Qed.

Lemma partition_point_spec : forall v pred l k, (k <= length l)%nat ->
  (forall i, (i < length l)%nat -> at_index pred l i = (i <? k)%nat) ->
  partition_point v pred l = k.
Proof.
  intros [] pred l k K P; cbn [partition_point].
  - apply search_old_spec; auto; lia.
  - destruct l as [|a l]; [cbn in *; lia|]. cbn zeta.
    pose proof (search_new_spec (length (a :: l)) pred (a :: l) k (length (a :: l)) 0 P
      ltac:(cbn; lia) ltac:(lia) ltac:(lia) ltac:(lia)) as (B1 & B2 & B3). cbn zeta in *.
    rewrite P by exact B1. destruct (Nat.ltb_spec (search_new (length (a :: l)) pred (a :: l) (length (a :: l)) 0) k); lia.
Qed.

(** The lowest index at which a decidable property holds. *)
Lemma first_index : forall (p : f64 -> bool) ts,
  (exists k t, nth_error ts k = Some t /\ p t = true /\ forall j u, (j < k)%nat -> nth_error ts j = Some u -> p u = false) \/
  (forall t, In t ts -> p t = false).
Proof.
  intros p ts. induction ts as [|t ts IH]; [right; intros t []|].
  destruct (p t) eqn:P.
  - left. exists 0%nat, t. repeat split; auto. intros j u J. lia.
  - destruct IH as [(k & u & A & B & C)|H].
    + left. exists (S k), u. repeat split; auto. intros [|j] w J; cbn; [congruence|]. intros W. apply (C j); auto. lia.
    + right. intros u [->|I]; auto.
Qed.

Lemma bucket_of : forall v ts x, ascending ts -> no_nan ts -> f_is_nan x = false ->
  (exists k, first_fit ts x k /\ partition_point v (fun le => f_gt x le) ts = k) \/
  (fits_nowhere ts x /\ partition_point v (fun le => f_gt x le) ts = length ts).
Proof.
  intros v ts x A NN X.
  assert (G : forall i t, nth_error ts i = Some t -> at_index (fun le => f_gt x le) ts i = negb (f_le x t)).
  { intros i t I. unfold at_index. rewrite I. apply f_gt_le; [exact X|]. apply NN. eapply nth_error_In; eauto. }
  destruct (first_index (fun t => f_le x t) ts) as [(k & t & K & F & B)|H].
  - left. exists k. split.
    + split; [exists t; auto|]. intros j u J U. now apply (B j).
    + assert (K' : (k < length ts)%nat) by (apply nth_error_Some; congruence).
      apply partition_point_spec; [lia|]. intros i I.
      destruct (nth_error ts i) as [u|] eqn:U; [|apply nth_error_None in U; lia].
      rewrite (G i u U). destruct (Nat.ltb_spec i k).
      * now rewrite (B i u).
      * destruct (Nat.eq_dec i k) as [->|N].
        -- assert (u = t) by congruence. subst. now rewrite F.
        -- assert (L : f_lt t u = true) by (apply (ascending_all ts A k i); auto; lia).
           apply f_lt_iff in L. apply f_le_iff in F.
           replace (f_le x u) with true; [reflexivity|]. symmetry. apply f_le_iff. intuition lia.
  - right. split; [exact H|]. apply partition_point_spec; [lia|]. intros i I.
    destruct (nth_error ts i) as [u|] eqn:U; [|apply nth_error_None in U; lia].
    rewrite (G i u U), H by (eapply nth_error_In; eauto). symmetry. apply Nat.ltb_lt. exact I.
Qed.

(* ------------------------------------------------------------------ *)
(** ** Observations *)

Lemma update_nth_length : forall A i (f : A -> A) l, length (update_nth i f l) = length l.
Proof. intros A i f l. revert i. induction l as [|x l IH]; intros [|i]; cbn; auto. Qed.

Lemma update_nth_same : forall A i (f : A -> A) l x, nth_error l i = Some x ->
  nth_error (update_nth i f l) i = Some (f x).
Proof. intros A i f l. revert i. induction l as [|y l IH]; intros [|i] x H; cbn in *; try discriminate; [congruence|auto]. Qed.

Lemma update_nth_other : forall A i j (f : A -> A) l, j <> i -> nth_error (update_nth i f l) j = nth_error l j.
Proof.
  intros A i j f l. revert i j. induction l as [|y l IH]; intros [|i] [|j] N; cbn; auto; try lia.
Qed.

Lemma update_one_more : forall k l, (k < length l)%nat -> one_more k l (update_nth k (fun c => wrap64 (c + 1)) l).
Proof.
  intros k l K. split; [apply update_nth_length|]. split.
  - destruct (nth_error l k) as [c|] eqn:C; [|apply nth_error_None in C; lia].
    exists c. split; [reflexivity|]. now rewrite (update_nth_same _ _ _ _ _ C).
  - intros j J. now apply update_nth_other.
Qed.

Theorem observe_placement : forall v bd ts x h, with_buckets bd ts = Done ts ->
  (forall t, ts = [t] -> f_is_nan t = false) -> f_is_nan x = false -> length (h_buckets h) = length ts ->
  exists h', guard_observe v ts x h = Done h' /\ h_sum h' = f_add (h_sum h) x /\
    ((exists k, first_fit ts x k /\ one_more k (h_buckets h) (h_buckets h') /\ h_inf h' = h_inf h) \/
     (fits_nowhere ts x /\ h_buckets h' = h_buckets h /\ h_inf h' = (h_inf h + 1) mod W64)).
Proof.
  intros v bd ts x h W S1 X L. apply with_buckets_done in W as (_ & _ & A).
  pose proof (ascending_no_nan ts A S1) as NN. unfold guard_observe, hist_observe.
  destruct (bucket_of v ts x A NN X) as [(k & FF & ->)|[FN ->]].
  - assert (K : (k < length ts)%nat) by (destruct FF as [(t & T & _) _]; apply nth_error_Some; congruence).
    destruct (Nat.leb_spec k (length (h_buckets h))); [|lia].
    destruct (Nat.ltb_spec k (length (h_buckets h))); [|lia].
    eexists. split; [reflexivity|]. split; [reflexivity|]. left. exists k. cbn [h_buckets h_inf].
    split; [exact FF|]. split; [|reflexivity]. apply update_one_more. lia.
  - destruct (Nat.leb_spec (length ts) (length (h_buckets h))); [|lia].
    destruct (Nat.ltb_spec (length ts) (length (h_buckets h))); [lia|].
    eexists. split; [reflexivity|]. split; [reflexivity|]. right. auto.
Qed.

(** The assertion in [observe] holds whatever the thresholds and the value. *)
Theorem observe_total : forall v ts x h, length (h_buckets h) = length ts ->
  exists h', guard_observe v ts x h = Done h'.
Proof.
  intros v ts x h L. unfold guard_observe, hist_observe.
  pose proof (partition_point_bound v (fun le => f_gt x le) ts).
  destruct (Nat.leb_spec (partition_point v (fun le => f_gt x le) ts) (length (h_buckets h))); [|lia].
  destruct (_ <? _)%nat; eauto.
Qed.

(** ** Lists of observations *)

Lemma first_buckets_update : forall k b l f, (forall c, nth_error l b = Some c -> f c = c + 1) ->
  first_buckets (S k) (update_nth b f l) =
  first_buckets (S k) l + (if (b <=? k)%nat && (b <? length l)%nat then 1 else 0).
Proof.
  unfold first_buckets. intros k b l. revert k b. induction l as [|x l IH]; intros k b f F.
  - replace (update_nth b f []) with (@nil N) by now destruct b.
    replace (b <? length (@nil N))%nat with false by (symmetry; apply Nat.ltb_ge; cbn; lia).
    rewrite andb_false_r. cbn. reflexivity.
  - destruct b as [|b]; cbn [update_nth firstn fold_right].
    + cbn. rewrite (F x) by reflexivity. lia.
    + destruct k as [|k].
      * cbn. lia.
      * rewrite IH by (intros c C; apply F; exact C).
        change (S b <=? S k)%nat with (b <=? k)%nat. change (S b <? length (x :: l))%nat with (b <? length l)%nat. lia.
Qed.

Lemma first_buckets_ge : forall l k c, nth_error l k = Some c -> c <= first_buckets (length l) l.
Proof.
  unfold first_buckets. intros l k c H. rewrite firstn_all. revert k H.
  induction l as [|x l IH]; intros [|k] H; cbn in *; try discriminate.
  - inversion H; subst. lia.
  - specialize (IH k H). lia.
Qed.

Lemma first_buckets_0 : forall k n, first_buckets k (repeat 0 n) = 0.
Proof.
  unfold first_buckets. intros k n. revert k. induction n as [|n IH]; intros [|k]; cbn; auto.
Qed.

Lemma filter_nlen : forall (p : f64 -> bool) x xs,
  nlen (filter p (x :: xs)) = (if p x then 1 else 0) + nlen (filter p xs).
Proof. intros p x xs. cbn. destruct (p x); cbn [nlen]; lia. Qed.

Lemma observe_all_spec : forall v ts, ascending ts -> no_nan ts -> forall xs h, no_nan xs ->
  length (h_buckets h) = length ts ->
  first_buckets (length (h_buckets h)) (h_buckets h) + h_inf h + nlen xs < W64 ->
  exists h', observe_all v ts xs h = Done h' /\ length (h_buckets h') = length ts /\
    (forall k t, nth_error ts k = Some t ->
       first_buckets (S k) (h_buckets h') = first_buckets (S k) (h_buckets h) + count_le xs t) /\
    first_buckets (length ts) (h_buckets h') + h_inf h' =
      first_buckets (length ts) (h_buckets h) + h_inf h + nlen xs /\
    h_sum h' = fold_left f_add xs (h_sum h).
Proof.
  intros v ts A NN. induction xs as [|x xs IH]; intros h NX L B.
  - exists h. cbn. repeat split; auto; intros; lia.
  - cbn [observe_all]. cbn [nlen] in B.
    assert (NX' : no_nan xs) by (intros y Y; apply NX; right; exact Y).
    assert (X : f_is_nan x = false) by (apply NX; left; reflexivity).
    assert (STEP : exists h1, guard_observe v ts x h = Done h1 /\ length (h_buckets h1) = length ts /\
      (forall k t, nth_error ts k = Some t ->
         first_buckets (S k) (h_buckets h1) = first_buckets (S k) (h_buckets h) + (if f_le x t then 1 else 0)) /\
      first_buckets (length ts) (h_buckets h1) + h_inf h1 =
        first_buckets (length ts) (h_buckets h) + h_inf h + 1 /\
      h_sum h1 = f_add (h_sum h) x).
    { unfold guard_observe, hist_observe. destruct (bucket_of v ts x A NN X) as [(b & FF & ->)|[FN ->]].
      - assert (K : (b < length ts)%nat) by (destruct FF as [(t & T & _) _]; apply nth_error_Some; congruence).
        destruct (Nat.leb_spec b (length (h_buckets h))); [|lia].
        destruct (Nat.ltb_spec b (length (h_buckets h))) as [LB|]; [|lia].
        assert (INC : forall c, nth_error (h_buckets h) b = Some c -> wrap64 (c + 1) = c + 1).
        { intros c C. unfold wrap64. apply N.mod_small. pose proof (first_buckets_ge _ _ _ C). lia. }
        eexists. split; [reflexivity|]. cbn [h_buckets h_inf h_sum].
        split; [now rewrite update_nth_length|]. split; [|split; [|reflexivity]].
        + intros k t T. rewrite first_buckets_update by exact INC.
          replace (b <? length (h_buckets h))%nat with true by (symmetry; apply Nat.ltb_lt; lia).
          rewrite andb_true_r. f_equal. destruct FF as [(u & U & FU) FB].
          destruct (Nat.leb_spec b k) as [BK|BK].
          * replace (f_le x t) with true; [reflexivity|]. symmetry. destruct (Nat.eq_dec b k) as [->|N].
            -- congruence.
            -- pose proof (ascending_all ts A b k u t ltac:(lia) U T) as LT.
               apply f_lt_iff in LT. apply f_le_iff in FU. apply f_le_iff. intuition lia.
          * now rewrite (FB k t BK T).
        + rewrite <- L. destruct (length (h_buckets h)) as [|n] eqn:EN; [lia|].
          rewrite first_buckets_update by exact INC. rewrite EN.
          replace (b <=? n)%nat with true by (symmetry; apply Nat.leb_le; lia).
          replace (b <? S n)%nat with true by (symmetry; apply Nat.ltb_lt; lia). cbn [andb]. lia.
      - destruct (Nat.leb_spec (length ts) (length (h_buckets h))); [|lia].
        destruct (Nat.ltb_spec (length ts) (length (h_buckets h))) as [LB|]; [lia|].
        eexists. split; [reflexivity|]. cbn [h_buckets h_inf h_sum]. split; [exact L|]. split; [|split; [|reflexivity]].
        + intros k t T. rewrite (FN t) by (eapply nth_error_In; eauto). lia.
        + unfold wrap64. rewrite N.mod_small by lia. lia. }
    destruct STEP as (h1 & E1 & L1 & C1 & T1 & S1). rewrite E1. cbn [obind].
    destruct (IH h1 NX' L1) as (h' & E' & L' & C' & T' & S'); [rewrite L1; rewrite L in B; lia|].
    exists h'. split; [exact E'|]. split; [exact L'|]. split; [|split].
    + intros k t T. rewrite (C' k t T), (C1 k t T). unfold count_le. rewrite filter_nlen. lia.
    + cbn [nlen]. lia.
    + rewrite S'. cbn [fold_left]. now rewrite S1.
Qed.
