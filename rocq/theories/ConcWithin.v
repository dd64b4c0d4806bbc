(** What a collection reads of a histogram, counted without wrapping. *)
From Coq Require Import List NArith ZArith Bool Arith Lia.
From Verif Require Import Base BaseFacts FloatModel MetricModel LabelModel LabelSpec GroupProofs TextModel TextSpec ConcModel ConcSpec ConcProofs ConcTheorems ConcVecModel ConcVecSpec
  ConcVec ConcVecTheorems ConcLabelModel ConcLabelSpec ConcLabelProofs ConcLabelTheorems ConcCallModel ConcBoth ConcHandles
  ConcScript ConcCallSpec ConcCallProofs ConcCallTheorems ConcCallOrder.
Import ListNotations.
Local Open Scope nat_scope.

(** ** Sums *)
Lemma sum_le : forall A (f h : A -> Z) l, (forall x, In x l -> (f x <= h x)%Z) -> (sum_over f l <= sum_over h l)%Z.
Proof.
  intros A f h l H. induction l as [|x l IH]; [apply Z.le_refl|]. change (f x + sum_over f l <= h x + sum_over h l)%Z. apply Z.add_le_mono.
  - apply H. now left.
  - apply IH. intros y I. apply H. now right.
Qed.
Lemma sum_eq : forall A (f h : A -> Z) l, (forall x, In x l -> f x = h x) -> sum_over f l = sum_over h l.
Proof. intros A f h l H. apply Z.le_antisymm; apply sum_le; intros x I; rewrite (H x I); apply Z.le_refl. Qed.
Lemma sum_naught : forall A (l : list A), sum_over (fun _ => 0%Z) l = 0%Z.
Proof. intros A l. induction l as [|x l IH]; [reflexivity|exact IH]. Qed.
Lemma sum_plus : forall A (f h : A -> Z) l, sum_over (fun x => f x + h x)%Z l = (sum_over f l + sum_over h l)%Z.
Proof.
  intros A f h l. induction l as [|x l IH]; [reflexivity|].
  change (f x + h x + sum_over (fun x => f x + h x)%Z l = f x + sum_over f l + (h x + sum_over h l))%Z. lia.
Qed.
Lemma sum_swap : forall A B (f : A -> B -> Z) l k, sum_over (fun a => sum_over (f a) k) l = sum_over (fun b => sum_over (fun a => f a b) l) k.
Proof.
  intros A B f l k. induction l as [|a l IH].
  - symmetry. exact (sum_naught B k).
  - change (sum_over (f a) k + sum_over (fun a => sum_over (f a) k) l = sum_over (fun b => f a b + sum_over (fun a => f a b) l) k)%Z. now rewrite sum_plus, IH.
Qed.
Lemma sum_one : forall c l, NoDup l -> (0 <= sum_over (fun b => if Nat.eqb c b then 1 else 0) l <= 1)%Z.
Proof.
  intros c l ND. assert (NI : forall l, ~ In c l -> sum_over (fun b => if Nat.eqb c b then 1 else 0)%Z l = 0%Z).
  { intros k N. transitivity (sum_over (fun _ : nat => 0%Z) k); [|apply sum_naught]. apply sum_eq. intros x I. destruct (Nat.eqb_spec c x) as [->|]; [contradiction|reflexivity]. }
  induction ND as [|x l N ND IH]; [cbn; lia|].
  change (0 <= (if Nat.eqb c x then 1 else 0) + sum_over (fun b => if Nat.eqb c b then 1 else 0) l <= 1)%Z.
  destruct (Nat.eqb_spec c x) as [->|]; [rewrite (NI l N); lia|lia].
Qed.
Lemma sum_nth : forall l, sum_over (fun c => Z.of_N (nth c l 0%N)) (seq 0 (length l)) = Z.of_N (fold_right N.add 0%N l).
Proof.
  intros l. induction l as [|x l IH]; [reflexivity|]. cbn [length seq fold_right nth].
  change (Z.of_N x + sum_over (fun c => Z.of_N (nth c (x :: l) 0%N)) (seq 1 (length l)) = Z.of_N (x + fold_right N.add 0%N l))%Z.
  rewrite <- seq_shift, N2Z.inj_add, <- IH. f_equal. clear. generalize (seq 0 (length l)). intros k.
  induction k as [|y k IH]; [reflexivity|]. cbn [map].
  change (Z.of_N (nth y l 0%N) + sum_over (fun c => Z.of_N (nth c (x :: l) 0%N)) (map S k) = Z.of_N (nth y l 0%N) + sum_over (fun c => Z.of_N (nth c l 0%N)) k)%Z.
  now rewrite IH.
Qed.

(** ** Buckets *)
Definition bucket_of (c : nat) (op : hist_op) : Z := match op with HObserve b' _ => if Nat.eqb b' c then 1 else 0 | HSample => 0 end%Z.
Lemma bucket_added_of : forall c u (r : hist_res), (0 <= bucket_added c u r <= bucket_of c u)%Z.
Proof. intros c [b' v|] [r|]; cbn; try destruct (Nat.eqb b' c); lia. Qed.
Lemma bucket_of_most : forall c u, (bucket_of c u <= hist_most u)%Z.
Proof. intros c [b' v|]; cbn; try destruct (Nat.eqb b' c); lia. Qed.
Lemma buckets_added : forall b u (r : hist_res), (sum_over (fun c => bucket_added c u r) (seq 0 (S b)) <= hist_added u r)%Z.
Proof.
  intros b [b' v|] [r|]; unfold bucket_added, hist_added; try (rewrite sum_naught; apply Z.le_refl).
  apply (sum_one b' (seq 0 (S b))). apply seq_NoDup.
Qed.
Lemma buckets_of : forall b u, (sum_over (fun c => bucket_of c u) (seq 0 (S b)) <= hist_most u)%Z.
Proof.
  intros b [b' v|]; unfold bucket_of, hist_most; [|rewrite sum_naught; apply Z.le_refl].
  apply (sum_one b' (seq 0 (S b))). apply seq_NoDup.
Qed.

Lemma buckets_total : forall b log x, legal hist_spec (hist_new b) log x ->
  length (h_buckets x) = b /\
  sum_over (fun c => bucket_count c (hist_view x) mod 2 ^ 64)%Z (seq 0 (S b)) = Z.of_N (first_buckets (length (h_buckets x)) (h_buckets x) + h_inf x).
Proof.
  intros b log x L.
  assert (F0 : hist_fits b (hist_new b)).
  { split; [apply repeat_length|]. split; [|reflexivity]. apply Forall_forall. intros c C. apply repeat_spec in C. now subst c. }
  pose proof (hist_legal_fits b _ _ _ L F0) as (X1 & X2 & X3). split; [exact X1|].
  unfold first_buckets. rewrite firstn_all, N2Z.inj_add, <- sum_nth, X1, seq_S.
  assert (A : forall (f : nat -> Z) l c, sum_over f (l ++ [c]) = (sum_over f l + f c)%Z).
  { intros f l c. induction l as [|y l IH]; [cbn; lia|]. cbn [app]. change (f y + sum_over f (l ++ [c]) = f y + sum_over f l + f c)%Z. lia. }
  rewrite A. cbn [Nat.add]. f_equal.
  - apply sum_eq. intros c C. apply in_seq in C. unfold bucket_count, hist_view. cbn [fst snd]. rewrite X1. destruct (Nat.ltb_spec c b); [|lia].
    apply Z.mod_small. rewrite Forall_forall in X2. pose proof (X2 (nth c (h_buckets x) 0%N) ltac:(apply nth_In; lia)). lia.
  - unfold bucket_count, hist_view. cbn [fst snd]. rewrite X1. destruct (Nat.ltb_spec b b); [lia|]. rewrite Nat.eqb_refl. apply Z.mod_small. lia.
Qed.

Lemma count_is : forall bs inf sum, hist_count (bs, inf, sum) = Z.of_N (first_buckets (length bs) bs + inf).
Proof.
  intros bs inf sum. unfold hist_count, first_buckets, sum_over. cbn [fst snd]. rewrite firstn_all, N2Z.inj_add. f_equal.
  induction bs as [|b bs IH]; [reflexivity|]. cbn [fold_right]. rewrite IH. now rewrite N2Z.inj_add.
Qed.

(** ** A sparse vec *)
Section Sparse.
  Variable b : nat.
  Variable w : setup.
  Variable P : hist_calls.
  Hypothesis ok : setup_ok w.
  Hypothesis shaped : calls_shaped (su_fields w) P.
  Variable g : group_val.
  Hypothesis kept : forall j hd, P j hd <> Some (CDelete g).

  Lemma begun_below : forall n s,
    (forall c, (sum_begun w (hist_code b) P (bucket_added c) (bucket_count c) (bucket_of c) g n s <=
                sum_begun w (hist_code b) P hist_added hist_count hist_most g n s)%Z) /\
    (sum_over (fun c => sum_begun w (hist_code b) P (bucket_added c) (bucket_count c) (bucket_of c) g n s) (seq 0 (S b)) <=
     sum_begun w (hist_code b) P hist_added hist_count hist_most g n s)%Z.
  Proof.
    intros n s.
    assert (ND : forall j call tr, In (call, tr) (finished_calls w (hist_code b) P s j) -> call <> CDelete g).
    { intros j call tr I ->. destruct ok as [sound ndup].
      destruct (made_outcome (su_build w) (su_fields w) (su_loc w) (su_accepts w) (su_shard_of w) (mc_machine (hist_code b)) (mc_new (hist_code b)) (mc_view (hist_code b))
        hist_spec (hist_new b) hist_view (su_shards w) (mc_read (hist_code b)) P (su_strings w) sound ndup shaped (hist_good b) s j _ tr I) as (_ & (hd & C) & _).
      exact (kept j hd C). }
    split.
    - intros c. unfold sum_begun. apply sum_le. intros j _. apply Z.add_le_mono.
      + apply sum_le. intros [call tr] I. apply ND in I. unfold call_adds. cbn [fst snd]. destruct call as [g' u|g'| |]; [| |apply Z.le_refl|apply Z.le_refl].
        * destruct (result_of _ _) as [r| | | | |]; try lia. destruct (group_eq_dec g' g); [apply bucket_less|lia].
        * destruct (result_of _ _) as [|[v|]| | | |]; try lia. destruct (group_eq_dec g' g) as [->|]; [congruence|lia].
      + destruct (call_underway w (hist_code b) P s j) as [[g' u| | |]|]; try lia. destruct (group_eq_dec g' g); [apply bucket_of_most|lia].
    - unfold sum_begun. rewrite sum_swap. apply sum_le. intros j _. rewrite sum_plus, sum_swap. apply Z.add_le_mono.
      + apply sum_le. intros [call tr] I. apply ND in I. unfold call_adds. cbn [fst snd].
        destruct call as [g' u|g'| |]; [| |rewrite sum_naught; apply Z.le_refl|rewrite sum_naught; apply Z.le_refl].
        * destruct (result_of _ _) as [r| | | | |]; try (rewrite sum_naught; apply Z.le_refl). destruct (group_eq_dec g' g); [apply buckets_added|rewrite sum_naught; apply Z.le_refl].
        * destruct (result_of _ _) as [|[v|]| | | |]; try (rewrite sum_naught; apply Z.le_refl). destruct (group_eq_dec g' g) as [->|]; [congruence|rewrite sum_naught; apply Z.le_refl].
      + destruct (call_underway w (hist_code b) P s j) as [[g' u| | |]|]; try (rewrite sum_naught; apply Z.le_refl).
        destruct (group_eq_dec g' g); [apply buckets_of|rewrite sum_naught; apply Z.le_refl].
  Qed.

  Theorem hist_within : forall s0 s1 i tr rest n, call_underway w (hist_code b) P s0 i = None ->
    finished_calls w (hist_code b) P (s0 ++ s1) i = finished_calls w (hist_code b) P s0 i ++ (CCollect, tr) :: rest ->
    (forall j, n <= j -> finished_calls w (hist_code b) P (s0 ++ s1) j = [] /\ call_underway w (hist_code b) P (s0 ++ s1) j = None) ->
    (sum_begun w (hist_code b) P hist_added hist_count hist_most g n (s0 ++ s1) < 2 ^ 64)%Z ->
    forall l r, result_of CCollect tr = Collected l -> In (g, r) l ->
    exists bs inf sum, r = Some (bs, inf, sum) /\ length bs = b /\
      (Z.of_N (first_buckets (length bs) bs + inf) <= sum_begun w (hist_code b) P hist_added hist_count hist_most g n (s0 ++ s1))%Z.
  Proof.
    intros s0 s1 i tr rest n ID LA BE LT l r RC I. destruct (begun_below n (s0 ++ s1)) as [EACH ALL].
    set (seen := fun c (r : hist_res) => match r with Some v => bucket_count c v | None => 0%Z end).
    assert (RS : forall c i x x' r, hist_spec i (mc_read (hist_code b)) x = Some (x', r) -> seen c r = bucket_count c (hist_view x)).
    { intros c j x x' r' E. cbn in E. injection E as <- <-. reflexivity. }
    assert (BR : forall c, (seen c r mod 2 ^ 64 <= sum_begun w (hist_code b) P (bucket_added c) (bucket_count c) (bucket_of c) g n (s0 ++ s1))%Z /\
      exists log x x', legal hist_spec (hist_new b) log x /\ hist_spec i (mc_read (hist_code b)) x = Some (x', r)).
    { intros c. destruct (all_brackets w (hist_code b) hist_spec (hist_new b) hist_view P ok shaped (hist_good b) (2 ^ 64)%Z ltac:(lia)
        (fun h => bucket_count c (hist_view h)) (bucket_added c) (bucket_count c) (bucket_new b c) (fun _ => eq_refl) (bucket_step_mod c) (fun _ => eq_refl)
        (bucket_of c) (bucket_added_of c) (seen c) (RS c) g kept s0 s1 i tr rest n ID LA BE ltac:(specialize (EACH c); lia) l r RC I) as ([_ B] & X). split; [exact B|exact X]. }
    destruct (BR 0) as (_ & log & x & x' & L & E). destruct (buckets_total b log x L) as [LN TOT].
    cbn in E. injection E as _ <-. exists (h_buckets x), (h_inf x), (h_sum x). split; [reflexivity|]. split; [exact LN|]. rewrite <- TOT.
    eapply Z.le_trans; [|exact ALL]. apply sum_le. intros c _. exact (proj1 (BR c)).
  Qed.

  Theorem hist_brackets_exact : forall s0 s1 i tr rest n, call_underway w (hist_code b) P s0 i = None ->
    finished_calls w (hist_code b) P (s0 ++ s1) i = finished_calls w (hist_code b) P s0 i ++ (CCollect, tr) :: rest ->
    (forall j, n <= j -> finished_calls w (hist_code b) P (s0 ++ s1) j = [] /\ call_underway w (hist_code b) P (s0 ++ s1) j = None) ->
    (sum_begun w (hist_code b) P hist_added hist_count hist_most g n (s0 ++ s1) < 2 ^ 64)%Z ->
    forall l r, result_of CCollect tr = Collected l -> In (g, r) l ->
    exists v, r = Some v /\ length (fst (fst v)) = b /\
      (sum_finished w (hist_code b) P hist_added hist_count g n s0 <= hist_count v <=
       sum_begun w (hist_code b) P hist_added hist_count hist_most g n (s0 ++ s1))%Z.
  Proof.
    intros s0 s1 i tr rest n ID LA BE LT l r RC I.
    destruct (hist_within s0 s1 i tr rest n ID LA BE LT l r RC I) as (bs & inf & sum & -> & LN & LE).
    destruct (hist_brackets b w P ok shaped g kept s0 s1 i tr rest n ID LA BE LT l _ RC I) as (v & E & B). injection E as <-.
    exists (bs, inf, sum). split; [reflexivity|]. split; [exact LN|]. rewrite <- (count_is bs inf sum) in LE.
    assert (0 <= hist_count (bs, inf, sum))%Z by (rewrite count_is; apply N2Z.is_nonneg). rewrite Z.mod_small in B by lia. exact B.
  Qed.
End Sparse.
