(** Property C80 for vecs of histograms with [n] buckets; [h] is the number of one. *)
From Coq Require Import List NArith ZArith Bool Arith Permutation Lia.
From Verif Require Import Base FloatModel MetricModel ConcModel ConcWeakModel ConcWeakSpec ConcWeakTheorems ConcWeakExamples
  ConcWeakVecModel ConcWeakVecSpec ConcWeakHistVec.
Import ListNotations.
Local Open Scope nat_scope.

(** Each sample of a histogram is that of the observations of it which happen before,
    all of them in buckets and sum, in one order for all samples. *)
Theorem C80_histogram : forall n E ks, consistent E -> calls_of (hist_vec_does n) E ks -> vec_locked E ks ->
  forall h, (forall c, x_init E c < 2 ^ 64)%N ->
  exists order seen, order_of_changes E ks (observes_at h) order /\
    (forall p k, nth_error ks p = Some k -> k_op k = (h, HSample) ->
       sample_at n h E (map snd (ops_of_calls ks (seen p))) (k_res k) /\ (exists unseen, order = seen p ++ unseen) /\
       forall q, In q (seen p) <-> exists k', nth_error ks q = Some k' /\ observes_at h (k_op k') = true /\ before E k' k) /\
    (forall p q k k', nth_error ks p = Some k -> nth_error ks q = Some k' -> k_op k = (h, HSample) -> k_op k' = (h, HSample) ->
       before E k k' -> exists more, seen q = seen p ++ more).
Proof. exact histogram_vec_samples. Qed.
Print Assumptions C80_histogram.

Theorem C80_histogram_exact : forall n E ks h p k, consistent E -> calls_of (hist_vec_does n) E ks -> vec_locked E ks ->
  (forall c, x_init E c < 2 ^ 64)%N -> nth_error ks p = Some k -> k_op k = (h, HSample) ->
  (forall k', In k' ks -> observes_at h (k_op k') = true -> before E k' k) ->
  exists ops, Permutation ops (map snd (filter (observes_at h) (map k_op ks))) /\ sample_at n h E ops (k_res k).
Proof. exact histogram_vec_exact. Qed.
Print Assumptions C80_histogram_exact.

Theorem C80_histogram_grow : forall n E ks h p q k k' bs i s bs' i' s', consistent E -> calls_of (hist_vec_does n) E ks -> vec_locked E ks ->
  (forall c, x_init E c + N.of_nat (length ks) < 2 ^ 64)%N -> nth_error ks p = Some k -> nth_error ks q = Some k' ->
  k_op k = (h, HSample) -> k_op k' = (h, HSample) -> before E k k' ->
  k_res k = Some (bs, i, s) -> k_res k' = Some (bs', i', s') ->
  (i <= i')%N /\ forall b v w, nth_error bs b = Some v -> nth_error bs' b = Some w -> (v <= w)%N.
Proof. exact histogram_vec_grow. Qed.
Print Assumptions C80_histogram_grow.

(** Two histograms of one bucket.  A thread observes 1 in the first and 2 in the second;
    a collection samples the first before this and the second after it: the locks of the
    two do not keep its rows together.  The first is sampled again at the end. *)
Definition ex_hvec_F : finite_execution N :=
  {| fx_accesses := [(0%nat, AUpdate 0 1); (2%nat, ARead 0%N); (2%nat, AUpdate 0%N (f_of_Z 1));
                     (4%nat, AUpdate 0 1); (5%nat, ARead 0%N); (5%nat, AUpdate 0%N (f_of_Z 2));
                     (0%nat, ARead 0); (1%nat, ARead 0); (2%nat, ARead 0%N);
                     (3%nat, ARead 0); (4%nat, ARead 1); (5%nat, ARead (f_of_Z 2));
                     (0%nat, ARead 1); (1%nat, ARead 0); (2%nat, ARead (f_of_Z 1))]%N;
     fx_init := 0%N;
     fx_rf := [None; None; None; None; None; None; None; None; None; None; Some 3; Some 5; Some 0; None; Some 2];
     fx_mo := [[0]; []; [2]; []; [3]; [5]];
     fx_hb := chain [6; 7; 8; 0; 1; 2; 3; 4; 5; 9; 10; 11; 12; 13; 14] |}.
Definition ex_hvec_ks : list (wcall (nat * hist_op) hist_res) :=
  [call (0, HObserve 0 (f_of_Z 1)) (Some ([], 0, 0)%N) [0; 1; 2]; call (1, HObserve 1 (f_of_Z 2)) (Some ([], 0, 0)%N) [3; 4; 5];
   call (0, HSample) (Some ([0], 0, 0)%N) [6; 7; 8]; call (1, HSample) (Some ([0], 1, f_of_Z 2)%N) [9; 10; 11];
   call (0, HSample) (Some ([1], 0, f_of_Z 1)%N) [12; 13; 14]].

Example C80_histogram_case : let E := execution_of ex_hvec_F in
  consistent E /\ calls_of (hist_vec_does 1) E ex_hvec_ks /\ vec_locked E ex_hvec_ks /\ (forall c, x_init E c + N.of_nat (length ex_hvec_ks) < 2 ^ 64)%N /\
  (exists k k', nth_error ex_hvec_ks 2 = Some k /\ nth_error ex_hvec_ks 4 = Some k' /\ before E k k') /\
  (forall k' k, nth_error ex_hvec_ks 4 = Some k -> In k' ex_hvec_ks -> observes_at 0 (k_op k') = true -> before E k' k).
Proof.
  assert (BT : forall p q k k', nth_error [[6; 7; 8]; [0; 1; 2]; [3; 4; 5]; [9; 10; 11]; [12; 13; 14]] p = Some (k_accesses k) ->
    nth_error [[6; 7; 8]; [0; 1; 2]; [3; 4; 5]; [9; 10; 11]; [12; 13; 14]] q = Some (k_accesses k') -> p < q -> @before N (nat * hist_op) hist_res (execution_of ex_hvec_F) k k').
  { intros p q k k' P Q L e f I J. apply inb_ok.
    destruct p as [|[|[|[|[|p]]]]]; cbn in P; try (destruct p; discriminate P); injection P as P; rewrite <- P in I;
    destruct q as [|[|[|[|[|q]]]]]; cbn in Q; try (destruct q; discriminate Q); injection Q as Q; rewrite <- Q in J; try lia;
    repeat destruct I as [<-|I]; try (now destruct I); repeat destruct J as [<-|J]; try (now destruct J); reflexivity. }
  split; [apply (check_ok N.eqb n_eqb_ok); vm_compute; reflexivity|]. repeat apply conj.
  - constructor.
    + all_calls; (eexists; split; [repeat (constructor; [reflexivity|]); constructor|]).
      * eexists. split; [apply (HD_observe 1 0 (f_of_Z 1) 0); [lia|apply (LD_done 2 _ 0%N)]|]. vm_compute. reflexivity.
      * eexists. split; [apply (HD_observe 1 1 (f_of_Z 2) 0); [lia|apply (LD_done 2 _ 0%N)]|]. vm_compute. reflexivity.
      * eexists. split; [apply (HD_sample 1 [0%N] 0 0); reflexivity|]. reflexivity.
      * eexists. split; [apply (HD_sample 1 [0%N] 1 (f_of_Z 2)); reflexivity|]. reflexivity.
      * eexists. split; [apply (HD_sample 1 [1%N] 0 (f_of_Z 1)); reflexivity|]. reflexivity.
    + cbn. nodup.
    + intros [|[|[|[|[|[|c]]]]]] e H; cbn in H |- *; try tauto; destruct c; destruct H.
  - assert (RANK : forall p k, nth_error ex_hvec_ks p = Some k -> nth_error [[6; 7; 8]; [0; 1; 2]; [3; 4; 5]; [9; 10; 11]; [12; 13; 14]] (nth p [1; 2; 0; 3; 4] 5) = Some (k_accesses k)).
    { intros p k P. destruct p as [|[|[|[|[|p]]]]]; cbn in P; try (injection P as <-; reflexivity). destruct p; discriminate P. }
    intros p q k k' P Q NE _ _. pose proof (RANK _ _ P) as RP. pose proof (RANK _ _ Q) as RQ.
    destruct (Nat.lt_trichotomy (nth p [1; 2; 0; 3; 4] 5) (nth q [1; 2; 0; 3; 4] 5)) as [L|[L|L]]; [left; exact (BT _ _ _ _ RP RQ L)| |right; exact (BT _ _ _ _ RQ RP L)].
    exfalso. destruct p as [|[|[|[|[|p]]]]]; [..|destruct p; discriminate P]; (destruct q as [|[|[|[|[|q]]]]]; [..|destruct q; discriminate Q]); cbn in L; try discriminate L; now apply NE.
  - intros c. reflexivity.
  - do 2 eexists. split; [reflexivity|]. split; [reflexivity|]. apply (BT 0 4); [reflexivity|reflexivity|lia].
  - intros k' k P I O. cbn in P. injection P as <-. cbn in I. destruct I as [<-|[<-|[<-|[<-|[<-|[]]]]]]; try discriminate O. apply (BT 1 4); [reflexivity|reflexivity|lia].
Qed.
