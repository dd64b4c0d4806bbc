(** Histograms of a vec under the memory model: as for one histogram, cell by cell. *)
From Coq Require Import List NArith ZArith Bool Arith Permutation Lia.
From Verif Require Import Base FloatModel FloatFacts FloatArith MetricModel ConcModel ConcSpec ConcWeakModel ConcWeakSpec ConcWeakProofs ConcWeakTheorems
  ConcWeakVecModel ConcWeakVecSpec.
Import ListNotations.
Local Open Scope nat_scope.

Lemma cell_apart : forall n h h' j j', j <= S n -> j' <= S n -> h * (n + 2) + j = h' * (n + 2) + j' -> h = h' /\ j = j'.
Proof.
  intros n h h' j j' L L' E. assert (H : h = h').
  { destruct (Nat.lt_trichotomy h h') as [X|[X|X]]; [exfalso|exact X|exfalso]; nia. }
  subst h'. split; [reflexivity|lia].
Qed.

Lemma loop_cell : forall c delta l ca, loop_does c delta l -> In ca l -> fst ca = c.
Proof.
  intros c delta l ca D. induction D as [cur|cur seen rest D IH]; intros I.
  - destruct I as [<-|[<-|[]]]; reflexivity.
  - destruct I as [<-|[<-|I]]; [reflexivity|reflexivity|auto].
Qed.

Lemma hist_cells : forall n op r l ca, hist_does n op r l -> In ca l -> fst ca <= S n.
Proof.
  intros n op r l ca D I. destruct D as [b x v l LB L|bs i s LB].
  - destruct I as [<-|I]; [cbn; lia|]. rewrite (loop_cell _ _ _ _ L I). lia.
  - apply in_app_or in I as [I|[<-|[<-|[]]]]; [|cbn; lia|cbn; lia].
    apply in_map_iff in I as ([j v] & <- & I). apply in_combine_l, in_seq in I. cbn. lia.
Qed.

Section HistVec.
  Variable n : nat.
  Variable E : execution N.
  Variable ks : list (wcall (nat * hist_op) hist_res).
  Hypothesis CON : consistent E.
  Hypothesis KS : calls_of (hist_vec_does n) E ks.
  Hypothesis LOCK : vec_locked E ks.
  Variable h : nat.
  Let base := h * (n + 2).
  Let bucket_at (b : nat) (op : nat * hist_op) : bool := Nat.eqb (fst op) h && in_bucket b (snd op).

  Lemma hv_sum_order : exists order seen, order_of_changes E ks (observes_at h) order /\
    (forall k e v, In k ks -> In e (k_accesses k) -> access_at E e (base + S n) (ARead v) ->
       explained E ks (fun op => sum_effect (snd op)) order (x_init E (base + S n)) k v (seen e)) /\
    (forall e f v w, access_at E e (base + S n) (ARead v) -> access_at E f (base + S n) (ARead w) -> x_hb E e f -> exists more, seen f = seen e ++ more).
  Proof.
    apply (cell_order (hist_vec_does n) (base + S n) (observes_at h) (fun op => sum_effect (snd op))); [| |exact CON|exact KS].
    - intros [h' op] r l (l' & D & ->) C. cbn [fst snd] in *. unfold observes_at in C. cbn [fst snd] in C. apply andb_true_iff in C as [Q C]. apply Nat.eqb_eq in Q. subst h'.
      destruct D as [b x v l LB L|bs i s LB]; [|discriminate].
      apply loop_changes in L as (l1 & u & -> & H).
      exists (map (fun ca => (h * (n + 2) + fst ca, snd ca)) ((b, AUpdate v (wrap64 (v + 1))) :: l1)), (AUpdate u (f_add u x)), [].
      split; [cbn [map app]; rewrite map_app; reflexivity|]. split; [|left; now exists u]. intros ca I F. rewrite app_nil_r in I.
      apply in_map_iff in I as (ca' & <- & I). cbn [fst snd] in *. unfold base in F. destruct I as [<-|I]; [cbn in F; lia|now apply H].
    - intros [h' op] r l a (l' & D & ->) C I. apply in_map_iff in I as (ca & X & I). cbn [fst snd] in *. injection X as X <-.
      apply cell_apart in X as [-> X]; [|exact (hist_cells _ _ _ _ _ D I)|lia].
      unfold observes_at in C. cbn [fst snd] in C. rewrite Nat.eqb_refl in C. cbn in C.
      destruct D as [b x v l LB L|bs i s LB]; [discriminate|]. destruct ca as [c a]. eapply sample_reads; eauto.
  Qed.

  Lemma hv_bucket_order : forall b, b <= n -> exists order seen, order_of_changes E ks (bucket_at b) order /\
    (forall k e v, In k ks -> In e (k_accesses k) -> access_at E e (base + b) (ARead v) ->
       explained E ks (fun op => bucket_effect (snd op)) order (x_init E (base + b)) k v (seen e)).
  Proof.
    intros b LB.
    destruct (cell_order (hist_vec_does n) (base + b) (bucket_at b) (fun op => bucket_effect (snd op))) with (E := E) (ks := ks) as (order & seen & O & X & _); [| |exact CON|exact KS|].
    - intros [h' op] r l (l' & D & ->) C. unfold bucket_at in C. cbn [fst snd] in *. apply andb_true_iff in C as [Q C]. apply Nat.eqb_eq in Q. subst h'.
      destruct D as [b' x v l LB' L|bs i s LB']; [|discriminate]. cbn in C. apply Nat.eqb_eq in C. subst b'.
      eexists [], _, _. split; [reflexivity|]. split; [|left; now exists v]. intros ca I F. cbn [app] in I. apply in_map_iff in I as (ca' & <- & I). cbn [fst snd] in *.
      apply loop_changes in L as (l1 & u & -> & H). apply in_app_or in I as [I|[<-|[]]]; [now apply H|unfold base in F; cbn in F; lia].
    - intros [h' op] r l a (l' & D & ->) C I. apply in_map_iff in I as (ca & X & I). cbn [fst snd] in *. injection X as X <-.
      apply cell_apart in X as [-> X]; [|exact (hist_cells _ _ _ _ _ D I)|lia].
      unfold bucket_at in C. cbn [fst snd] in C. rewrite Nat.eqb_refl in C. cbn [andb] in C.
      destruct D as [b' x v l LB' L|bs i s LB']; [|destruct ca; eapply sample_reads; eauto].
      cbn in C. apply Nat.eqb_neq in C. destruct I as [<-|I]; [cbn in X; lia|].
      apply loop_changes in L as (l1 & u & -> & H). apply in_app_or in I as [I|[<-|[]]]; [now apply H in I|cbn in X; lia].
    - exists order, seen. now split.
  Qed.

  Lemma hv_bucket_fold : forall (ops : list (nat * hist_op)) v, (v < 2 ^ 64)%N ->
    fold_left (fun v op => bucket_effect (snd op) v) ops v = ((v + N.of_nat (length ops)) mod 2 ^ 64)%N.
  Proof.
    intros ops v B. rewrite <- (map_length snd ops), <- bucket_fold by exact B. revert v B. induction ops as [|op ops IH]; intros v B; [reflexivity|]. cbn. apply IH. apply N.mod_lt. discriminate.
  Qed.

  Lemma hv_sum_fold : forall init ps, outcome_of ks (fun op => sum_effect (snd op)) init ps = sum_after init (map snd (ops_of_calls ks ps)).
  Proof. intros init ps. unfold outcome_of, sum_after. revert init. induction (ops_of_calls ks ps) as [|op l IH]; intros init; [reflexivity|]. cbn. apply IH. Qed.

  (** A read of a cell by a sample sees the calls that happened before it. *)
  Lemma hv_seen_before : forall changes effect order init k p v seen, order_of_changes E ks changes order ->
    (forall op, changes op = true -> observes_at h op = true) ->
    nth_error ks p = Some k -> k_op k = (h, HSample) -> explained E ks effect order init k v seen ->
    forall q, In q seen <-> exists k', nth_error ks q = Some k' /\ changes (k_op k') = true /\ before E k' k.
  Proof.
    intros changes effect order init k p v seen (ND & MEM & _) OB P S (unseen & EO & _ & H) q. split.
    - intros I. assert (IO : In q order) by (rewrite EO; apply in_or_app; now left).
      pose proof IO as IO'. apply MEM in IO' as (k' & Q & C). exists k'. split; [exact Q|]. split; [exact C|].
      assert (NE : q <> p). { intros ->. rewrite P in Q. injection Q as <-. apply OB in C. rewrite S in C. unfold observes_at in C. cbn in C. now rewrite andb_false_r in C. }
      assert (SAME : fst (k_op k') = fst (k_op k)).
      { apply OB in C. unfold observes_at in C. apply andb_true_iff in C as [C _]. apply Nat.eqb_eq in C. now rewrite S. }
      destruct (LOCK q p k' k Q P NE SAME ltac:(now rewrite S)) as [B|B]; [exact B|]. exfalso. destruct (H q k' Q IO) as [_ U]. specialize (U B).
      rewrite EO in ND. apply in_split in U as (u1 & u2 & ->). rewrite app_assoc in ND. apply NoDup_remove_2 in ND.
      apply ND, in_or_app. left. apply in_or_app. now left.
    - intros (k' & Q & C & B). apply (H q k' Q); [|exact B]. apply MEM. now exists k'.
  Qed.

  Lemma hv_sample_accesses : forall p k, nth_error ks p = Some k -> k_op k = (h, HSample) ->
    exists bs i s, k_res k = Some (bs, i, s) /\ length bs = n /\
      (forall b v, nth_error bs b = Some v -> exists e, In e (k_accesses k) /\ access_at E e (base + b) (ARead v)) /\
      (exists e, In e (k_accesses k) /\ access_at E e (base + n) (ARead i)) /\
      In (last (k_accesses k) 0) (k_accesses k) /\ access_at E (last (k_accesses k) 0) (base + S n) (ARead s).
  Proof.
    intros p k P HS. destruct (ks_does _ _ _ KS k (nth_error_In _ _ P)) as (l & F & (l' & D & EL')). rewrite HS in D, EL'. cbn [fst snd] in D, EL'.
    assert (HD : exists bs i s, k_res k = Some (bs, i, s) /\ length bs = n /\
      l' = map (fun p => (fst p, ARead (snd p))) (combine (seq 0 n) bs) ++ [(n, ARead i); (S n, ARead s)]).
    { inversion D as [|bs i s L E1 E2 E3]; subst. exists bs, i, s. now split. }
    destruct HD as (bs & i & s & R & L & EL). subst l. rewrite EL in F. exists bs, i, s. split; [exact R|]. split; [exact L|].
    assert (X : forall ca, In ca (map (fun p => (fst p, ARead (snd p))) (combine (seq 0 n) bs) ++ [(n, ARead i); (S n, ARead s)]) ->
      exists e, In e (k_accesses k) /\ nth_error (x_accesses E) e = Some (base + fst ca, snd ca)).
    { intros ca I. destruct (Forall2_nth_r _ _ _ F (base + fst ca, snd ca)) as (e & J & A); [apply in_map_iff; exists ca; now split|]. exists e. now split. }
    split; [|split].
    - intros b v B. apply (X (b, ARead v)). apply in_or_app. left. apply in_map_iff. exists (b, v). split; [reflexivity|].
      assert (LB : b < n) by (rewrite <- L; apply nth_error_Some; congruence). clear - B L LB.
      assert (G : forall m bs st b, nth_error bs b = Some v -> length bs = m -> In (st + b, v) (combine (seq st m) bs)).
      { clear. intros m. induction m as [|m IH]; intros [|x t] st b B L; try discriminate; [destruct b; discriminate|]. cbn [seq combine].
        destruct b as [|b]; cbn in B; [injection B as ->; left; f_equal; lia|]. right. specialize (IH t (S st) b B ltac:(cbn in L; lia)).
        now rewrite <- plus_n_Sm. }
      exact (G n bs 0 b B L).
    - apply (X (n, ARead i)). apply in_or_app. right. now left.
    - rewrite map_app in F. apply Forall2_app_inv_r in F as (l1 & l2 & _ & F & EK). inversion F as [|e1 ? r1 ? A1 F1]; subst. inversion F1 as [|e2 ? r2 ? A2 F2]; subst. inversion F2; subst.
      rewrite EK. change (l1 ++ [e1; e2]) with (l1 ++ [e1] ++ [e2]). rewrite app_assoc, last_last.
      split; [apply in_or_app; right; now left|exact A2].
  Qed.

  Lemma hv_count_calls : forall P ps, length (filter P (map snd (ops_of_calls ks ps))) = length (filter (fun p => match nth_error ks p with Some k => P (snd (k_op k)) | None => false end) ps).
  Proof.
    intros P. induction ps as [|p ps IH]; [reflexivity|]. cbn [ops_of_calls flat_map filter]. fold (ops_of_calls ks ps).
    rewrite map_app, filter_app, app_length, IH. destruct (nth_error ks p) as [k|]; [|reflexivity]. cbn [filter map]. destruct (P (snd (k_op k))); reflexivity.
  Qed.

  Theorem histogram_vec_samples : (forall c, x_init E c < 2 ^ 64)%N ->
    exists order seen, order_of_changes E ks (observes_at h) order /\
      (forall p k, nth_error ks p = Some k -> k_op k = (h, HSample) ->
         sample_at n h E (map snd (ops_of_calls ks (seen p))) (k_res k) /\ (exists unseen, order = seen p ++ unseen) /\
         forall q, In q (seen p) <-> exists k', nth_error ks q = Some k' /\ observes_at h (k_op k') = true /\ before E k' k) /\
      (forall p q k k', nth_error ks p = Some k -> nth_error ks q = Some k' -> k_op k = (h, HSample) -> k_op k' = (h, HSample) ->
         before E k k' -> exists more, seen q = seen p ++ more).
  Proof.
    intros BI. destruct hv_sum_order as (order & seen & O & X & G).
    set (seen' := fun p => match nth_error ks p with Some k => seen (last (k_accesses k) 0) | None => [] end).
    exists order, seen'. split; [exact O|]. split.
    - intros p k P S. unfold seen'. rewrite P.
      destruct (hv_sample_accesses p k P S) as (bs & i & s & R & L & HB & (ei & II & AI) & IS & AS).
      set (sn := seen (last (k_accesses k) 0)).
      pose proof (X k _ s (nth_error_In _ _ P) IS AS) as XS. fold sn in XS.
      pose proof (hv_seen_before (observes_at h) _ order _ k p s sn O (fun _ H => H) P S XS) as SB.
      split; [|split; [destruct XS as (u & EO & _); now exists u|exact SB]].
      assert (CELL : forall b v e, b <= n -> In e (k_accesses k) -> access_at E e (base + b) (ARead v) ->
        v = ((x_init E (base + b) + bucket_count b (map snd (ops_of_calls ks sn))) mod 2 ^ 64)%N).
      { intros b v e LB IE AE. destruct (hv_bucket_order b LB) as (ob & sb & OB & XB).
        specialize (XB k e v (nth_error_In _ _ P) IE AE).
        assert (OBS : forall op, bucket_at b op = true -> observes_at h op = true).
        { intros [h' [b' x|]]; unfold bucket_at, observes_at; cbn; rewrite ?andb_false_r; [|discriminate]. intros C. apply andb_true_iff in C as [C _]. now rewrite C. }
        pose proof (hv_seen_before (bucket_at b) _ ob _ k p v (sb e) OB OBS P S XB) as BB.
        destruct XB as (u & EO & V & _). rewrite V. unfold outcome_of. rewrite hv_bucket_fold by apply BI. f_equal. f_equal. unfold bucket_count. f_equal.
        transitivity (length (filter (in_bucket b) (map snd (ops_of_calls ks (sb e))))).
        - rewrite <- (map_length snd (ops_of_calls ks (sb e))). f_equal. symmetry. apply filter_all. intros op I. apply in_map_iff in I as (op' & <- & I). unfold ops_of_calls in I. apply in_flat_map in I as (q & Q & I).
          apply BB in Q as (k' & Q & C & _). rewrite Q in I. destruct I as [<-|[]]. unfold bucket_at in C. apply andb_true_iff in C. apply C.
        - rewrite !hv_count_calls. apply Nat.le_antisymm.
          + apply NoDup_incl_length; [apply NoDup_filter; destruct OB as (ND & _); rewrite EO in ND; now apply NoDup_app_both in ND|].
            intros q I. apply filter_In in I as [I J]. apply filter_In. split; [|exact J].
            apply BB in I as (k' & Q & C & B). apply SB. exists k'. split; [exact Q|]. split; [now apply OBS|exact B].
          + apply NoDup_incl_length; [apply NoDup_filter; destruct O as (ND & _); destruct XS as (us & EO' & _); rewrite EO' in ND; now apply NoDup_app_both in ND|].
            intros q I. apply filter_In in I as [I J]. apply filter_In. split; [|exact J].
            apply SB in I as (k' & Q & C & B). apply BB. exists k'. split; [exact Q|]. rewrite Q in J. split; [|exact B].
            unfold observes_at in C. apply andb_true_iff in C as [C _]. unfold bucket_at. now rewrite C, J. }
      exists bs, i. split.
      { rewrite R. do 2 f_equal. destruct XS as (u & _ & V & _). rewrite V. apply hv_sum_fold. }
      split; [exact L|]. split.
      + intros b v B. destruct (HB b v B) as (e & IE & AE). apply (CELL b v e); [|exact IE|exact AE].
        assert (b < length bs) by (apply nth_error_Some; congruence). lia.
      + apply (CELL n i ei); [lia|exact II|exact AI].
    - intros p q k k' P Q S S' B. unfold seen'. rewrite P, Q.
      destruct (hv_sample_accesses p k P S) as (bs & i & s & _ & _ & _ & _ & IS & AS).
      destruct (hv_sample_accesses q k' Q S') as (bs' & i' & s' & _ & _ & _ & _ & IS' & AS').
      eapply G; eauto.
  Qed.
End HistVec.

(** After all observations of its histogram, a sample has all of them. *)
Theorem histogram_vec_exact : forall n E ks h p k, consistent E -> calls_of (hist_vec_does n) E ks -> vec_locked E ks ->
  (forall c, x_init E c < 2 ^ 64)%N -> nth_error ks p = Some k -> k_op k = (h, HSample) ->
  (forall k', In k' ks -> observes_at h (k_op k') = true -> before E k' k) ->
  exists ops, Permutation ops (map snd (filter (observes_at h) (map k_op ks))) /\ sample_at n h E ops (k_res k).
Proof.
  intros n E ks h p k CON KS LOCK BI P S ALL. destruct (histogram_vec_samples n E ks CON KS LOCK h BI) as (order & seen & O & X & _).
  destruct (X p k P S) as (SA & (unseen & EO) & SB). exists (map snd (ops_of_calls ks (seen p))). split; [|exact SA].
  assert (U : unseen = []).
  { destruct unseen as [|q u]; [reflexivity|]. exfalso. pose proof O as (ND & MEM & _).
    assert (I : In q order) by (rewrite EO; apply in_or_app; right; now left).
    apply MEM in I as (k' & Q & C). assert (I : In q (seen p)) by (apply SB; exists k'; split; [exact Q|]; split; [exact C|]; exact (ALL k' (nth_error_In _ _ Q) C)).
    rewrite EO in ND. apply NoDup_remove_2 in ND. apply ND, in_or_app. now left. }
  subst unseen. rewrite app_nil_r in EO. rewrite <- EO. apply Permutation_map. exact (order_permutation E ks _ order O).
Qed.

(** Buckets do not fall from one sample to a later one. *)
Theorem histogram_vec_grow : forall n E ks h p q k k' bs i s bs' i' s', consistent E -> calls_of (hist_vec_does n) E ks -> vec_locked E ks ->
  (forall c, x_init E c + N.of_nat (length ks) < 2 ^ 64)%N -> nth_error ks p = Some k -> nth_error ks q = Some k' ->
  k_op k = (h, HSample) -> k_op k' = (h, HSample) -> before E k k' ->
  k_res k = Some (bs, i, s) -> k_res k' = Some (bs', i', s') ->
  (i <= i')%N /\ forall b v w, nth_error bs b = Some v -> nth_error bs' b = Some w -> (v <= w)%N.
Proof.
  intros n E ks h p q k k' bs i s bs' i' s' CON KS LOCK BI P Q S S' B R R'.
  assert (BI' : forall c, (x_init E c < 2 ^ 64)%N) by (intros c; specialize (BI c); lia).
  destruct (histogram_vec_samples n E ks CON KS LOCK h BI') as (order & seen & (ND & MEM & _) & X & G).
  destruct (X p k P S) as (SA & (up & EP) & _). destruct (X q k' Q S') as (SA' & (uq & EQ) & _). destruct (G p q k k' P Q S S' B) as (more & M). clear X G.
  rewrite R in SA. rewrite R' in SA'. destruct SA as (bs1 & i1 & E1 & _ & HB & HI). destruct SA' as (bs2 & i2 & E2 & _ & HB' & HI').
  injection E1 as -> -> _. injection E2 as -> -> _.
  assert (MONO : forall b, (bucket_count b (map snd (ops_of_calls ks (seen p))) <= bucket_count b (map snd (ops_of_calls ks (seen q))))%N).
  { intros b. rewrite M, ops_of_app, map_app. unfold bucket_count. rewrite filter_app, app_length. lia. }
  assert (BOUND : forall b, (bucket_count b (map snd (ops_of_calls ks (seen q))) <= N.of_nat (length ks))%N).
  { intros b. unfold bucket_count. rewrite hv_count_calls.
    assert (L : length (filter (fun p0 => match nth_error ks p0 with Some k0 => in_bucket b (snd (k_op k0)) | None => false end) (seen q)) <= length (seq 0 (length ks))).
    { apply NoDup_incl_length; [apply NoDup_filter; rewrite EQ in ND; now apply NoDup_app_both in ND|].
      intros z I. apply filter_In in I as [_ J]. apply in_seq. assert (z < length ks) by (apply nth_error_Some; destruct (nth_error ks z); congruence). lia. }
    rewrite seq_length in L. lia. }
  split.
  - rewrite HI, HI'. specialize (MONO n). specialize (BOUND n). specialize (BI (h * (n + 2) + n)). rewrite !N.mod_small by lia. lia.
  - intros b v w V W. rewrite (HB b v V), (HB' b w W). specialize (MONO b). specialize (BOUND b). specialize (BI (h * (n + 2) + b)). rewrite !N.mod_small by lia. lia.
Qed.
