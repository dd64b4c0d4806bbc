(** Histograms under concurrency: the invariant. *)
From Coq Require Import List NArith ZArith Bool Arith Lia ZifyBool ZifyN ZifyNat.
From Verif Require Import Base FloatModel MetricModel MetricProofs MetricTheorems ConcModel ConcSpec ConcProofs.
Import ListNotations.
Local Open Scope N_scope.

Definition hpend := @pending hist_op hist_res hist_mic.

(** Holding the lock for reading, for writing, waiting to write. *)
Definition h_reading (p : option (hist_op * hist_mic * option hist_res)) : bool :=
  match p with Some (_, (HAdd _ _ | HLoad _ | HExchange _ _ | HUnread _), _) => true | _ => false end.
Definition h_writing (p : option (hist_op * hist_mic * option hist_res)) : bool :=
  match p with Some (_, (HBuckets _ _ | HInf _ | HSum _ _ | HUnwrite _), _) => true | _ => false end.
Definition h_waiting (p : option (hist_op * hist_mic * option hist_res)) : bool :=
  match p with Some (_, HWrite, _) => true | _ => false end.

(** Has added to bucket [b] and not yet to the sum. *)
Definition h_between (b : nat) (p : option (hist_op * hist_mic * option hist_res)) : bool :=
  match p with Some (HObserve b' _, (HLoad _ | HExchange _ _), _) => Nat.eqb b' b | _ => false end.

Fixpoint h_count (P : hpend) (b : nat) (l : list nat) : N :=
  match l with
  | [] => 0
  | i :: t => (if h_between b (P i) then 1 else 0) + h_count P b t
  end.

(** Where a call can be, the abstract state being [st]. *)
Definition hist_at (st : hist) (op : hist_op) (mic : hist_mic) (g : option hist_res) : Prop :=
  match mic with
  | HRead b x | HAdd b x => op = HObserve b x /\ g = None
  | HLoad x | HExchange x _ => exists b, op = HObserve b x /\ (b <= length (h_buckets st))%nat /\ g = None
  | HUnread r => g = Some r
  | HRequest | HWrite => op = HSample /\ g = None
  | HBuckets k acc => op = HSample /\ g = None /\ acc = firstn k (h_buckets st)
  | HInf bs => op = HSample /\ g = None /\ bs = h_buckets st
  | HSum bs inf => op = HSample /\ g = None /\ bs = h_buckets st /\ inf = h_inf st
  | HUnwrite r => op = HSample /\ g = None /\ r = Some (h_buckets st, h_inf st, h_sum st)
  end.

Record hist_inv (c : chist) (P : hpend) (st : hist) : Prop := {
  hi_readers : forall i, In i (rw_readers (ch_lock c)) <-> h_reading (P i) = true;
  hi_nodup : NoDup (rw_readers (ch_lock c));
  hi_writer : forall i, rw_writer (ch_lock c) = Some i <-> h_writing (P i) = true;
  hi_excl : rw_writer (ch_lock c) <> None -> rw_readers (ch_lock c) = [];
  hi_waiters : forall i, In i (rw_wait (ch_lock c)) <-> h_waiting (P i) = true;
  hi_wnodup : NoDup (rw_wait (ch_lock c));
  hi_sum : h_sum (ch_state c) = h_sum st;
  hi_len : length (h_buckets (ch_state c)) = length (h_buckets st);
  hi_count : forall b, (b <= length (h_buckets st))%nat ->
    bucket_count b (ch_state c) = wrap64 (bucket_count b st + h_count P b (rw_readers (ch_lock c)));
  hi_small : forall b, bucket_count b st < W64;
  hi_at : forall i op mic g, P i = Some (op, mic, g) -> hist_at st op mic g
}.

Definition hist_lin (i ch : nat) (op : hist_op) (mic : hist_mic) (c : chist) : bool :=
  match mic with
  | HAdd b _ => negb (Nat.leb b (length (h_buckets (ch_state c))))
  | HExchange _ current => (h_sum (ch_state c) =? current) && Nat.eqb ch 0
  | HUnwrite _ => true
  | _ => false
  end.

(** ** Lists *)

Lemma remove_one_In : forall i l j, NoDup l -> In j (remove_one i l) <-> In j l /\ j <> i.
Proof.
  intros i l j. induction l as [|k l IH]; intros ND; cbn [remove_one]; [cbn; tauto|].
  inversion ND as [|a b NK NL E]; subst. destruct (Nat.eqb_spec i k) as [->|NE].
  - split; [intros I; split; [right; exact I|intros ->; contradiction]|]. intros [[E|I] N]; [congruence|exact I].
  - cbn [In]. rewrite (IH NL). split; [intros [->|[I N]]; auto|]. intros [[E|I] N]; auto.
Qed.
Lemma remove_one_NoDup : forall i l, NoDup l -> NoDup (remove_one i l).
Proof.
  intros i l. induction l as [|k l IH]; intros ND; cbn [remove_one]; [constructor|].
  inversion ND as [|a b NK NL E]; subst. destruct (Nat.eqb i k); [exact NL|]. constructor; [|auto].
  rewrite remove_one_In by exact NL. tauto.
Qed.

Lemma h_count_ext : forall P Q b l, (forall i, In i l -> h_between b (P i) = h_between b (Q i)) ->
  h_count P b l = h_count Q b l.
Proof.
  intros P Q b l. induction l as [|i l IH]; intros H; cbn [h_count]; [reflexivity|].
  rewrite (H i) by (left; reflexivity). rewrite IH; [reflexivity|]. intros j J. apply H. right; exact J.
Qed.

Lemma h_count_upd : forall P b i x l, NoDup l -> In i l ->
  h_count (upd P i x) b l + (if h_between b (P i) then 1 else 0) = h_count P b l + (if h_between b x then 1 else 0).
Proof.
  intros P b i x l. induction l as [|j l IH]; intros ND I; [destruct I|]. cbn [h_count].
  inversion ND as [|a c NK NL E]; subst. destruct I as [->|I].
  - rewrite upd_same. rewrite (h_count_ext (upd P i x) P); [lia|].
    intros k K. rewrite upd_other; [reflexivity|]. intros ->; contradiction.
  - rewrite upd_other by (intros ->; contradiction). specialize (IH NL I). lia.
Qed.

Lemma h_count_out : forall P b i x l, ~ In i l -> h_count (upd P i x) b l = h_count P b l.
Proof.
  intros P b i x l N. apply h_count_ext. intros j J. rewrite upd_other; [reflexivity|]. intros ->; contradiction.
Qed.

Lemma h_count_remove : forall P b i l, NoDup l -> In i l -> h_between b (P i) = false ->
  h_count P b (remove_one i l) = h_count P b l.
Proof.
  intros P b i l. induction l as [|j l IH]; intros ND I B; [destruct I|]. cbn [remove_one h_count].
  inversion ND as [|a c NK NL E]; subst. destruct (Nat.eqb_spec i j) as [->|NE]; [rewrite B; reflexivity|].
  destruct I as [->|I]; [congruence|]. cbn [h_count]. rewrite IH; auto.
Qed.

Lemma wrap64_add : forall a b, wrap64 (wrap64 a + b) = wrap64 (a + b).
Proof. intros. unfold wrap64. now rewrite N.add_mod_idemp_l by discriminate. Qed.
Lemma wrap64_lt : forall a, wrap64 a < W64.
Proof. intros. apply N.mod_lt. discriminate. Qed.

(** Adding one to a bucket, without the sum. *)
Definition bump (b : nat) (h : hist) : hist :=
  if Nat.ltb b (length (h_buckets h))
  then {| h_buckets := update_nth b (fun n => wrap64 (n + 1)) (h_buckets h); h_inf := h_inf h; h_sum := h_sum h |}
  else {| h_buckets := h_buckets h; h_inf := wrap64 (h_inf h + 1); h_sum := h_sum h |}.

Lemma bump_len : forall b h, length (h_buckets (bump b h)) = length (h_buckets h).
Proof. intros b h. unfold bump. destruct (Nat.ltb _ _); cbn; [apply update_nth_length|reflexivity]. Qed.
Lemma bump_sum : forall b h, h_sum (bump b h) = h_sum h.
Proof. intros b h. unfold bump. now destruct (Nat.ltb _ _). Qed.

Lemma bump_count : forall b h b', (b <= length (h_buckets h))%nat -> (b' <= length (h_buckets h))%nat ->
  bucket_count b' (bump b h) = if Nat.eqb b b' then wrap64 (bucket_count b' h + 1) else bucket_count b' h.
Proof.
  intros b h b' B B'. unfold bump, bucket_count. destruct (Nat.ltb_spec b (length (h_buckets h))) as [L|G]; cbn [h_buckets h_inf].
  - destruct (Nat.eqb_spec b b') as [->|N].
    + destruct (nth_error (h_buckets h) b') as [n|] eqn:E; [now rewrite (update_nth_same _ _ _ _ _ E)|].
      apply nth_error_None in E. lia.
    + now rewrite update_nth_other by congruence.
  - assert (b = length (h_buckets h)) by lia. subst b. destruct (Nat.eqb_spec (length (h_buckets h)) b') as [<-|N].
    + now rewrite (proj2 (nth_error_None (h_buckets h) (length (h_buckets h)))).
    + destruct (nth_error (h_buckets h) b') eqn:E; [reflexivity|]. apply nth_error_None in E. lia.
Qed.

Lemma bump_small : forall b h, (forall b', bucket_count b' h < W64) -> forall b', bucket_count b' (bump b h) < W64.
Proof.
  intros b h S b'. unfold bump, bucket_count in *. destruct (Nat.ltb b (length (h_buckets h))); cbn [h_buckets h_inf].
  - destruct (Nat.eq_dec b' b) as [->|N].
    + destruct (nth_error (h_buckets h) b) as [n|] eqn:E.
      * rewrite (update_nth_same _ _ _ _ _ E). apply wrap64_lt.
      * rewrite (proj2 (nth_error_None _ _)); [specialize (S b); now rewrite E in S|].
        rewrite update_nth_length. now apply nth_error_None.
    + rewrite update_nth_other by exact N. apply S.
  - destruct (nth_error (h_buckets h) b') eqn:E; [specialize (S b'); now rewrite E in S|apply wrap64_lt].
Qed.

Definition with_sum (h : hist) (x : N) : hist := {| h_buckets := h_buckets h; h_inf := h_inf h; h_sum := x |}.

Lemma hist_observe_bump : forall b x h, (b <= length (h_buckets h))%nat ->
  hist_observe b x h = Done (with_sum (bump b h) (f_add (h_sum h) x)).
Proof.
  intros b x h B. unfold hist_observe, bump, with_sum. destruct (Nat.leb_spec b (length (h_buckets h))); [|lia].
  now destruct (Nat.ltb b (length (h_buckets h))).
Qed.

Lemma same_buckets : forall h st, length (h_buckets h) = length (h_buckets st) ->
  (forall b, (b <= length (h_buckets st))%nat -> bucket_count b h = bucket_count b st) ->
  h_buckets h = h_buckets st /\ h_inf h = h_inf st.
Proof.
  intros h st L B. split.
  - apply nth_ext with (d := 0) (d' := 0); [exact L|]. intros n N. specialize (B n ltac:(lia)). unfold bucket_count in B.
    rewrite !nth_error_nth' with (d := 0) in B by lia. exact B.
  - specialize (B (length (h_buckets st)) ltac:(lia)). unfold bucket_count in B.
    rewrite !(proj2 (nth_error_None _ _)) in B by lia. exact B.
Qed.

(** ** The invariant is one *)

Ltac at_upd := match goal with |- context [upd _ ?i _ ?j] => destruct (Nat.eq_dec j i) as [->|?NE];
  [rewrite upd_same|rewrite upd_other by assumption] end.

(** A step that leaves the lock, the abstract state and the buckets alone and
    stays in the same region. *)
Lemma inv_quiet : forall c P st i op mic g mic' g', hist_inv c P st -> P i = Some (op, mic, g) ->
  h_reading (Some (op, mic', g')) = h_reading (Some (op, mic, g)) ->
  h_writing (Some (op, mic', g')) = h_writing (Some (op, mic, g)) ->
  h_waiting (Some (op, mic', g')) = h_waiting (Some (op, mic, g)) ->
  (forall b, h_between b (Some (op, mic', g')) = h_between b (Some (op, mic, g))) ->
  hist_at st op mic' g' -> hist_inv c (upd P i (Some (op, mic', g'))) st.
Proof.
  intros c P st i op mic g mic' g' [I1 I2 I3 I4 I5 I6 I7 I8 I9 I10 I11] PI E1 E2 E3 E4 A.
  split; auto.
  - intros j. rewrite I1. at_upd; [now rewrite E1, PI|reflexivity].
  - intros j. rewrite I3. at_upd; [now rewrite E2, PI|reflexivity].
  - intros j. rewrite I5. at_upd; [now rewrite E3, PI|reflexivity].
  - intros b B. rewrite I9 by exact B. f_equal. f_equal. apply h_count_ext. intros j J. at_upd; [now rewrite E4, PI|reflexivity].
  - intros j op' m g'' H. destruct (Nat.eq_dec j i) as [->|NE].
    + rewrite upd_same in H. inversion H; subst. exact A.
    + rewrite upd_other in H by exact NE. eauto.
Qed.

Lemma inv_nobody : forall c P st, hist_inv c P st -> rw_readers (ch_lock c) = [] -> ch_state c = st.
Proof.
  intros c P st I R. destruct (same_buckets (ch_state c) st) as [B F].
  - apply (hi_len _ _ _ I).
  - intros b L. rewrite (hi_count _ _ _ I b L), R. cbn [h_count]. rewrite N.add_0_r.
    apply N.mod_small, (hi_small _ _ _ I).
  - pose proof (hi_sum _ _ _ I). destruct (ch_state c), st; cbn in *; congruence.
Qed.

Theorem hist_ok : forall n, object_ok hist_machine hist_spec hist_lin hist_inv
  {| ch_lock := rw_free; ch_state := hist_new n |} (hist_new n)
  (fun c st => ch_state c = st /\ rw_readers (ch_lock c) = [] /\ rw_writer (ch_lock c) = None).
Proof.
  intros n. split.
  - split; cbn; try constructor; try (intros; split; intros; (contradiction || discriminate)); try discriminate; auto.
    + intros b _. rewrite N.add_0_r. unfold wrap64. rewrite N.mod_small; [reflexivity|].
      unfold bucket_count. cbn. destruct (nth_error (repeat 0 n) b) eqn:E; [|reflexivity].
      apply nth_error_In, repeat_spec in E. now subst.
    + intros b. unfold bucket_count. cbn. destruct (nth_error (repeat 0 n) b) eqn:E; [|reflexivity].
      apply nth_error_In, repeat_spec in E. now subst.
  - intros sh P Q st E [I1 I2 I3 I4 I5 I6 I7 I8 I9 I10 I11]. split; auto; try (intros i; rewrite <- E; now auto).
    + intros b B. rewrite I9 by exact B. f_equal. f_equal. apply h_count_ext. intros i _. now rewrite E.
    + intros i op mic g. rewrite <- E. apply I11.
  - intros sh P st i op [I1 I2 I3 I4 I5 I6 I7 I8 I9 I10 I11] N.
    assert (NR : ~ In i (rw_readers (ch_lock sh))) by (rewrite I1, N; discriminate).
    split; auto.
    + intros j. rewrite I1. at_upd; [rewrite N; now destruct op|reflexivity].
    + intros j. rewrite I3. at_upd; [rewrite N; now destruct op|reflexivity].
    + intros j. rewrite I5. at_upd; [rewrite N; now destruct op|reflexivity].
    + intros b B. rewrite h_count_out by exact NR. auto.
    + intros j op' m g H. destruct (Nat.eq_dec j i) as [->|NE].
      * rewrite upd_same in H. inversion H; subst. destruct op'; cbn; auto.
      * rewrite upd_other in H by exact NE. eauto.
  - intros c P st i ch op mic g c' nxt I PI E.
    pose proof (hi_at _ _ _ I i op mic g PI) as AT.
    pose proof I as [I1 I2 I3 I4 I5 I6 I7 I8 I9 I10 I11].
    assert (RD : h_reading (Some (op, mic, g)) = true -> In i (rw_readers (ch_lock c)) /\ rw_writer (ch_lock c) = None).
    { intros R. assert (In i (rw_readers (ch_lock c))) by (apply I1; now rewrite PI). split; [assumption|].
      destruct (rw_writer (ch_lock c)) eqn:W; [|reflexivity]. rewrite I4 in H by congruence. destruct H. }
    assert (WR : h_writing (Some (op, mic, g)) = true -> rw_writer (ch_lock c) = Some i /\ ch_state c = st).
    { intros R. assert (W : rw_writer (ch_lock c) = Some i) by (apply I3; now rewrite PI). split; [exact W|].
      apply (inv_nobody c P st I). apply I4. congruence. }
    destruct mic as [b x|b x|x|x cur|r| | |k acc|bs|bs inf|r]; cbn [m_step hist_machine hist_step hist_lin] in *.
    + (* read lock *)
      destruct AT as [-> ->]. destruct (rw_read i ch (ch_lock c)) as [l|] eqn:L; [|discriminate]. inversion E; subst; clear E.
      exists None, st. split; [auto|]. unfold rw_read in L. destruct (rw_writer (ch_lock c)) as [w|] eqn:W; [discriminate|].
      assert (EL : l = {| rw_readers := i :: rw_readers (ch_lock c); rw_writer := None; rw_wait := rw_wait (ch_lock c) |}).
      { destruct (rw_wait (ch_lock c)), ch; congruence. }
      clear L. subst l. assert (NR : ~ In i (rw_readers (ch_lock c))) by (rewrite I1, PI; discriminate).
      split; cbn [ch_lock ch_state set_lock rw_readers rw_writer rw_wait]; auto.
      * intros j. cbn [In]. rewrite I1. at_upd; [cbn; tauto|]. split; [intros [X|X]; [congruence|exact X]|auto].
      * constructor; assumption.
      * intros j. rewrite I3. at_upd; [now rewrite PI|reflexivity].
      * congruence.
      * intros j. rewrite I5. at_upd; [now rewrite PI|reflexivity].
      * intros b' B'. cbn [h_count]. rewrite upd_same, h_count_out by exact NR. cbn [h_between]. rewrite N.add_0_l. auto.
      * intros j op' m g' H. destruct (Nat.eq_dec j i) as [->|NE].
        -- rewrite upd_same in H. inversion H; subst. cbn; auto.
        -- rewrite upd_other in H by exact NE. eauto.
    + (* bucket *)
      destruct AT as [-> ->]. destruct (RD eq_refl) as [IR NW]. rewrite I8 in *.
      destruct (Nat.leb_spec b (length (h_buckets st))) as [LE|GT]; cbn [negb].
      * assert (EB : c' = set_state c (bump b (ch_state c)) /\ nxt = inl (HLoad x)).
        { unfold bump. rewrite I8. destruct (Nat.ltb b (length (h_buckets st))); inversion E; auto. }
        destruct EB as [-> ->]. clear E. exists None, st. split; [auto|].
        split; cbn [ch_lock ch_state set_state]; auto.
        -- intros j. rewrite I1. at_upd; [now rewrite PI|reflexivity].
        -- intros j. rewrite I3. at_upd; [now rewrite PI|reflexivity].
        -- intros j. rewrite I5. at_upd; [now rewrite PI|reflexivity].
        -- now rewrite bump_sum.
        -- now rewrite bump_len.
        -- intros b' B'. rewrite bump_count by lia. rewrite I9 by exact B'.
           pose proof (h_count_upd P b' i (Some (HObserve b x, HLoad x, None)) _ I2 IR) as CU.
           rewrite PI in CU. cbn [h_between] in CU. rewrite N.add_0_r in CU. rewrite CU.
           destruct (Nat.eqb b b'); [rewrite wrap64_add; f_equal; lia|now rewrite N.add_0_r].
        -- intros j op' m g' H. destruct (Nat.eq_dec j i) as [->|NE].
           ++ rewrite upd_same in H. inversion H; subst. cbn. eauto.
           ++ rewrite upd_other in H by exact NE. eauto.
      * inversion E; subst; clear E. exists (Some None), st. split.
        -- split; [reflexivity|]. exists None. split; [|reflexivity]. cbn [hist_spec]. unfold hist_observe.
           destruct (Nat.leb_spec b (length (h_buckets st))); [lia|reflexivity].
        -- eapply inv_quiet; eauto; reflexivity.
    + (* load *)
      destruct AT as (b & -> & B & ->). inversion E; subst; clear E. exists None, st. split; [auto|].
      eapply inv_quiet; eauto; try reflexivity. cbn. eauto.
    + (* exchange *)
      destruct AT as (b & -> & B & ->). destruct (RD eq_refl) as [IR NW].
      destruct ((h_sum (ch_state c) =? cur) && Nat.eqb ch 0) eqn:EX.
      * apply andb_prop in EX as [EX _]. apply N.eqb_eq in EX. subst cur.
        inversion E; subst; clear E. exists (Some (Some ([], 0, 0))), (with_sum (bump b st) (f_add (h_sum st) x)).
        split.
        { split; [reflexivity|]. exists (Some ([], 0, 0)). split; [|reflexivity]. cbn [hist_spec].
          now rewrite hist_observe_bump. }
        assert (NOW : forall j, h_writing (P j) = false).
        { intros j. destruct (h_writing (P j)) eqn:W; [|reflexivity]. apply I3 in W. congruence. }
        split; cbn [ch_lock ch_state set_state h_buckets h_inf h_sum with_sum]; auto.
        -- intros j. rewrite I1. at_upd; [now rewrite PI|reflexivity].
        -- intros j. rewrite I3. at_upd; [now rewrite PI|reflexivity].
        -- intros j. rewrite I5. at_upd; [now rewrite PI|reflexivity].
        -- now rewrite I7.
        -- now rewrite bump_len.
        -- intros b' B'. rewrite bump_len in B'.
           change (bucket_count b' {| h_buckets := h_buckets (ch_state c); h_inf := h_inf (ch_state c); h_sum := to_bits (f_add (from_bits (h_sum (ch_state c))) x) |})
             with (bucket_count b' (ch_state c)).
           change (bucket_count b' (with_sum (bump b st) (f_add (h_sum st) x))) with (bucket_count b' (bump b st)).
           rewrite bump_count by lia. rewrite I9 by exact B'.
           pose proof (h_count_upd P b' i (Some (HObserve b x, HUnread (Some ([], 0, 0)), Some (Some ([], 0, 0)))) _ I2 IR) as CU.
           rewrite PI in CU. cbn [h_between] in CU. rewrite N.add_0_r in CU. rewrite <- CU.
           fold hist_res. generalize (h_count (upd P i (Some (HObserve b x, HUnread (Some ([], 0, 0)), Some (Some ([], 0, 0))))) b' (rw_readers (ch_lock c))).
           intros m. destruct (Nat.eqb b b'); [rewrite wrap64_add; f_equal; lia|now rewrite N.add_0_r].
        -- apply bump_small. exact I10.
        -- intros j op' m g' H. destruct (Nat.eq_dec j i) as [->|NE].
           ++ rewrite upd_same in H. inversion H; subst. cbn. reflexivity.
           ++ rewrite upd_other in H by exact NE. pose proof (I11 _ _ _ _ H) as A. specialize (NOW j). rewrite H in NOW.
              destruct m; cbn in *; try discriminate; auto; rewrite bump_len; exact A.
      * inversion E; subst; clear E. exists None, st. split; [auto|].
        eapply inv_quiet; eauto; try reflexivity. cbn. eauto.
    + (* read unlock *)
      cbn in AT. subst g. destruct (RD eq_refl) as [IR NW]. inversion E; subst; clear E.
      exists (Some r), st. split; [auto|]. split; [reflexivity|].
      split; cbn [ch_lock ch_state set_lock rw_unread rw_readers rw_writer rw_wait]; auto.
      * intros j. rewrite remove_one_In by exact I2. at_upd; [split; [tauto|discriminate]|]. rewrite I1. tauto.
      * now apply remove_one_NoDup.
      * intros j. rewrite I3. at_upd; [now rewrite PI|reflexivity].
      * congruence.
      * intros j. rewrite I5. at_upd; [now rewrite PI|reflexivity].
      * intros b B. rewrite I9 by exact B. f_equal. f_equal. rewrite h_count_out.
        -- symmetry. apply h_count_remove; auto. rewrite PI. now destruct op.
        -- rewrite remove_one_In by exact I2. tauto.
      * intros j op' m g' H. destruct (Nat.eq_dec j i) as [->|NE]; [rewrite upd_same in H; discriminate|].
        rewrite upd_other in H by exact NE. eauto.
    + (* request *)
      destruct AT as [-> ->]. inversion E; subst; clear E. exists None, st. split; [auto|].
      assert (NR : ~ In i (rw_readers (ch_lock c))) by (rewrite I1, PI; discriminate).
      split; cbn [ch_lock ch_state set_lock rw_request rw_readers rw_writer rw_wait]; auto.
      * intros j. rewrite I1. at_upd; [now rewrite PI|reflexivity].
      * intros j. rewrite I3. at_upd; [now rewrite PI|reflexivity].
      * intros j. cbn [In]. rewrite I5. at_upd; [cbn; tauto|]. split; [intros [X|X]; [congruence|exact X]|auto].
      * constructor; [rewrite I5, PI; discriminate|exact I6].
      * intros b B. rewrite h_count_out by exact NR. auto.
      * intros j op' m g' H. destruct (Nat.eq_dec j i) as [->|NE].
        -- rewrite upd_same in H. inversion H; subst. cbn. auto.
        -- rewrite upd_other in H by exact NE. eauto.
    + (* write lock *)
      destruct AT as [-> ->]. unfold rw_write in E. destruct (rw_readers (ch_lock c)) eqn:R; [|discriminate].
      destruct (rw_writer (ch_lock c)) eqn:W; [discriminate|]. inversion E; subst; clear E.
      exists None, st. split; [auto|].
      split; cbn [ch_lock ch_state set_lock rw_readers rw_writer rw_wait]; auto.
      * intros j. rewrite I1. at_upd; [now rewrite PI|reflexivity].
      * intros j. at_upd; [cbn; tauto|]. split; [congruence|]. intros X. apply I3 in X. discriminate.
      * intros j. rewrite remove_one_In by exact I6. at_upd; [split; [tauto|discriminate]|]. rewrite I5. tauto.
      * now apply remove_one_NoDup.
      * intros j op' m g' H. destruct (Nat.eq_dec j i) as [->|NE].
        -- rewrite upd_same in H. inversion H; subst. cbn. auto.
        -- rewrite upd_other in H by exact NE. eauto.
    + (* buckets *)
      destruct AT as (-> & -> & ->). destruct (WR eq_refl) as [W ES]. rewrite ES in E. exists None, st.
      destruct (nth_error (h_buckets st) k) as [v|] eqn:NK; inversion E; subst; clear E; (split; [auto|]).
      * eapply inv_quiet; eauto; try reflexivity. cbn. split; [reflexivity|]. split; [reflexivity|].
        revert NK. generalize (h_buckets (ch_state c')). clear. intros l. revert k.
        induction l as [|a l IH]; intros [|k] H; cbn in *; try discriminate; [congruence|]. f_equal. now apply IH.
      * eapply inv_quiet; eauto; try reflexivity. cbn. split; [reflexivity|]. split; [reflexivity|].
        apply firstn_all2. now apply nth_error_None.
    + destruct AT as (-> & -> & ->). destruct (WR eq_refl) as [W ES]. rewrite ES in E. exists None, st.
      inversion E; subst; clear E. split; [auto|]. eapply inv_quiet; eauto; try reflexivity. cbn. auto.
    + destruct AT as (-> & -> & -> & ->). destruct (WR eq_refl) as [W ES]. rewrite ES in E. exists None, st.
      inversion E; subst; clear E. split; [auto|]. eapply inv_quiet; eauto; try reflexivity. cbn. auto.
    + (* write unlock *)
      destruct AT as (-> & -> & ->). destruct (WR eq_refl) as [W ES]. inversion E; subst; clear E.
      eexists (Some _), (ch_state c). split; [split; [reflexivity|]; eexists; split; reflexivity|]. split; [reflexivity|].
      assert (R : rw_readers (ch_lock c) = []) by (apply I4; congruence).
      split; cbn [ch_lock ch_state set_lock rw_unwrite rw_readers rw_writer rw_wait]; auto.
      * intros j. rewrite I1. at_upd; [now rewrite PI|reflexivity].
      * intros j. split; [discriminate|]. at_upd; [discriminate|]. intros X. apply I3 in X. congruence.
      * intros j. rewrite I5. at_upd; [now rewrite PI|reflexivity].
      * intros b B. specialize (I9 b B). rewrite R in *. exact I9.
      * intros j op' m g' H. destruct (Nat.eq_dec j i) as [->|NE]; [rewrite upd_same in H; discriminate|].
        rewrite upd_other in H by exact NE. eauto.
  - intros c P st I N. pose proof I as [I1 I2 I3 I4 I5 I6 I7 I8 I9 I10 I11].
    assert (R : rw_readers (ch_lock c) = []).
    { destruct (rw_readers (ch_lock c)) as [|i l] eqn:R; [reflexivity|]. exfalso.
      assert (X : In i (i :: l)) by (left; reflexivity). apply I1 in X. rewrite N in X. discriminate. }
    split; [eapply inv_nobody; eauto|]. split; [exact R|].
    destruct (rw_writer (ch_lock c)) as [w|] eqn:W; [|reflexivity]. pose proof (proj1 (I3 w) eq_refl) as X. rewrite N in X. discriminate.
Qed.

Theorem hist_linearizable : forall n, linearizable hist_spec hist_machine
  {| ch_lock := rw_free; ch_state := hist_new n |} (hist_new n)
  (fun c st => ch_state c = st /\ rw_readers (ch_lock c) = [] /\ rw_writer (ch_lock c) = None).
Proof. intros n. eapply object_linearizable, hist_ok. Qed.
