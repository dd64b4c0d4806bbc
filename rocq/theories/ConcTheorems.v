(** Counters, gauges and histograms shared by threads: consequences. *)
From Coq Require Import List NArith ZArith Bool Arith Lia Sorted ZifyBool ZifyN ZifyNat.
From Verif Require Import Base FloatModel MetricModel MetricProofs MetricTheorems ConcModel ConcSpec ConcProofs ConcHist.
Import ListNotations.
Local Open Scope Z_scope.

Lemma sum_over_app : forall A (f : A -> Z) a b, sum_over f (a ++ b) = sum_over f a + sum_over f b.
Proof. intros A f a b. unfold sum_over. induction a as [|x a IH]; cbn; [reflexivity|]. rewrite IH. lia. Qed.
Lemma sum_over_ext : forall A (f g : A -> Z) l, (forall x, In x l -> f x = g x) -> sum_over f l = sum_over g l.
Proof.
  intros A f g l. unfold sum_over. induction l as [|x l IH]; intros H; cbn; [reflexivity|].
  rewrite (H x) by (left; reflexivity). rewrite IH; [reflexivity|]. intros y Y. apply H. right; exact Y.
Qed.
Lemma sum_over_add : forall A (f g : A -> Z) l, sum_over (fun x => f x + g x) l = sum_over f l + sum_over g l.
Proof. intros A f g l. unfold sum_over. induction l as [|x l IH]; cbn; [reflexivity|]. rewrite IH. lia. Qed.

Lemma sum_over_zero : forall A (l : list A), sum_over (fun _ => 0) l = 0.
Proof. intros A l. unfold sum_over. induction l as [|x l IH]; cbn; [reflexivity|]. exact IH. Qed.

Lemma sum_delta : forall i n z, (i < n)%nat -> sum_over (fun j => if Nat.eqb i j then z else 0) (seq 0 n) = z.
Proof.
  intros i n z. induction n as [|n IH]; intros L; [lia|]. rewrite seq_S, sum_over_app. cbn [Nat.add].
  destruct (Nat.eq_dec i n) as [->|N].
  - rewrite (sum_over_ext _ _ (fun _ => 0)).
    + rewrite sum_over_zero. unfold sum_over. cbn. rewrite Nat.eqb_refl. lia.
    + intros j J. apply in_seq in J. destruct (Nat.eqb_spec n j); [lia|reflexivity].
  - rewrite IH by lia. unfold sum_over. cbn. destruct (Nat.eqb_spec i n); [congruence|]. lia.
Qed.

(** The log split by threads. *)
Lemma sum_by_thread : forall Op Res (f : Op -> Z) n (log : list (@entry Op Res)),
  (forall e, In e log -> (fst (fst e) < n)%nat) ->
  sum_over (fun e => f (snd (fst e))) log =
  sum_over (fun i => sum_over (fun d => f (fst d)) (of_thread i log)) (seq 0 n).
Proof.
  intros Op Res f n log. induction log as [|[[i op] r] log IH]; intros H.
  - symmetry. apply sum_over_zero.
  - change (f op + sum_over (fun e : @entry Op Res => f (snd (fst e))) log =
            sum_over (fun i0 => sum_over (fun d => f (fst d)) (of_thread i0 ((i, op, r) :: log))) (seq 0 n)).
    transitivity (f op + sum_over (fun i => sum_over (fun d => f (fst d)) (of_thread i log)) (seq 0 n)).
    { apply (f_equal (Z.add (f op))). apply IH. intros e E; apply H; right; exact E. }
    rewrite <- (sum_delta i n (f op)) at 1 by (apply (H (i, op, r)); left; reflexivity).
    rewrite <- sum_over_add. apply sum_over_ext. intros j _. unfold of_thread. cbn [filter fst].
    destruct (Nat.eqb i j); cbn; reflexivity.
Qed.

Lemma explains_quiescent : forall Sh Op Res Mic (log : list (@entry Op Res)) (c : config Sh Op Res Mic),
  explains log c -> quiescent c -> forall i, of_thread i log = t_done (c_th c i).
Proof.
  intros Sh Op Res Mic log c E Q i. destruct (E i) as [H|(op & mic & r & C & _)]; [exact H|]. rewrite Q in C. discriminate.
Qed.

Lemma explains_below : forall Sh Op Res Mic (log : list (@entry Op Res)) (c : config Sh Op Res Mic) n,
  explains log c -> quiescent c -> (forall i, (n <= i)%nat -> t_done (c_th c i) = []) ->
  forall e, In e log -> (fst (fst e) < n)%nat.
Proof.
  intros Sh Op Res Mic log c n E Q N [[i op] r] H. cbn. destruct (Nat.lt_ge_cases i n) as [|G]; [assumption|]. exfalso.
  pose proof (explains_quiescent _ _ _ _ _ _ E Q i) as X. rewrite (N i G) in X.
  assert (Y : In (op, r) (of_thread i log)).
  { unfold of_thread. apply in_map_iff. exists (i, op, r). split; [reflexivity|]. apply filter_In. split; [exact H|]. cbn. apply Nat.eqb_refl. }
  rewrite X in Y. destruct Y.
Qed.

Lemma total_of_log : forall Sh Op Res Mic f (log : list (@entry Op Res)) (c : config Sh Op Res Mic) n,
  explains log c -> quiescent c -> (forall i, (n <= i)%nat -> t_done (c_th c i) = []) ->
  sum_over (fun e => f (snd (fst e))) log = total_done f n c.
Proof.
  intros Sh Op Res Mic f log c n E Q N. rewrite (sum_by_thread _ _ _ n) by (eapply explains_below; eauto).
  unfold total_done. apply sum_over_ext. intros i _. now rewrite (explains_quiescent _ _ _ _ _ _ E Q).
Qed.

Lemma legal_app : forall St Op Res (spec : nat -> Op -> St -> option (St * Res)) log1 log2 st st',
  legal spec st (log1 ++ log2) st' -> exists st1, legal spec st log1 st1 /\ legal spec st1 log2 st'.
Proof.
  intros St Op Res spec. induction log1 as [|e log1 IH]; intros log2 st st' H; cbn in *.
  - exists st. split; [constructor|exact H].
  - inversion H as [|s i op r s' l s'' E H' EQ]; subst. destruct (IH _ _ _ H') as (st1 & A & B).
    exists st1. split; [econstructor; eauto|exact B].
Qed.

(* ------------------------------------------------------------------ *)
(** ** Real time *)

Theorem real_time : forall Sh Op Res Mic (L : schedule -> list (@entry Op Res)) (c : schedule -> config Sh Op Res Mic),
  (forall s s', exists more, L (s ++ s') = L s ++ more) -> (forall s, explains (L s) (c s)) ->
  real_time_order L c.
Proof.
  intros Sh Op Res Mic L c P E s s' i n j m N S. destruct (P s s') as [more ->]. exists (L s), more. split; [reflexivity|]. split.
  - destruct (E s i) as [->|(op & mic & r & C & ->)]; [exact N|]. rewrite app_length. lia.
  - unfold started in S. destruct (E s j) as [->|(op & mic & r & C & ->)]; [destruct (t_cur (c_th (c s) j)); lia|].
    rewrite C in S. rewrite app_length. cbn. lia.
Qed.

(* ------------------------------------------------------------------ *)
(** ** C18 *)

Lemma counter_legal : forall v log v', (v < 2 ^ 64)%N -> legal (pure_spec counter_eff) v log v' ->
  Z.of_N v' = (Z.of_N v + sum_over (fun e => counter_delta (snd (fst e))) log) mod 2 ^ 64.
Proof.
  intros v log v' V H. induction H as [s|s i op r s' log s'' E H IH].
  - unfold sum_over. cbn [fold_right]. rewrite Z.add_0_r, Z.mod_small; [reflexivity|]. lia.
  - assert (S : Z.of_N s' = (Z.of_N s + counter_delta op) mod 2 ^ 64 /\ (s' < 2 ^ 64)%N).
    { unfold pure_spec in E. change (2 ^ 64) with (Z.of_N W64). change (2 ^ 64)%N with W64.
      destruct op as [|x|]; cbn [counter_eff counter_delta] in *; inversion E; subst.
      - unfold counter_inc, counter_inc_by, wrap64. rewrite N2Z.inj_mod, N2Z.inj_add. split; [reflexivity|now apply N.mod_lt].
      - unfold counter_inc_by, wrap64. rewrite N2Z.inj_mod, N2Z.inj_add. split; [reflexivity|now apply N.mod_lt].
      - split; [rewrite Z.add_0_r, Z.mod_small; [reflexivity|]; change W64 with (2 ^ 64)%N; lia|exact V]. }
    destruct S as [S L]. rewrite (IH L), S. cbn [sum_over fold_right fst snd]. rewrite Z.add_mod_idemp_l by discriminate.
    f_equal. unfold sum_over. lia.
Qed.

Theorem counter_total : forall prog s v0 n, (v0 < 2 ^ 64)%N ->
  let c := run counter_machine prog s (start_config v0) in
  quiescent c -> (forall i, (n <= i)%nat -> t_done (c_th c i) = []) ->
  Z.of_N (c_sh c) = (Z.of_N v0 + total_done counter_delta n c) mod 2 ^ 64.
Proof.
  intros prog s v0 n V c Q N. destruct (atomic_linearizable _ _ _ counter_eff v0 prog) as (L & _ & H).
  destruct (H s) as (E & st & LG & R). fold counter_machine in *. fold c in E, R.
  rewrite (R Q). rewrite (counter_legal _ _ _ V LG). now rewrite (total_of_log _ _ _ _ _ _ _ n E Q N).
Qed.

Lemma counter_delta_nonneg : forall op, 0 <= counter_delta op.
Proof. intros [|x|]; cbn; lia. Qed.
Lemma sum_nonneg : forall (log : list (@entry counter_op N)), 0 <= sum_over (fun e => counter_delta (snd (fst e))) log.
Proof. intros log. unfold sum_over. induction log as [|e log IH]; cbn; [lia|]. pose proof (counter_delta_nonneg (snd (fst e))). lia. Qed.

Lemma counter_reads_sorted : forall v log v', legal (pure_spec counter_eff) v log v' ->
  Z.of_N v + sum_over (fun e => counter_delta (snd (fst e))) log < 2 ^ 64 ->
  Forall (N.le v) (counter_reads log) /\ StronglySorted N.le (counter_reads log).
Proof.
  intros v log v' H. induction H as [s|s i op r s' log s'' E H IH]; intros B; [split; constructor|].
  pose (X := sum_over (fun e : @entry counter_op N => counter_delta (snd (fst e))) log).
  change (Z.of_N s + (counter_delta op + X) < 2 ^ 64) in B. change (Z.of_N s' + X < 2 ^ 64 ->
    Forall (N.le s') (counter_reads log) /\ StronglySorted N.le (counter_reads log)) in IH.
  assert (NN : 0 <= X) by exact (sum_nonneg log). clearbody X. pose proof (counter_delta_nonneg op).
  assert (S : Z.of_N s' = Z.of_N s + counter_delta op).
  { unfold pure_spec in E. destruct op as [|x|]; cbn [counter_eff counter_delta] in *; inversion E; subst; try lia;
      unfold counter_inc, counter_inc_by, wrap64; rewrite N.mod_small by (change W64 with (2 ^ 64)%N; lia); lia. }
  destruct IH as [F S']; [lia|].
  assert (F' : Forall (N.le s) (counter_reads log)) by (eapply Forall_impl; [|exact F]; cbn; intros; lia).
  destruct op as [|x|]; cbn [counter_reads flat_map app]; try (split; assumption).
  cbn in E. inversion E; subst. split; constructor; auto; lia.
Qed.

Theorem counter_monotone : forall v0 prog, exists L : schedule -> list (@entry counter_op N),
  real_time_order L (fun s => run counter_machine prog s (start_config v0)) /\
  forall s, let c := run counter_machine prog s (start_config v0) in
    explains (L s) c /\
    (exists st, legal (pure_spec counter_eff) v0 (L s) st) /\
    (Z.of_N v0 + sum_over (fun e => counter_delta (snd (fst e))) (L s) < 2 ^ 64 ->
     StronglySorted N.le (counter_reads (L s))).
Proof.
  intros v0 prog. destruct (atomic_linearizable _ _ _ counter_eff v0 prog) as (L & P & H). exists L.
  split; [apply real_time; [exact P|exact (fun s => proj1 (H s))]|].
  intros s c. destruct (H s) as (E & st & LG & _). split; [exact E|]. split; [eauto|]. intros B.
  exact (proj2 (counter_reads_sorted _ _ _ LG B)).
Qed.

(* ------------------------------------------------------------------ *)
(** ** C20 *)

Lemma to_i64_range : forall z, - 2 ^ 63 <= to_i64 z < 2 ^ 63.
Proof.
  intros z. unfold to_i64, W64. change (Z.of_N 18446744073709551616) with (2 ^ 64).
  pose proof (Z.mod_pos_bound z (2 ^ 64) eq_refl). destruct (Z.ltb_spec (z mod 2 ^ 64) (2 ^ 63)); lia.
Qed.
Lemma to_i64_mod : forall a b, a mod 2 ^ 64 = b mod 2 ^ 64 -> to_i64 a = to_i64 b.
Proof. intros a b H. unfold to_i64, W64. change (Z.of_N 18446744073709551616) with (2 ^ 64). now rewrite H. Qed.
Lemma to_i64_congr : forall a, to_i64 a mod 2 ^ 64 = a mod 2 ^ 64.
Proof.
  intros a. unfold to_i64, W64. change (Z.of_N 18446744073709551616) with (2 ^ 64).
  destruct (Z.ltb_spec (a mod 2 ^ 64) (2 ^ 63)); [now rewrite Z.mod_mod|].
  replace (a mod 2 ^ 64 - 2 ^ 64) with (a mod 2 ^ 64 + (-1) * 2 ^ 64) by lia. rewrite Z.mod_add by discriminate. now rewrite Z.mod_mod.
Qed.
Lemma to_i64_add : forall a b, to_i64 (to_i64 a + b) = to_i64 (a + b).
Proof.
  intros a b. apply to_i64_mod. rewrite (Z.add_mod (to_i64 a)) by discriminate. rewrite to_i64_congr. now rewrite <- Z.add_mod by discriminate.
Qed.

(** No sets: the value is the start plus all deltas, wrapped. *)
Lemma gauge_no_set : forall v log v', - 2 ^ 63 <= v < 2 ^ 63 -> legal (pure_spec igauge_eff) v log v' ->
  (forall e, In e log -> is_set (snd (fst e)) = false) ->
  v' = to_i64 (v + sum_over (fun e => gauge_delta (snd (fst e))) log).
Proof.
  intros v log v' V H. induction H as [s|s i op r s' log s'' E H IH]; intros NS.
  - unfold sum_over. cbn [fold_right]. rewrite Z.add_0_r. symmetry. now apply to_i64_small.
  - assert (S : s' = to_i64 (s + gauge_delta op)).
    { specialize (NS (i, op, r) (or_introl eq_refl)). cbn in NS. unfold pure_spec in E.
      destruct op as [[|x| |x|x]|]; cbn [igauge_eff gauge_shared gauge_delta] in *; try discriminate; inversion E; subst; try reflexivity.
      rewrite Z.add_0_r. symmetry. now apply to_i64_small. }
    rewrite IH; [|rewrite S; apply to_i64_range|intros e I; apply NS; right; exact I].
    rewrite S, to_i64_add. cbn [sum_over fold_right fst snd]. f_equal. unfold sum_over. lia.
Qed.

Theorem gauge_total : forall prog s v0 n, - 2 ^ 63 <= v0 < 2 ^ 63 ->
  let c := run igauge_machine prog s (start_config v0) in
  quiescent c -> (forall i, (n <= i)%nat -> t_done (c_th c i) = []) ->
  (forall i d, In d (t_done (c_th c i)) -> is_set (fst d) = false) ->
  c_sh c = to_i64 (v0 + total_done gauge_delta n c).
Proof.
  intros prog s v0 n V c Q N NS. destruct (atomic_linearizable _ _ _ igauge_eff v0 prog) as (L & _ & H).
  destruct (H s) as (E & st & LG & R). fold igauge_machine in *. fold c in E, R.
  rewrite (R Q). rewrite (gauge_no_set _ _ _ V LG).
  - now rewrite (total_of_log _ _ _ _ _ _ _ n E Q N).
  - intros [[i op] r] I. apply (NS i (op, r)). rewrite <- (explains_quiescent _ _ _ _ _ _ E Q i).
    unfold of_thread. apply in_map_iff. exists (i, op, r). split; [reflexivity|]. apply filter_In.
    split; [exact I|]. apply Nat.eqb_refl.
Qed.

Lemma existsb_false_In : forall (ops : list igauge_op), existsb is_set ops = false -> forall o, In o ops -> is_set o = false.
Proof.
  intros ops H o I. destruct (is_set o) eqn:S; [|reflexivity].
  assert (existsb is_set ops = true) by (apply existsb_exists; eauto). congruence.
Qed.

Lemma gauge_exact_ops : forall (ops : list igauge_op) (log : list (@entry igauge_op Z)), ops_of log = ops ->
  sum_over (fun e => gauge_delta (snd (fst e))) log = sum_over gauge_delta ops.
Proof. intros ops log <-. unfold sum_over. induction log as [|e log IH]; cbn; [reflexivity|]. now rewrite IH. Qed.

(** In general: the last value set plus the deltas since, wrapped. *)
Theorem gauge_since_set : forall log v v', - 2 ^ 63 <= v < 2 ^ 63 -> legal (pure_spec igauge_eff) v log v' ->
  (forall i x r, In (i, IWrite (GSet x), r) log -> - 2 ^ 63 <= x < 2 ^ 63) ->
  let (base, rest) := since_set v (ops_of log) in
  v' = to_i64 (base + sum_over gauge_delta rest).
Proof.
  induction log as [|[[i op] r] log IH]; intros v v' V H SB.
  - inversion H; subst. cbn. rewrite Z.add_0_r. symmetry. now apply to_i64_small.
  - inversion H as [|s j op' r' s' l s'' E H' EQ]; subst. unfold ops_of. cbn [map snd fst since_set]. fold (ops_of log).
    destruct (existsb is_set (ops_of log)) eqn:EX.
    + assert (V' : - 2 ^ 63 <= s' < 2 ^ 63).
      { unfold pure_spec in E. destruct op as [[|x| |x|x]|]; cbn [igauge_eff gauge_shared] in E; inversion E; subst; try apply to_i64_range.
        - apply (SB i s' 0). left; reflexivity.
        - exact V. }
      assert (SI : forall v1 v2 ops, existsb is_set ops = true -> since_set v1 ops = since_set v2 ops).
      { intros v1 v2 ops. induction ops as [|o ops IHo]; cbn; [discriminate|]. intros X.
        destruct (existsb is_set ops) eqn:Y; [apply IHo; reflexivity|]. destruct o as [[| | | |]|]; cbn in *; try discriminate. reflexivity. }
      rewrite (SI v s') by exact EX. apply IH; [exact V'|exact H'|]. intros j x r' I. apply (SB j x r'). right; exact I.
    + assert (NS : forall e, In e log -> is_set (snd (fst e)) = false).
      { intros e I. apply (existsb_false_In _ EX). unfold ops_of. now apply in_map with (f := fun e : @entry igauge_op Z => snd (fst e)). }
      destruct op as [[|x| |x|x]|]; cbv beta iota.
      5:{ unfold pure_spec in E. cbn in E. inversion E; subst. rewrite <- (gauge_exact_ops _ log eq_refl).
          apply gauge_no_set; auto. apply (SB i s' 0). left; reflexivity. }
      all: match goal with |- _ = to_i64 (_ + sum_over _ (?o :: _)) =>
             rewrite <- (gauge_exact_ops (o :: ops_of log) ((i, o, r) :: log) eq_refl) end;
           apply gauge_no_set; auto; intros e [<-|I]; auto; reflexivity.
Qed.

Theorem gauge_any_order : forall v0 prog, - 2 ^ 63 <= v0 < 2 ^ 63 -> exists L : schedule -> list (@entry igauge_op Z),
  real_time_order L (fun s => run igauge_machine prog s (start_config v0)) /\
  forall s, let c := run igauge_machine prog s (start_config v0) in
    explains (L s) c /\
    ((forall i x r, In (i, IWrite (GSet x), r) (L s) -> - 2 ^ 63 <= x < 2 ^ 63) ->
     (forall pre i r post, L s = pre ++ (i, IRead, r) :: post ->
        let (base, rest) := since_set v0 (ops_of pre) in r = to_i64 (base + sum_over gauge_delta rest)) /\
     (quiescent c -> let (base, rest) := since_set v0 (ops_of (L s)) in
        c_sh c = to_i64 (base + sum_over gauge_delta rest))).
Proof.
  intros v0 prog V. destruct (atomic_linearizable _ _ _ igauge_eff v0 prog) as (L & P & H). exists L.
  split; [apply real_time; [exact P|exact (fun s => proj1 (H s))]|].
  intros s c. destruct (H s) as (E & st & LG & R). split; [exact E|]. intros B. split.
  - intros pre i r post EQ. rewrite EQ in LG. apply legal_app in LG as (st1 & A & A2).
    inversion A2 as [|s0 j op r' s' l s'' ES H' EQ2]; subst. cbn in ES. inversion ES; subst.
    apply (gauge_since_set pre); auto. intros j x r' I. apply (B j x r'). rewrite EQ. apply in_or_app. auto.
  - intros Q. specialize (R Q). fold igauge_machine in R. fold c in R. rewrite R. apply gauge_since_set; auto.
Qed.

(* ------------------------------------------------------------------ *)
(** ** C21: the exchange loop is lock-free *)

Definition float_rank (t : thread float_op N float_mic) (cell : N) : nat :=
  match t_cur t with
  | None => 4
  | Some (_, FLoop _) => 2
  | Some (_, FExchange _ cur) => if (cell =? cur)%N then 1 else 3
  | Some (_, FStore _) => 1
  | Some (_, FGet) => 1
  end.

Definition fcfg := config N float_op N float_mic.

Lemma done_grows_step : forall Sh Op Res Mic (M : machine Sh Op Res Mic) prog ic c j,
  (length (t_done (c_th c j)) <= length (t_done (c_th (step M prog ic c) j)))%nat.
Proof.
  intros Sh Op Res Mic M prog [i ch] c j. unfold step. destruct (t_cur (c_th c i)) as [[op mic]|] eqn:C.
  - destruct (m_step M i ch mic (c_sh c)) as [[sh' [mic'|r]]|]; cbn; unfold upd; [| |lia];
      destruct (Nat.eqb_spec j i) as [->|]; cbn; rewrite ?app_length; lia.
  - destruct (prog i (t_done (c_th c i))); cbn; [|lia]. unfold upd. destruct (Nat.eqb_spec j i) as [->|]; cbn; lia.
Qed.
Lemma done_grows : forall Sh Op Res Mic (M : machine Sh Op Res Mic) prog s c j,
  (length (t_done (c_th c j)) <= length (t_done (c_th (run M prog s c) j)))%nat.
Proof.
  intros Sh Op Res Mic M prog s. induction s as [|ic s IH]; intros c j; cbn; [lia|].
  pose proof (done_grows_step _ _ _ _ M prog ic c j). specialize (IH (step M prog ic c) j). lia.
Qed.

Lemma float_rank_step : forall prog j c i, active prog c i ->
  more_done c (step float_machine prog (j, 0%nat) c) \/
  (active prog (step float_machine prog (j, 0%nat) c) i /\
   (float_rank (c_th (step float_machine prog (j, 0%nat) c) i) (c_sh (step float_machine prog (j, 0%nat) c))
    + (if Nat.eqb j i then 1 else 0) <= float_rank (c_th c i) (c_sh c))%nat).
Proof.
  intros prog j c i A. unfold step. destruct (t_cur (c_th c j)) as [[op mic]|] eqn:C.
  - assert (D : forall sh r, more_done c {| c_sh := sh; c_th := upd (c_th c) j {| t_cur := None; t_done := t_done (c_th c j) ++ [(op, r)] |} |}).
    { intros sh r. exists j. cbn. unfold upd. rewrite Nat.eqb_refl. cbn. rewrite app_length. cbn. lia. }
    destruct mic as [x| |d|d cur]; cbn [float_machine m_step float_step]; try (left; apply D).
    + right. cbn [c_th c_sh]. unfold active, float_rank. cbn [c_th]. unfold upd. rewrite (Nat.eqb_sym j i).
      destruct (Nat.eqb_spec i j) as [->|N]; cbn [t_cur t_done].
      * split; [left; discriminate|]. rewrite C, N.eqb_refl. lia.
      * split; [exact A|lia].
    + destruct ((c_sh c =? cur)%N) eqn:E; cbn [andb Nat.eqb]; [left; apply D|]. right. cbn [c_th c_sh]. unfold active, float_rank.
      cbn [c_th]. unfold upd. rewrite (Nat.eqb_sym j i). destruct (Nat.eqb_spec i j) as [->|N]; cbn [t_cur t_done].
      * split; [left; discriminate|]. rewrite C, E. lia.
      * split; [exact A|lia].
  - right. destruct (prog j (t_done (c_th c j))) as [op|] eqn:PR.
    + unfold active, float_rank. cbn [c_th c_sh]. unfold upd. rewrite (Nat.eqb_sym j i).
      destruct (Nat.eqb_spec i j) as [->|N]; cbn [t_cur t_done].
      * split; [left; discriminate|]. rewrite C. cbn [float_machine m_begin float_begin].
        destruct op as [[|x| |x|x]|]; cbn; lia.
      * split; [exact A|lia].
    + split; [exact A|]. destruct (Nat.eqb_spec j i) as [->|N]; [|lia].
      destruct A as [A|A]; [rewrite C in A|rewrite PR in A]; contradiction A; reflexivity.
Qed.

Theorem float_lock_free : forall prog s (c : fcfg) i, active prog c i ->
  Forall (fun ic => snd ic = 0%nat) s -> (4 <= turns i s)%nat ->
  more_done c (run float_machine prog s c).
Proof.
  intros prog s c i A F T.
  assert (G : forall s (c : fcfg), active prog c i -> Forall (fun ic => snd ic = 0%nat) s ->
    (float_rank (c_th c i) (c_sh c) <= turns i s)%nat -> more_done c (run float_machine prog s c)).
  { clear. induction s as [|[j ch] s IH]; intros c A F T.
    - cbn in T. unfold float_rank in T. destruct (t_cur (c_th c i)) as [[op [x| |d|d cur]]|]; try lia. destruct ((c_sh c =? cur)%N); lia.
    - inversion F as [|x l E F' EQ]; subst. cbn in E. subst ch. cbn [run].
      destruct (float_rank_step prog j c i A) as [[k K]|[A' R]].
      + exists k. eapply Nat.lt_le_trans; [exact K|]. apply done_grows.
      + destruct (IH _ A' F') as [k K].
        * unfold turns in T |- *. cbn [filter fst] in T. destruct (Nat.eqb j i); cbn in T; lia.
        * exists k. eapply Nat.le_lt_trans; [|exact K]. apply done_grows_step. }
  apply G; auto. eapply Nat.le_trans; [|exact T]. unfold float_rank.
  destruct (t_cur (c_th c i)) as [[op [x| |d|d cur]]|]; try lia. destruct ((c_sh c =? cur)%N); lia.
Qed.

(* ------------------------------------------------------------------ *)
(** ** C26 *)

Lemma hist_legal_observe : forall log st st', legal hist_spec st log st' ->
  (forall i b x r, In (i, HObserve b x, r) log -> (b <= length (h_buckets st))%nat) ->
  observe_seq (observations log) st = Done st'.
Proof.
  intros log st st' H. induction H as [s|s i op r s' log s'' E H IH]; intros B; [reflexivity|].
  destruct op as [b x|]; cbn [observations flat_map app observe_seq hist_spec] in *.
  - destruct (hist_observe b x s) as [h'|] eqn:O.
    + inversion E; subst. cbn [obind]. apply IH. intros j b' x' r' I.
      assert (length (h_buckets s') = length (h_buckets s)).
      { unfold hist_observe in O. destruct (Nat.leb _ _); [|discriminate]. destruct (Nat.ltb _ _); inversion O; cbn; [apply update_nth_length|reflexivity]. }
      rewrite H0. apply (B j b' x' r'). right; exact I.
    + exfalso. rewrite hist_observe_bump in O by (apply (B i b x r); left; reflexivity). discriminate.
  - inversion E; subst. apply IH. intros j b' x' r' I. apply (B j b' x' r'). right; exact I.
Qed.

(** Every sample is the histogram of the observations before it in the log. *)
Theorem snapshots_consistent : forall n prog, exists L : schedule -> list (@entry hist_op hist_res),
  real_time_order L (fun s => run hist_machine prog s (start_config {| ch_lock := rw_free; ch_state := hist_new n |})) /\
  forall s, let c := run hist_machine prog s (start_config {| ch_lock := rw_free; ch_state := hist_new n |}) in
    explains (L s) c /\
    ((forall i b x r, In (i, HObserve b x, r) (L s) -> (b <= n)%nat) ->
     (forall pre i r post, L s = pre ++ (i, HSample, r) :: post ->
        exists h, observe_seq (observations pre) (hist_new n) = Done h /\ r = Some (h_buckets h, h_inf h, h_sum h)) /\
     (quiescent c -> observe_seq (observations (L s)) (hist_new n) = Done (ch_state (c_sh c)))).
Proof.
  intros n prog. destruct (hist_linearizable n prog) as (L & P & H). exists L.
  split; [apply real_time; [exact P|exact (fun s => proj1 (H s))]|].
  intros s c. destruct (H s) as (E & st & LG & R). split; [exact E|]. intros B.
  assert (LEN : length (h_buckets (hist_new n)) = n) by (cbn; apply repeat_length).
  split.
  - intros pre i r post EQ. rewrite EQ in LG. apply legal_app in LG as (st1 & A & A2).
    inversion A2 as [|s0 j op r' s' l s'' ES H' EQ2]; subst. cbn in ES. inversion ES; subst.
    exists s'. split; [|reflexivity]. apply (hist_legal_observe pre); [exact A|].
    intros j b x r I. rewrite LEN. apply (B j b x r). rewrite EQ. apply in_or_app. auto.
  - intros Q. destruct (R Q) as [R1 _]. fold c in R1. rewrite R1. apply (hist_legal_observe (L s)); [exact LG|].
    intros j b x r I. rewrite LEN. eauto.
Qed.

Theorem linearizable_in_real_time : forall Sh Op Res Mic St spec (M : machine Sh Op Res Mic) sh0 (st0 : St) rep,
  linearizable spec M sh0 st0 rep ->
  forall prog, exists L : schedule -> list (@entry Op Res),
    real_time_order L (fun s => run M prog s (start_config sh0)) /\
    forall s, explains (L s) (run M prog s (start_config sh0)) /\
      exists st, legal spec st0 (L s) st /\ (quiescent (run M prog s (start_config sh0)) -> rep (c_sh (run M prog s (start_config sh0))) st).
Proof.
  intros Sh Op Res Mic St spec M sh0 st0 rep H prog. destruct (H prog) as (L & P & E). exists L.
  split; [apply real_time; [exact P|exact (fun s => proj1 (E s))]|exact E].
Qed.

Theorem float_in_real_time : forall x prog, exists L : schedule -> list (@entry float_op N),
  real_time_order L (fun s => run float_machine prog s (start_config x)) /\
  forall s, explains (L s) (run float_machine prog s (start_config x)) /\
    exists st, legal float_spec x (L s) st /\
      (quiescent (run float_machine prog s (start_config x)) -> c_sh (run float_machine prog s (start_config x)) = st).
Proof. intros x. exact (linearizable_in_real_time _ _ _ _ _ _ _ _ _ _ (float_linearizable x)). Qed.

(** A thread that gets no turn does nothing. *)
Lemma untouched : forall Sh Op Res Mic (M : machine Sh Op Res Mic) prog s c n i,
  forallb (fun ic => Nat.ltb (fst ic) n) s = true -> (n <= i)%nat -> c_th (run M prog s c) i = c_th c i.
Proof.
  intros Sh Op Res Mic M prog s. induction s as [|[j ch] s IH]; intros c n i H L; [reflexivity|].
  cbn [forallb fst] in H. apply andb_prop in H as [H1 H2]. apply Nat.ltb_lt in H1. cbn [run].
  rewrite (IH _ n) by assumption. unfold step. destruct (t_cur (c_th c j)) as [[op mic]|].
  - destruct (m_step M j ch mic (c_sh c)) as [[sh' [mic'|r]]|]; cbn [c_th]; try reflexivity; apply upd_other; lia.
  - destruct (prog j (t_done (c_th c j))); cbn [c_th]; try reflexivity; apply upd_other; lia.
Qed.
