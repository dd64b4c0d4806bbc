(** Collections of a shared vec, one after the other. *)
From Coq Require Import List NArith ZArith Bool Arith Lia.
From Verif Require Import Base BaseFacts FloatModel MetricModel LabelModel LabelSpec GroupProofs ConcModel ConcSpec ConcProofs ConcTheorems ConcVecModel ConcVecSpec
  ConcVec ConcVecTheorems ConcLabelModel ConcLabelSpec ConcLabelProofs ConcLabelTheorems ConcCallModel ConcBoth ConcHandles
  ConcScript ConcCallSpec ConcCallProofs ConcCallTheorems.
Import ListNotations.
Local Open Scope nat_scope.

(** ** Any metric *)
Section Any.
  Context {Sh Op Res Mic V St : Type}.
  Variable w : setup.
  Variable m : metric_code Sh Op Res Mic V.
  Variable spec : nat -> Op -> St -> option (St * Res).
  Variable st_new : St.
  Variable aview : St -> V.
  Variable P : call_program Op Res V.
  Hypothesis ok : setup_ok w.
  Hypothesis shaped : calls_shaped (su_fields w) P.
  Hypothesis good : good_metric (mc_machine m) (mc_new m) (mc_view m) spec st_new aview.
  Let sound := proj1 ok.
  Let ndup := proj2 ok.
  Notation done s i := (finished_calls w m P s i).

  Lemma collected_is : forall s i tr l, In (CCollect, tr) (done s i) -> result_of CCollect tr = Collected l ->
    l = combine (groups_of tr) (values_of tr).
  Proof.
    intros s i tr l I RC.
    destruct (collect_facts (su_build w) (su_fields w) (su_loc w) (su_accepts w) (su_shard_of w) (mc_machine m) (mc_new m) (mc_view m)
      spec st_new aview (su_shards w) (mc_read m) P (su_strings w) sound ndup shaped good s i tr I) as (_ & _ & _ & R & _).
    rewrite RC in R. injection R as ->. reflexivity.
  Qed.

  Lemma life_kept : forall k (b a : list (@entry (vec_op unique Op) (vec_res unique Res V))),
    (forall j q, ~ In (j, SRemove k, q) b) -> exists lg, life unique_eqb k (a ++ b) = life unique_eqb k a ++ lg.
  Proof.
    intros k b. induction b as [|[[j o] r] b IH] using rev_ind; intros a NR.
    - exists []. now rewrite !app_nil_r.
    - destruct (IH a) as (lg & E). { intros j' q I. apply (NR j' q), in_or_app. now left. }
      rewrite app_assoc. pose proof (life_snoc unique_eqb k (a ++ b) j o r) as LS. rewrite E in LS.
      destruct o as [h q|h q u|h|q|h s]; try (exists lg; exact LS).
      + destruct r; try (exists lg; exact LS). destruct (unique_eqb q k); [|exists lg; exact LS].
        eexists. etransitivity; [exact LS|]. symmetry. apply app_assoc.
      + destruct (unique_eqb q k) eqn:E2; [|exists lg; exact LS]. apply unique_eqb_spec in E2. subst q. exfalso.
        apply (NR j r), in_or_app. right. now left.
  Qed.

  Section Two.
    Hypothesis in_range : forall k, su_shard_of w k < su_shards w.
    Variable g : group_val.
    Hypothesis kept : forall j hd, P j hd <> Some (CDelete g).
    Variables s0 s1 : schedule.
    Variable i : nat.
    Variable tr : trace (label_op + vec_op unique Op) (label_res + vec_res unique Res V).
    Variable rest : list (vec_call Op * trace (label_op + vec_op unique Op) (label_res + vec_res unique Res V)).
    Hypothesis idle : call_underway w m P s0 i = None.
    Hypothesis later : done (s0 ++ s1) i = done s0 i ++ (CCollect, tr) :: rest.
    Variable i0 : nat.
    Variable tr0 : trace (label_op + vec_op unique Op) (label_res + vec_res unique Res V).
    Hypothesis earlier : In (CCollect, tr0) (done s0 i0).
    Variables (l0 : list (group_val * Res)) (r0 : Res).
    Hypothesis collected0 : result_of CCollect tr0 = Collected l0.
    Hypothesis showed : In (g, r0) l0.

    Lemma later_in : In (CCollect, tr) (done (s0 ++ s1) i).
    Proof. rewrite later. apply in_or_app. right. now left. Qed.

    Theorem all_still : exists l r, result_of CCollect tr = Collected l /\ In (g, r) l.
    Proof.
      destruct (all_collections w m spec st_new aview P ok shaped good (s0 ++ s1) i tr later_in) as (l & RC & _).
      exists l. pose proof showed as SH. rewrite (collected_is _ _ _ _ earlier collected0) in SH.
      destruct (later_shows (su_build w) (su_fields w) (su_loc w) (su_accepts w) (su_shard_of w) (mc_machine m) (mc_new m) (mc_view m)
        spec st_new aview (su_shards w) (mc_read m) P (su_strings w) sound ndup shaped good (fun _ _ => 0%Z) (fun _ => 0%Z) g kept
        s0 s1 i tr rest idle later in_range i0 tr0 r0 earlier SH) as (r & I).
      exists r. split; [exact RC|]. now rewrite (collected_is _ _ _ _ later_in RC).
    Qed.

    Variable l : list (group_val * Res).
    Variable r : Res.
    Hypothesis collected : result_of CCollect tr = Collected l.
    Hypothesis shows : In (g, r) l.

    Lemma busy_below : exists n, forall j, n <= j -> done (s0 ++ s1) j = [] /\ call_underway w m P (s0 ++ s1) j = None.
    Proof.
      exists (S (list_max (map fst (s0 ++ s1)))). intros j L. unfold finished_calls, call_underway, underway, made, at_time.
      rewrite (untouched _ _ _ _ _ _ _ _ (S (list_max (map fst (s0 ++ s1)))) j); [split; reflexivity| |exact L].
      apply forallb_forall. intros ic I. apply Nat.ltb_lt.
      assert (M : fst ic <= list_max (map fst (s0 ++ s1))); [|lia].
      pose proof (proj1 (list_max_le (map fst (s0 ++ s1)) _) (Nat.le_refl _)) as F. rewrite Forall_forall in F. apply F. now apply in_map.
    Qed.

    (** What the later collection reports comes from what the earlier one reported
        by further calls. *)
    Theorem all_lineage : exists before x x' between y y',
      legal spec st_new before x /\ spec i0 (mc_read m) x = Some (x', r0) /\
      legal spec x' between y /\ spec i (mc_read m) y = Some (y', r).
    Proof.
      destruct busy_below as (n & BE). pose proof showed as SH. rewrite (collected_is _ _ _ _ earlier collected0) in SH.
      pose proof shows as SW. rewrite (collected_is _ _ _ _ later_in collected) in SW.
      destruct (later_read (su_build w) (su_fields w) (su_loc w) (su_accepts w) (su_shard_of w) (mc_machine m) (mc_new m) (mc_view m)
        spec st_new aview (su_shards w) (mc_read m) P (su_strings w) sound ndup shaped good (fun _ _ => 0%Z) (fun _ => 0%Z) (fun _ => 0%Z)
        (fun _ => eq_refl) (fun _ _ => conj (Z.le_refl 0) (Z.le_refl 0)) (fun _ => Z.le_refl 0) g kept
        s0 s1 i tr rest n idle later BE i0 tr0 r0 earlier SH r SW) as (k & h0 & h & pre & mid & post & a & LG & NR & _).
      destruct (legal_use unique_eqb unique_eqb_spec (su_shard_of w) _ _ _ _ _ _ _ _ _ _ _ LG) as (y & y' & LF & SP).
      destruct (life_kept k mid (pre ++ [(i0, SUse h0 k (mc_read m), RVal r0)])) as (lg & E).
      { intros j q I. apply (NR j q). apply in_or_app. left. apply in_or_app. right. now right. }
      rewrite <- app_assoc in E. cbn [app] in E. pose proof LF as LF'. rewrite E, (life_snoc unique_eqb), (keqb_refl unique_eqb unique_eqb_spec) in LF'.
      apply legal_app in LF' as (x' & L1 & L2). apply legal_app in L1 as (x & L0 & L1).
      inversion L1 as [|t0 i1 op r1 a2 lg' s'' E2 H' EQ2]; subst. inversion H'; subst.
      exists (life unique_eqb k pre), x, x', lg, y, y'. auto.
    Qed.

    Variable md : Z.
    Hypothesis md_pos : (0 < md)%Z.
    Variable amt : St -> Z.
    Variable add : Op -> Res -> Z.
    Variable amount : V -> Z.
    Variable most : Op -> Z.
    Variable seen : Res -> Z.
    Hypothesis amt_new : amt st_new = 0%Z.
    Hypothesis amt_view : forall x, amount (aview x) = amt x.
    Hypothesis amt_step : forall i u x x' r, spec i u x = Some (x', r) -> (amt x' mod md = (amt x + add u r) mod md)%Z.
    Hypothesis add_read : forall r, add (mc_read m) r = 0%Z.
    Hypothesis add_most : forall u r, (0 <= add u r <= most u)%Z.
    Hypothesis read_seen : forall i x x' r, spec i (mc_read m) x = Some (x', r) -> seen r = amt x.
    Variable n : nat.
    Hypothesis below : forall j, n <= j -> done (s0 ++ s1) j = [] /\ call_underway w m P (s0 ++ s1) j = None.
    Hypothesis no_wrap : (sum_begun w m P add amount most g n (s0 ++ s1) < md)%Z.

    Theorem all_later : (seen r0 mod md <= seen r mod md)%Z.
    Proof.
      assert (most_pos : forall u, (0 <= most u)%Z).
      { intros u. destruct (Z.le_gt_cases 0 (most u)) as [X|X]; [exact X|]. exfalso. pose proof (add_most u r). lia. }
      pose proof showed as SH. rewrite (collected_is _ _ _ _ earlier collected0) in SH.
      pose proof shows as SW. rewrite (collected_is _ _ _ _ later_in collected) in SW.
      destruct (later_read (su_build w) (su_fields w) (su_loc w) (su_accepts w) (su_shard_of w) (mc_machine m) (mc_new m) (mc_view m)
        spec st_new aview (su_shards w) (mc_read m) P (su_strings w) sound ndup shaped good add amount most add_read add_most most_pos g kept
        s0 s1 i tr rest n idle later below i0 tr0 r0 earlier SH r SW) as (k & h0 & h & pre & mid & post & a & LG & NR & B1 & B2).
      assert (V0 : forall pre i1 h1 r1 post a, legal (vec_spec unique_eqb (su_shard_of w) spec st_new aview) av_new
          (pre ++ (i1, SUse h1 k (mc_read m), RVal r1) :: post) a ->
        (seen r1 mod md = sum_over (fun e => vec_flow unique_eqb add amount k (snd (fst e), snd e)) pre mod md)%Z).
      { clear - md_pos amt_new amt_view amt_step read_seen. intros pre i1 h1 r1 post a LG. apply legal_app in LG as (a1 & L1 & L2).
        pose proof (log_amount w spec st_new aview md md_pos amt add amount amt_new amt_view amt_step k _ _ L1) as A.
        inversion L2 as [|t0 i2 op r2 a2 log s'' E2 H' EQ2]; subst.
        pose proof (spec_key unique_eqb unique_eqb_spec (su_shard_of w) _ _ _ _ _ _ _ _ k (legal_ok unique_eqb unique_eqb_spec (su_shard_of w) _ _ _ _ _ _ (av_ok_new (su_shard_of w)) L1) E2) as SK.
        cbn in SK. rewrite (keqb_refl unique_eqb unique_eqb_spec) in SK. destruct SK as (x & x' & A1 & A2 & A3). rewrite A1 in A.
        rewrite (read_seen _ _ _ _ A2). exact A. }
      rewrite (V0 _ _ _ _ _ _ LG). rewrite <- app_assoc in LG. cbn [app] in LG. rewrite (V0 _ _ _ _ _ _ LG).
      change (begun_adds (su_build w) (su_fields w) (su_loc w) (su_accepts w) (su_shard_of w) (mc_machine m) (mc_new m) (mc_view m)
        (su_shards w) (mc_read m) P (su_strings w) add amount most g n (s0 ++ s1)) with (sum_begun w m P add amount most g n (s0 ++ s1)) in B2.
      rewrite !Z.mod_small; lia.
    Qed.
  End Two.

  (** Adding less. *)
  Lemma begun_less : forall add1 amount1 add2 amount2 most g n s, (forall u r, (add1 u r <= add2 u r)%Z) ->
    (forall j hd, P j hd <> Some (CDelete g)) ->
    (sum_begun w m P add1 amount1 most g n s <= sum_begun w m P add2 amount2 most g n s)%Z.
  Proof.
    intros add1 amount1 add2 amount2 most g n s LE KP. unfold sum_begun.
    assert (G : forall A (f h : A -> Z) l, (forall x, In x l -> (f x <= h x)%Z) -> (sum_over f l <= sum_over h l)%Z).
    { intros A f h l H. induction l as [|x l IH]; [apply Z.le_refl|]. change (f x + sum_over f l <= h x + sum_over h l)%Z. apply Z.add_le_mono.
      - apply H. now left.
      - apply IH. intros y I. apply H. now right. }
    apply G. intros j _. apply Z.add_le_mono_r. apply G. intros [call tr] I.
    destruct (made_outcome (su_build w) (su_fields w) (su_loc w) (su_accepts w) (su_shard_of w) (mc_machine m) (mc_new m) (mc_view m)
      spec st_new aview (su_shards w) (mc_read m) P (su_strings w) sound ndup shaped good s j call tr I) as (_ & (hd & C) & _).
    unfold call_adds. cbn [fst snd]. destruct call as [g' u|g'| |]; [| |apply Z.le_refl|apply Z.le_refl].
    - destruct (result_of _ _) as [r| | | | |]; try lia. destruct (group_eq_dec g' g); [|lia]. apply LE.
    - destruct (result_of _ _) as [|[v|]| | | |]; try lia. destruct (group_eq_dec g' g) as [->|]; [|lia]. now destruct (KP j hd).
  Qed.
End Any.

(** ** Counters *)
Theorem counter_later : forall w (P : call_program counter_op N N), setup_ok w -> calls_shaped (su_fields w) P ->
  (forall k, su_shard_of w k < su_shards w) -> forall g, (forall j hd, P j hd <> Some (CDelete g)) ->
  forall s0 s1 i tr rest n, call_underway w counter_code P s0 i = None ->
  finished_calls w counter_code P (s0 ++ s1) i = finished_calls w counter_code P s0 i ++ (CCollect, tr) :: rest ->
  (forall j, n <= j -> finished_calls w counter_code P (s0 ++ s1) j = [] /\ call_underway w counter_code P (s0 ++ s1) j = None) ->
  (sum_begun w counter_code P (fun u _ => counter_delta u) Z.of_N counter_delta g n (s0 ++ s1) < 2 ^ 64)%Z ->
  forall i0 tr0 l0 r0, In (CCollect, tr0) (finished_calls w counter_code P s0 i0) -> result_of CCollect tr0 = Collected l0 -> In (g, r0) l0 ->
  exists l, result_of CCollect tr = Collected l /\ (exists r, In (g, r) l) /\ forall r, In (g, r) l -> (r0 <= r)%N.
Proof.
  intros w P ok shaped RG g KP s0 s1 i tr rest n ID LA BE LT i0 tr0 l0 r0 EA C0 S0.
  destruct (all_still w counter_code (pure_spec counter_eff) 0%N (fun v => v) P ok shaped (counter_good 0) RG g KP s0 s1 i tr rest ID LA
    i0 tr0 EA l0 r0 C0 S0) as (l & r & RC & I).
  exists l. split; [exact RC|]. split; [eauto|]. clear r I. intros r I.
  assert (RS : forall i x x' r, pure_spec counter_eff i (mc_read counter_code) x = Some (x', r) -> Z.of_N r = Z.of_N x).
  { intros j x x' r' E. cbn in E. unfold pure_spec in E. cbn in E. injection E as -> ->. reflexivity. }
  pose proof (all_later w counter_code (pure_spec counter_eff) 0%N (fun v => v) P ok shaped (counter_good 0) RG g KP s0 s1 i tr rest ID LA
    i0 tr0 EA l0 r0 C0 S0 l r RC I (2 ^ 64)%Z ltac:(lia) Z.of_N (fun u _ => counter_delta u) Z.of_N counter_delta Z.of_N
    eq_refl (fun _ => eq_refl) counter_step_mod (fun _ => eq_refl) delta_most RS n BE LT) as LE.
  destruct (all_lineage w counter_code (pure_spec counter_eff) 0%N (fun v => v) P ok shaped (counter_good 0) g KP s0 s1 i tr rest ID LA
    i0 tr0 EA l0 r0 C0 S0 l r RC I) as (bf & x & x' & bt & y & y' & L1 & E1 & L2 & E2).
  pose proof (counter_small _ _ L1) as M1. rewrite <- (RS _ _ _ _ E1) in M1. pose proof (RS _ _ _ _ E2) as Y.
  assert (X' : x' = x) by (cbn in E1; unfold pure_spec in E1; cbn in E1; injection E1 as -> _; reflexivity). subst x'.
  assert (L3 : legal (pure_spec counter_eff) 0%N (bf ++ bt) y).
  { clear - L1 L2. revert L1. generalize 0%N. induction bf as [|e bf IH]; intros z L1; inversion L1; subst; [exact L2|]. cbn. econstructor; eauto. }
  pose proof (counter_small _ _ L3) as M2. rewrite <- Y in M2. lia.
Qed.

(** ** Histograms *)

(** One bucket; the last is the one without bound. *)
Definition bucket_count (b : nat) (v : list N * N * N) : Z :=
  if Nat.ltb b (length (fst (fst v))) then Z.of_N (nth b (fst (fst v)) 0%N)
  else if Nat.eqb b (length (fst (fst v))) then Z.of_N (snd (fst v)) else 0%Z.
Definition bucket_added (b : nat) (op : hist_op) (r : hist_res) : Z :=
  match op, r with HObserve b' _, Some _ => if Nat.eqb b' b then 1 else 0 | _, _ => 0 end%Z.

Lemma nth_update : forall (f : N -> N) l b c, b < length l ->
  nth c (update_nth b f l) 0%N = if Nat.eqb b c then f (nth c l 0%N) else nth c l 0%N.
Proof.
  intros f l. induction l as [|x l IH]; intros b c L; cbn in L; [lia|].
  destruct b as [|b], c as [|c]; cbn; try reflexivity. apply IH. lia.
Qed.
Lemma length_update : forall (f : N -> N) l b, length (update_nth b f l) = length l.
Proof. intros f l. induction l as [|x l IH]; intros [|b]; cbn; auto. Qed.

Lemma bucket_step_mod : forall b i u x x' r, hist_spec i u x = Some (x', r) ->
  (bucket_count b (hist_view x') mod 2 ^ 64 = (bucket_count b (hist_view x) + bucket_added b u r) mod 2 ^ 64)%Z.
Proof.
  intros b i u x x' r E. destruct u as [b' v|]; cbn [hist_spec] in E.
  - unfold hist_observe in E. destruct (Nat.leb b' (length (h_buckets x))) eqn:LB.
    + apply Nat.leb_le in LB.
      assert (W : forall c, (Z.of_N (wrap64 (c + 1)) mod 2 ^ 64 = (Z.of_N c + 1) mod 2 ^ 64)%Z).
      { intros c. unfold wrap64. rewrite N2Z.inj_mod, N2Z.inj_add. change (Z.of_N W64) with (2 ^ 64)%Z. now rewrite Z.mod_mod by discriminate. }
      destruct (Nat.ltb_spec b' (length (h_buckets x))) as [LT|GE]; inversion E; subst; unfold bucket_count, hist_view;
        cbn [fst snd h_buckets h_inf bucket_added]; rewrite ?length_update.
      * destruct (Nat.ltb_spec b (length (h_buckets x))) as [L|L].
        -- rewrite nth_update by exact LT. destruct (Nat.eqb b' b); [apply W|now rewrite Z.add_0_r].
        -- destruct (Nat.eqb_spec b' b); [lia|]. now rewrite Z.add_0_r.
      * destruct (Nat.ltb_spec b (length (h_buckets x))) as [L|L].
        -- destruct (Nat.eqb_spec b' b); [lia|]. now rewrite Z.add_0_r.
        -- destruct (Nat.eqb_spec b (length (h_buckets x))) as [L2|L2].
           ++ destruct (Nat.eqb_spec b' b); [apply W|lia].
           ++ destruct (Nat.eqb_spec b' b); [lia|]. now rewrite Z.add_0_r.
    + inversion E; subst. cbn [bucket_added]. now rewrite Z.add_0_r.
  - inversion E; subst. cbn [bucket_added]. now rewrite Z.add_0_r.
Qed.

Lemma bucket_new : forall n b, bucket_count b (hist_view (hist_new n)) = 0%Z.
Proof.
  intros n b. unfold bucket_count, hist_view, hist_new. cbn [fst snd h_buckets h_inf].
  destruct (Nat.ltb b (length (repeat 0%N n))); [now rewrite nth_repeat|]. now destruct (Nat.eqb b (length (repeat 0%N n))).
Qed.

Lemma bucket_most : forall b u (r : hist_res), (0 <= bucket_added b u r <= hist_most u)%Z.
Proof. intros b [b' v|] [r|]; cbn; try destruct (Nat.eqb b' b); lia. Qed.

Lemma bucket_less : forall b u (r : hist_res), (bucket_added b u r <= hist_added u r)%Z.
Proof. intros b [b' v|] [r|]; cbn; try destruct (Nat.eqb b' b); lia. Qed.

(** Lengths never change and counts stay below 2^64. *)
Definition hist_fits (n : nat) (h : MetricModel.hist) : Prop :=
  length (h_buckets h) = n /\ Forall (fun c => c < 2 ^ 64)%N (h_buckets h) /\ (h_inf h < 2 ^ 64)%N.
Lemma hist_legal_fits : forall n log st st', legal hist_spec st log st' -> hist_fits n st -> hist_fits n st'.
Proof.
  intros n log st st' L. induction L as [|s i op r s' log s'' E L IH]; intros F; [exact F|]. apply IH. clear IH L.
  destruct op as [b v|]; cbn [hist_spec] in E; [|now inversion E; subst].
  unfold hist_observe in E. destruct (Nat.leb b (length (h_buckets s))); [|now inversion E; subst].
  destruct F as (F1 & F2 & F3).
  assert (W : forall c, (wrap64 (c + 1) < 2 ^ 64)%N) by (intros c; apply N.mod_lt; discriminate).
  destruct (Nat.ltb b (length (h_buckets s))); inversion E; subst; split; cbn [h_buckets h_inf]; rewrite ?length_update; try reflexivity; split; auto.
  clear - F2 W. revert b. induction F2 as [|x l X F2 IH]; intros [|b]; cbn; constructor; auto.
Qed.

Lemma buckets_grow : forall b bf x bt y, legal hist_spec (hist_new b) bf x -> legal hist_spec x bt y ->
  (forall c, (bucket_count c (hist_view x) mod 2 ^ 64 <= bucket_count c (hist_view y) mod 2 ^ 64)%Z) ->
  Forall2 N.le (h_buckets x) (h_buckets y) /\ (h_inf x <= h_inf y)%N.
Proof.
  intros b bf x bt y L1 L2 BC.
  assert (F0 : hist_fits b (hist_new b)).
  { split; [apply repeat_length|]. split; [|reflexivity]. apply Forall_forall. intros c C. apply repeat_spec in C. now subst c. }
  pose proof (hist_legal_fits b _ _ _ L1 F0) as (X1 & X2 & X3). pose proof (hist_legal_fits b _ _ _ L2 (conj X1 (conj X2 X3))) as (Y1 & Y2 & Y3).
  assert (SM : forall v, (v < 2 ^ 64)%N -> (Z.of_N v mod 2 ^ 64 = Z.of_N v)%Z) by (intros v V; apply Z.mod_small; lia).
  split.
  - assert (A : forall c, c < b -> (nth c (h_buckets x) 0 <= nth c (h_buckets y) 0)%N).
    { intros c L. specialize (BC c). unfold bucket_count, hist_view in BC. cbn [fst snd] in BC. rewrite X1, Y1 in BC.
      destruct (Nat.ltb_spec c b); [|lia]. rewrite !SM in BC; [lia| |];
        [rewrite Forall_forall in Y2; apply Y2|rewrite Forall_forall in X2; apply X2]; apply nth_In; lia. }
    clear - X1 Y1 A. revert A Y1 X1. generalize (h_buckets y), b. intros ys k. revert ys k. induction (h_buckets x) as [|u us IH]; intros [|v vs] k A Y1 X1; cbn in *; try lia; constructor.
    + apply (A 0). lia.
    + apply (IH vs (length us)); [|lia|reflexivity]. intros c L. apply (A (S c)). lia.
  - specialize (BC b). unfold bucket_count, hist_view in BC. cbn [fst snd] in BC. rewrite X1, Y1 in BC.
    destruct (Nat.ltb_spec b b); [lia|]. rewrite Nat.eqb_refl in BC. rewrite !SM in BC by assumption. lia.
Qed.

Theorem hist_later : forall b w (P : hist_calls), setup_ok w -> calls_shaped (su_fields w) P ->
  (forall k, su_shard_of w k < su_shards w) -> forall g, (forall j hd, P j hd <> Some (CDelete g)) ->
  forall s0 s1 i tr rest n, call_underway w (hist_code b) P s0 i = None ->
  finished_calls w (hist_code b) P (s0 ++ s1) i = finished_calls w (hist_code b) P s0 i ++ (CCollect, tr) :: rest ->
  (forall j, n <= j -> finished_calls w (hist_code b) P (s0 ++ s1) j = [] /\ call_underway w (hist_code b) P (s0 ++ s1) j = None) ->
  (sum_begun w (hist_code b) P hist_added hist_count hist_most g n (s0 ++ s1) < 2 ^ 64)%Z ->
  forall i0 tr0 l0 r0, In (CCollect, tr0) (finished_calls w (hist_code b) P s0 i0) -> result_of CCollect tr0 = Collected l0 -> In (g, r0) l0 ->
  exists l, result_of CCollect tr = Collected l /\ (exists r, In (g, r) l) /\
    forall r, In (g, r) l -> exists bs0 inf0 sum0 bs inf sum, r0 = Some (bs0, inf0, sum0) /\ r = Some (bs, inf, sum) /\
      Forall2 N.le bs0 bs /\ (inf0 <= inf)%N.
Proof.
  intros b w P ok shaped RG g KP s0 s1 i tr rest n ID LA BE LT i0 tr0 l0 r0 EA C0 S0.
  destruct (all_still w (hist_code b) hist_spec (hist_new b) hist_view P ok shaped (hist_good b) RG g KP s0 s1 i tr rest ID LA
    i0 tr0 EA l0 r0 C0 S0) as (l & r & RC & I).
  exists l. split; [exact RC|]. split; [eauto|]. clear r I. intros r I.
  destruct (all_lineage w (hist_code b) hist_spec (hist_new b) hist_view P ok shaped (hist_good b) g KP s0 s1 i tr rest ID LA
    i0 tr0 EA l0 r0 C0 S0 l r RC I) as (bf & x & x' & bt & y & y' & L1 & E1 & L2 & E2).
  cbn in E1, E2. injection E1 as <- R0. injection E2 as _ R1.
  assert (BC : forall c, (bucket_count c (hist_view x) mod 2 ^ 64 <= bucket_count c (hist_view y) mod 2 ^ 64)%Z).
  { intros c. set (seen := fun r : hist_res => match r with Some v => bucket_count c v | None => 0%Z end).
    assert (RS : forall i x x' r, hist_spec i (mc_read (hist_code b)) x = Some (x', r) -> seen r = bucket_count c (hist_view x)).
    { intros j z z' r' E. cbn in E. injection E as <- <-. reflexivity. }
    pose proof (all_later w (hist_code b) hist_spec (hist_new b) hist_view P ok shaped (hist_good b) RG g KP s0 s1 i tr rest ID LA
      i0 tr0 EA l0 r0 C0 S0 l r RC I (2 ^ 64)%Z ltac:(lia) (fun h => bucket_count c (hist_view h)) (bucket_added c) (bucket_count c) hist_most seen
      (bucket_new b c) (fun _ => eq_refl) (bucket_step_mod c) (fun _ => eq_refl) (bucket_most c) RS n BE
      ltac:(eapply Z.le_lt_trans; [|exact LT]; apply (begun_less w (hist_code b) hist_spec (hist_new b) hist_view P ok shaped (hist_good b)); [apply bucket_less|exact KP])) as LE.
    rewrite <- R0, <- R1 in LE. exact LE. }
  exists (h_buckets x), (h_inf x), (h_sum x), (h_buckets y), (h_inf y), (h_sum y).
  split; [now rewrite <- R0|]. split; [now rewrite <- R1|]. exact (buckets_grow b bf x bt y L1 L2 BC).
Qed.
