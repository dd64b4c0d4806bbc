(** Calls made by threads: counters and histograms. *)
From Coq Require Import List NArith ZArith Bool Arith Lia.
From Verif Require Import Base BaseFacts FloatModel MetricModel LabelModel LabelSpec GroupProofs ConcModel ConcSpec ConcProofs ConcTheorems ConcVecModel ConcVecSpec
  ConcVec ConcVecTheorems ConcLabelModel ConcLabelSpec ConcLabelProofs ConcLabelTheorems ConcCallModel ConcBoth ConcHandles
  ConcScript ConcCallSpec ConcCallProofs.
Import ListNotations.
Local Open Scope nat_scope.

Section Any.
  Context {Sh Op Res Mic V St : Type}.
  Variable w : setup.
  Variable m : metric_code Sh Op Res Mic V.
  Variable spec : nat -> Op -> St -> option (St * Res).
  Variable st_new : St.
  Variable aview : St -> V.
  Variable P : nat -> list (vec_call Op * trace (label_op + vec_op unique Op) (label_res + vec_res unique Res V)) ->
      option (vec_call Op).
  Hypothesis ok : setup_ok w.
  Hypothesis shaped : calls_shaped (su_fields w) P.
  Hypothesis good : good_metric (mc_machine m) (mc_new m) (mc_view m) spec st_new aview.
  Let sound := proj1 ok.
  Let ndup := proj2 ok.
  Notation done s i := (finished_calls w m P s i).

  Theorem all_results : forall s i call tr, In (call, tr) (done s i) ->
    match result_of call tr with
    | Returned _ => exists g u, call = CUpdate g u
    | Removed _ => exists g, call = CDelete g
    | Collected _ => call = CCollect
    | Counted _ => call = CCount
    | Refused => exists g s1 s2 f v, call_group call = Some g /\ s = s1 ++ s2 /\ In f (label_set_at w m P s1) /\
        field_value g (f_name f) v /\ refuses f v
    | Failed => False
    end.
  Proof.
    exact (call_results (su_build w) (su_fields w) (su_loc w) (su_accepts w) (su_shard_of w) (mc_machine m) (mc_new m) (mc_view m)
      spec st_new aview (su_shards w) (mc_read m) P (su_strings w) sound ndup shaped good).
  Qed.

  Theorem all_rows : forall s, nobody_busy w m P s -> forall k x, metric_at w m P s k = Some x ->
    exists g u j tr, In (CUpdate g u, tr) (done s j) /\ group_decode (su_build w) (label_set_at w m P s) k = Done g /\
      group_encode (su_build w) (label_set_at w m P s) g = Done (label_set_at w m P s, Some k).
  Proof.
    exact (row_groups (su_build w) (su_fields w) (su_loc w) (su_accepts w) (su_shard_of w) (mc_machine m) (mc_new m) (mc_view m)
      spec st_new aview (su_shards w) (mc_read m) P (su_strings w) sound ndup shaped good).
  Qed.

  Theorem all_collections : forall s i tr, In (CCollect, tr) (done s i) -> exists l, result_of CCollect tr = Collected l /\
    NoDup (map fst l) /\ forall g r, In (g, r) l -> exists j u, call_begun w m P s j (CUpdate g u).
  Proof.
    exact (collections (su_build w) (su_fields w) (su_loc w) (su_accepts w) (su_shard_of w) (mc_machine m) (mc_new m) (mc_view m)
      spec st_new aview (su_shards w) (mc_read m) P (su_strings w) sound ndup shaped good).
  Qed.

  Theorem all_shown : (forall k, su_shard_of w k < su_shards w) -> forall g, (forall j hd, P j hd <> Some (CDelete g)) ->
    forall s0 s1 i tr rest, call_underway w m P s0 i = None -> done (s0 ++ s1) i = done s0 i ++ (CCollect, tr) :: rest ->
    forall j u t r, In (CUpdate g u, t) (done s0 j) -> result_of (CUpdate g u) t = Returned r ->
    exists l r', result_of CCollect tr = Collected l /\ In (g, r') l.
  Proof.
    intros RG g KP s0 s1 i tr rest ID LA j u t r I R.
    destruct (bracket_shows (su_build w) (su_fields w) (su_loc w) (su_accepts w) (su_shard_of w) (mc_machine m) (mc_new m) (mc_view m)
      spec st_new aview (su_shards w) (mc_read m) P (su_strings w) sound ndup shaped good (fun _ _ => 0%Z) (fun _ => 0%Z) g KP s0 s1 i tr rest 0 ID LA RG j u t r I R) as (r' & X).
    exists (combine (groups_of tr) (values_of tr)), r'. split; [|exact X].
    refine (proj1 (proj2 (proj2 (proj2 (collect_facts (su_build w) (su_fields w) (su_loc w) (su_accepts w) (su_shard_of w) (mc_machine m) (mc_new m) (mc_view m)
      spec st_new aview (su_shards w) (mc_read m) P (su_strings w) sound ndup shaped good (s0 ++ s1) i tr _))))).
    change (In (CCollect, tr) (done (s0 ++ s1) i)). rewrite LA. apply in_or_app. right. now left.
  Qed.

  (** *** Counts *)
  Theorem all_counts : (forall k, su_shard_of w k < su_shards w) ->
    forall s0 s1 i tr rest, call_underway w m P s0 i = None -> done (s0 ++ s1) i = done s0 i ++ (CCount, tr) :: rest ->
    exists gs, result_of CCount tr = Counted (length gs) /\ NoDup gs /\
      (forall g, In g gs -> exists j u, call_begun w m P (s0 ++ s1) j (CUpdate g u)) /\
      forall g, (forall j hd, P j hd <> Some (CDelete g)) ->
        forall j u t r, In (CUpdate g u, t) (done s0 j) -> result_of (CUpdate g u) t = Returned r -> In g gs.
  Proof.
    intros RG s0 s1 i tr rest ID LA.
    exact (count_groups (su_build w) (su_fields w) (su_loc w) (su_accepts w) (su_shard_of w) (mc_machine m) (mc_new m) (mc_view m)
      spec st_new aview (su_shards w) (mc_read m) P (su_strings w) sound ndup shaped good s0 s1 i tr rest ID LA RG).
  Qed.

  Theorem exact_count : (forall k, su_shard_of w k < su_shards w) ->
    forall s0 s1 i tr rest, call_underway w m P s0 i = None -> done (s0 ++ s1) i = done s0 i ++ (CCount, tr) :: rest ->
    forall gs, NoDup gs -> (forall g, In g gs -> forall j hd, P j hd <> Some (CDelete g)) ->
    (forall g, In g gs -> exists j u t r, In (CUpdate g u, t) (done s0 j) /\ result_of (CUpdate g u) t = Returned r) ->
    (forall g j u, call_begun w m P (s0 ++ s1) j (CUpdate g u) -> In g gs) ->
    result_of CCount tr = Counted (length gs).
  Proof.
    intros RG s0 s1 i tr rest ID LA gs ND KP UP BG. destruct (all_counts RG s0 s1 i tr rest ID LA) as (gs' & -> & ND' & B & A). f_equal.
    apply Nat.le_antisymm; apply NoDup_incl_length; try assumption; intros g I.
    - destruct (B g I) as (j & u & X). exact (BG g j u X).
    - destruct (UP g I) as (j & u & t & r & X & Y). exact (A g (KP g I) j u t r X Y).
  Qed.

  Theorem later_counts : (forall k, su_shard_of w k < su_shards w) ->
    forall s0 s1 i tr rest, call_underway w m P s0 i = None -> done (s0 ++ s1) i = done s0 i ++ (CCount, tr) :: rest ->
    forall i0 tr0 n0 n, In (CCount, tr0) (done s0 i0) -> (forall g j hd, P j hd <> Some (CDelete g)) ->
    result_of CCount tr0 = Counted n0 -> result_of CCount tr = Counted n -> n0 <= n.
  Proof.
    intros RG s0 s1 i tr rest ID LA i0 tr0 n0 n I0 KP R0 R.
    exact (count_later (su_build w) (su_fields w) (su_loc w) (su_accepts w) (su_shard_of w) (mc_machine m) (mc_new m) (mc_view m)
      spec st_new aview (su_shards w) (mc_read m) P (su_strings w) sound ndup shaped good s0 s1 i tr rest ID LA RG i0 tr0 n0 n I0 KP R0 R).
  Qed.

  (** *** Amounts *)
  Variable md : Z.
  Hypothesis md_pos : (0 < md)%Z.
  Variable amt : St -> Z.
  Variable add : Op -> Res -> Z.
  Variable amount : V -> Z.
  Hypothesis amt_new : amt st_new = 0%Z.
  Hypothesis amt_view : forall x, amount (aview x) = amt x.
  Hypothesis amt_step : forall i u x x' r, spec i u x = Some (x', r) -> (amt x' mod md = (amt x + add u r) mod md)%Z.
  Hypothesis add_read : forall r, add (mc_read m) r = 0%Z.

  Lemma log_amount : forall k log a, legal (vec_spec unique_eqb (su_shard_of w) spec st_new aview) av_new log a ->
    (match aget unique_eqb k (a_tab a (su_shard_of w k)) with Some x => amt x | None => 0 end mod md =
     sum_over (fun e => vec_flow unique_eqb add amount k (snd (fst e), snd e)) log mod md)%Z.
  Proof.
    intros k log a LG.
    pose proof (legal_amount unique_eqb unique_eqb_spec (su_shard_of w) spec st_new aview md ltac:(lia) amt add amount amt_new amt_view amt_step k log a LG) as A.
    exact A.
  Qed.

  Theorem all_totals : forall s n g k, nobody_busy w m P s -> (forall i, n <= i -> done s i = []) -> has_id w m P s g k ->
    (match metric_at w m P s k with Some x => amount (mc_view m x) | None => 0 end mod md = sum_finished w m P add amount g n s mod md)%Z.
  Proof.
    intros s n g k NB BE [WS EK].
    pose proof (calls_total (su_build w) (su_fields w) (su_loc w) (su_accepts w) (su_shard_of w) (mc_machine m) (mc_new m) (mc_view m)
      spec st_new aview (su_shards w) (mc_read m) P (su_strings w) sound ndup shaped good add amount s n g k add_read NB WS EK) as T.
    destruct (explained (su_build w) (su_fields w) (su_loc w) (su_accepts w) (su_shard_of w) (mc_machine m) (mc_new m) (mc_view m)
      spec st_new aview (su_shards w) (mc_read m) P (su_strings w) ndup shaped good s) as (l2 & s2 & L & a & _ & E & LG & SV).
    specialize (SV NB k).
    change (sum_finished w m P add amount g n s) with
      (all_adds (su_build w) (su_fields w) (su_loc w) (su_accepts w) (su_shard_of w) (mc_machine m) (mc_new m) (mc_view m)
        (su_shards w) (mc_read m) P (su_strings w) add amount g n s).
    rewrite <- T.
    assert (D : forall i, of_thread i (L s2) = t_done (rights (at_time (su_build w) (su_fields w) (su_loc w) (su_accepts w) (su_shard_of w)
      (mc_machine m) (mc_new m) (mc_view m) (su_shards w) (mc_read m) P (su_strings w) s) i)).
    { intros i. destruct (E i) as [E'|(op & mic & r & C & _)]; [exact E'|]. exfalso.
      destruct (idle_cur (su_build w) (su_fields w) (su_loc w) (su_accepts w) (su_shard_of w) (mc_machine m) (mc_new m) (mc_view m)
        (su_shards w) (mc_read m) P (su_strings w) s i (NB i)) as [CU _].
      unfold rights, right_thread, sel_thread in C. cbn [t_cur] in C. rewrite CU in C. discriminate. }
    transitivity ((match aget unique_eqb k (a_tab a (su_shard_of w k)) with Some x => amt x | None => 0 end) mod md)%Z.
    { f_equal. change (option_map (mc_view m) (metric_at w m P s k) = option_map aview (aget unique_eqb k (a_tab a (su_shard_of w k)))) in SV.
      destruct (metric_at w m P s k), (aget unique_eqb k (a_tab a (su_shard_of w k))); cbn in SV; try discriminate; [|reflexivity].
      rewrite <- amt_view. f_equal. congruence. }
    rewrite (log_amount k (L s2) a LG). f_equal.
    rewrite (flow_by_thread _ _ (vec_flow unique_eqb add amount k) n).
    - apply sum_over_ext. intros i _. now rewrite D.
    - intros [[i o] r] I. cbn. destruct (Nat.lt_ge_cases i n) as [X|X]; [exact X|]. exfalso.
      apply in_of_thread in I || (assert (I' : In (o, r) (of_thread i (L s2))) by now apply in_of_thread).
      specialize (D i). unfold rights, right_thread, sel_thread in D. cbn [t_done] in D.
      rewrite (idle_done (su_build w) (su_fields w) (su_loc w) (su_accepts w) (su_shard_of w) (mc_machine m) (mc_new m) (mc_view m)
        spec st_new aview (su_shards w) (mc_read m) P (su_strings w) sound ndup shaped good s i (NB i)) in D.
      specialize (BE i X). unfold finished_calls in BE. rewrite BE in D. cbn in D. rewrite D in *. contradiction.
  Qed.

  Lemma held_legal : forall s k x, nobody_busy w m P s -> metric_at w m P s k = Some x ->
    exists log y, legal spec st_new log y /\ mc_view m x = aview y.
  Proof.
    intros s k x NB E.
    destruct (explained (su_build w) (su_fields w) (su_loc w) (su_accepts w) (su_shard_of w) (mc_machine m) (mc_new m) (mc_view m)
      spec st_new aview (su_shards w) (mc_read m) P (su_strings w) ndup shaped good s) as (l2 & s2 & L & a & _ & _ & LG & SV).
    specialize (SV NB k).
    change (option_map (mc_view m) (metric_at w m P s k) = option_map aview (aget unique_eqb k (a_tab a (su_shard_of w k)))) in SV.
    rewrite E in SV. pose proof (legal_life unique_eqb unique_eqb_spec (su_shard_of w) spec st_new aview k _ _ LG) as LF.
    destruct (aget unique_eqb k (a_tab a (su_shard_of w k))) as [y|]; [|discriminate].
    exists (life unique_eqb k (L s2)), y. destruct LF as [_ LF]. split; [exact LF|]. cbn in SV. congruence.
  Qed.

  Variable most : Op -> Z.
  Hypothesis add_most : forall u r, (0 <= add u r <= most u)%Z.
  Variable seen : Res -> Z.
  Hypothesis read_seen : forall i x x' r, spec i (mc_read m) x = Some (x', r) -> seen r = amt x.

  Lemma adds_pos : forall g n s, (forall j hd, P j hd <> Some (CDelete g)) -> (0 <= sum_finished w m P add amount g n s)%Z.
  Proof.
    intros g n s KP. unfold sum_finished. assert (Z0 : forall A (f : A -> Z) l, (forall x, In x l -> (0 <= f x)%Z) -> (0 <= sum_over f l)%Z).
    { intros A f l H. induction l as [|x l IH]; [apply Z.le_refl|]. change (0 <= f x + sum_over f l)%Z. apply Z.add_nonneg_nonneg.
      - apply H. now left.
      - apply IH. intros y I. apply H. now right. }
    apply Z0. intros j _. apply Z0. intros [call tr] I.
    destruct (made_outcome (su_build w) (su_fields w) (su_loc w) (su_accepts w) (su_shard_of w) (mc_machine m) (mc_new m) (mc_view m)
      spec st_new aview (su_shards w) (mc_read m) P (su_strings w) sound ndup shaped good s j call tr I) as (_ & (hd & C) & _).
    unfold call_adds. cbn [fst snd]. destruct call as [g' u|g'| |]; [| |apply Z.le_refl|apply Z.le_refl].
    - destruct (result_of _ _) as [r| | | | |]; try lia. destruct (group_eq_dec g' g); [|lia]. apply (add_most u r).
    - destruct (result_of _ _) as [|[v|]| | | |]; try lia. destruct (group_eq_dec g' g) as [->|]; [|lia]. now destruct (KP j hd).
  Qed.

  Theorem all_brackets : forall g, (forall j hd, P j hd <> Some (CDelete g)) ->
    forall s0 s1 i tr rest n, call_underway w m P s0 i = None -> done (s0 ++ s1) i = done s0 i ++ (CCollect, tr) :: rest ->
    (forall j, n <= j -> done (s0 ++ s1) j = [] /\ call_underway w m P (s0 ++ s1) j = None) ->
    (sum_begun w m P add amount most g n (s0 ++ s1) < md)%Z ->
    forall l r, result_of CCollect tr = Collected l -> In (g, r) l ->
    (sum_finished w m P add amount g n s0 <= seen r mod md <= sum_begun w m P add amount most g n (s0 ++ s1))%Z /\
    exists log x x', legal spec st_new log x /\ spec i (mc_read m) x = Some (x', r).
  Proof.
    intros g KP s0 s1 i tr rest n ID LA BE LT l r RC I.
    assert (most_pos : forall u, (0 <= most u)%Z).
    { intros u. destruct (Z.le_gt_cases 0 (most u)) as [X|X]; [exact X|]. exfalso. pose proof (add_most u r). lia. }
    assert (C : l = combine (groups_of tr) (values_of tr)).
    { destruct (collect_facts (su_build w) (su_fields w) (su_loc w) (su_accepts w) (su_shard_of w) (mc_machine m) (mc_new m) (mc_view m)
        spec st_new aview (su_shards w) (mc_read m) P (su_strings w) sound ndup shaped good (s0 ++ s1) i tr) as (_ & _ & _ & R & _).
      { change (In (CCollect, tr) (done (s0 ++ s1) i)). rewrite LA. apply in_or_app. right. now left. }
      rewrite RC in R. injection R as ->. reflexivity. }
    subst l.
    destruct (bracket (su_build w) (su_fields w) (su_loc w) (su_accepts w) (su_shard_of w) (mc_machine m) (mc_new m) (mc_view m)
      spec st_new aview (su_shards w) (mc_read m) P (su_strings w) sound ndup shaped good add amount most add_read add_most most_pos
      g KP s0 s1 i tr rest n ID LA BE r I) as (k & h & pre & post & a & LG & LO & HI).
    destruct (legal_use unique_eqb unique_eqb_spec (su_shard_of w) _ _ _ _ _ _ _ _ _ _ _ LG) as (y & y' & LF & SP).
    split; [|exists (life unique_eqb k pre), y, y'; split; [exact LF|exact SP]].
    apply legal_app in LG as (a1 & L1 & L2). pose proof (log_amount k _ _ L1) as A.
    inversion L2 as [|t0 i0 op r0 a2 log s'' E2 H' EQ2]; subst.
    pose proof (spec_key unique_eqb unique_eqb_spec (su_shard_of w) _ _ _ _ _ _ _ _ k (legal_ok unique_eqb unique_eqb_spec (su_shard_of w) _ _ _ _ _ _ (av_ok_new (su_shard_of w)) L1) E2) as SK.
    cbn in SK. rewrite (keqb_refl unique_eqb unique_eqb_spec) in SK. destruct SK as (x & x' & A1 & A2 & A3). rewrite A1 in A.
    rewrite (read_seen _ _ _ _ A2), A.
    change (sum_finished w m P add amount g n s0) with
      (all_adds (su_build w) (su_fields w) (su_loc w) (su_accepts w) (su_shard_of w) (mc_machine m) (mc_new m) (mc_view m)
        (su_shards w) (mc_read m) P (su_strings w) add amount g n s0).
    change (sum_begun w m P add amount most g n (s0 ++ s1)) with
      (begun_adds (su_build w) (su_fields w) (su_loc w) (su_accepts w) (su_shard_of w) (mc_machine m) (mc_new m) (mc_view m)
        (su_shards w) (mc_read m) P (su_strings w) add amount most g n (s0 ++ s1)) in *.
    pose proof (adds_pos g n s0 KP) as NN. unfold sum_finished in NN. unfold all_adds in LO |- *. unfold finished_calls in NN.
    rewrite Z.mod_small; [lia|]. lia.
  Qed.
End Any.

(* ------------------------------------------------------------------ *)
(** ** Counters *)

Definition call_program (Op Res V : Type) : Type :=
  nat -> list (vec_call Op * trace (label_op + vec_op unique Op) (label_res + vec_res unique Res V)) -> option (vec_call Op).

Lemma counter_small : forall log x, legal (pure_spec counter_eff) 0%N log x -> (Z.of_N x mod 2 ^ 64 = Z.of_N x)%Z.
Proof. intros log x L. apply counter_legal in L; [|reflexivity]. rewrite L. now rewrite Z.mod_mod. Qed.

Theorem counter_totals : forall w (P : call_program counter_op N N), setup_ok w -> calls_shaped (su_fields w) P ->
  forall s n g k, nobody_busy w counter_code P s -> (forall i, n <= i -> finished_calls w counter_code P s i = []) ->
  has_id w counter_code P s g k ->
  Z.of_N (match metric_at w counter_code P s k with Some v => v | None => 0 end) =
  (sum_finished w counter_code P (fun u _ => counter_delta u) Z.of_N g n s mod 2 ^ 64)%Z.
Proof.
  intros w P ok shaped s n g k NB BE ID.
  pose proof (all_totals w counter_code (pure_spec counter_eff) 0%N (fun v => v) P ok shaped (counter_good 0) (2 ^ 64)%Z ltac:(lia) Z.of_N
    (fun u _ => counter_delta u) Z.of_N eq_refl (fun _ => eq_refl) counter_step_mod (fun _ => eq_refl) s n g k NB BE ID) as T.
  rewrite <- T. cbn [mc_view counter_code]. destruct (metric_at w counter_code P s k) as [v|] eqn:E; [|reflexivity].
  destruct (held_legal w counter_code (pure_spec counter_eff) 0%N (fun v => v) P ok shaped (counter_good 0) s k v NB E) as (log & y & L & X).
  cbn in X. subst y. symmetry. exact (counter_small _ _ L).
Qed.

Lemma delta_most : forall u (r : N), (0 <= counter_delta u <= counter_delta u)%Z.
Proof. intros [|x|] r; cbn; lia. Qed.

Theorem counter_brackets : forall w (P : call_program counter_op N N), setup_ok w -> calls_shaped (su_fields w) P ->
  forall g, (forall j hd, P j hd <> Some (CDelete g)) ->
  forall s0 s1 i tr rest n, call_underway w counter_code P s0 i = None ->
  finished_calls w counter_code P (s0 ++ s1) i = finished_calls w counter_code P s0 i ++ (CCollect, tr) :: rest ->
  (forall j, n <= j -> finished_calls w counter_code P (s0 ++ s1) j = [] /\ call_underway w counter_code P (s0 ++ s1) j = None) ->
  let add := fun u (_ : N) => counter_delta u in
  (sum_begun w counter_code P add Z.of_N counter_delta g n (s0 ++ s1) < 2 ^ 64)%Z ->
  forall l r, result_of CCollect tr = Collected l -> In (g, r) l ->
  (sum_finished w counter_code P add Z.of_N g n s0 <= Z.of_N r <=
   sum_begun w counter_code P add Z.of_N counter_delta g n (s0 ++ s1))%Z.
Proof.
  intros w P ok shaped g KP s0 s1 i tr rest n ID LA BE add LT l r RC I.
  assert (RS : forall i x x' r, pure_spec counter_eff i (mc_read counter_code) x = Some (x', r) -> Z.of_N r = Z.of_N x).
  { intros j x x' r' E. cbn in E. unfold pure_spec in E. cbn in E. injection E as -> ->. reflexivity. }
  destruct (all_brackets w counter_code (pure_spec counter_eff) 0%N (fun v => v) P ok shaped (counter_good 0) (2 ^ 64)%Z ltac:(lia) Z.of_N
    add Z.of_N eq_refl (fun _ => eq_refl) counter_step_mod (fun _ => eq_refl) counter_delta delta_most Z.of_N RS g KP s0 s1 i tr rest n ID LA BE LT
    l r RC I) as (B & log & x & x' & L & E).
  apply RS in E. rewrite E in B |- *. now rewrite (counter_small _ _ L) in B.
Qed.

(* ------------------------------------------------------------------ *)
(** ** Histograms *)

Definition hist_calls := call_program hist_op hist_res (list N * N * N).

Theorem hist_totals : forall b w (P : hist_calls), setup_ok w -> calls_shaped (su_fields w) P ->
  forall s n g k, nobody_busy w (hist_code b) P s -> (forall i, n <= i -> finished_calls w (hist_code b) P s i = []) ->
  has_id w (hist_code b) P s g k ->
  (match metric_at w (hist_code b) P s k with Some h => hist_count (hist_view (ch_state h)) | None => 0 end mod 2 ^ 64 =
   sum_finished w (hist_code b) P hist_added hist_count g n s mod 2 ^ 64)%Z.
Proof.
  intros b w P ok shaped s n g k NB BE ID.
  exact (all_totals w (hist_code b) hist_spec (hist_new b) hist_view P ok shaped (hist_good b) (2 ^ 64)%Z ltac:(lia)
    (fun h => hist_count (hist_view h)) hist_added hist_count (hist_count_new b) (fun _ => eq_refl) hist_step_mod (fun _ => eq_refl) s n g k NB BE ID).
Qed.

Lemma added_most : forall u (r : hist_res), (0 <= hist_added u r <= hist_most u)%Z.
Proof. intros [b v|] [r|]; cbn; lia. Qed.

Theorem hist_brackets : forall b w (P : hist_calls), setup_ok w -> calls_shaped (su_fields w) P ->
  forall g, (forall j hd, P j hd <> Some (CDelete g)) ->
  forall s0 s1 i tr rest n, call_underway w (hist_code b) P s0 i = None ->
  finished_calls w (hist_code b) P (s0 ++ s1) i = finished_calls w (hist_code b) P s0 i ++ (CCollect, tr) :: rest ->
  (forall j, n <= j -> finished_calls w (hist_code b) P (s0 ++ s1) j = [] /\ call_underway w (hist_code b) P (s0 ++ s1) j = None) ->
  (sum_begun w (hist_code b) P hist_added hist_count hist_most g n (s0 ++ s1) < 2 ^ 64)%Z ->
  forall l r, result_of CCollect tr = Collected l -> In (g, r) l ->
  exists v, r = Some v /\
    (sum_finished w (hist_code b) P hist_added hist_count g n s0 <= hist_count v mod 2 ^ 64 <=
     sum_begun w (hist_code b) P hist_added hist_count hist_most g n (s0 ++ s1))%Z.
Proof.
  intros b w P ok shaped g KP s0 s1 i tr rest n ID LA BE LT l r RC I.
  set (seen := fun r : hist_res => match r with Some v => hist_count v | None => 0%Z end).
  assert (RS : forall i x x' r, hist_spec i (mc_read (hist_code b)) x = Some (x', r) -> seen r = hist_count (hist_view x)).
  { intros j x x' r' E. cbn in E. injection E as <- <-. reflexivity. }
  destruct (all_brackets w (hist_code b) hist_spec (hist_new b) hist_view P ok shaped (hist_good b) (2 ^ 64)%Z ltac:(lia)
    (fun h => hist_count (hist_view h)) hist_added hist_count (hist_count_new b) (fun _ => eq_refl) hist_step_mod (fun _ => eq_refl)
    hist_most added_most seen RS g KP s0 s1 i tr rest n ID LA BE LT l r RC I) as (B & log & x & x' & L & E).
  cbn in E. injection E as _ <-. exists (hist_view x). split; [reflexivity|exact B].
Qed.
