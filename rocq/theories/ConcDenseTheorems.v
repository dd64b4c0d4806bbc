(** Dense vecs under concurrency: consequences (C54). *)
From Coq Require Import List NArith ZArith Bool Arith Lia ZifyBool ZifyN ZifyNat.
From Verif Require Import Base FloatModel MetricModel MetricProofs ConcModel ConcSpec ConcProofs ConcHist ConcTheorems
  ConcVecSpec ConcVecTheorems ConcDenseModel ConcDenseSpec ConcDense.
Import ListNotations.
Local Open Scope nat_scope.

Section Legal.
  Context {Op Res St : Type}.
  Variable spec : nat -> Op -> St -> option (St * Res).
  Variable st_new : St.
  Variable card : nat.
  Notation adense := (adense St).
  Notation dop := (dense_op Op).
  Notation dres := (dense_res Res).
  Notation dspec := (dense_spec spec st_new card).

  (** What a call does to cell [k]. *)
  Lemma dspec_cell : forall i op a a' r k, dspec i op a = Some (a', r) ->
    match op, r with
    | DGet _ k', DUnit => k' < card /\
        if Nat.eqb k' k then ad_tab a' k = Some (match ad_tab a k with Some x => x | None => st_new end) else ad_tab a' k = ad_tab a k
    | DGet _ k', DPanic => card <= k' /\ ad_tab a' k = ad_tab a k
    | DPeek _ k', DFound b => k' < card /\ ad_tab a' k = ad_tab a k /\ b = match ad_tab a k' with Some _ => true | None => false end
    | DPeek _ k', DBad => card <= k' /\ ad_tab a' k = ad_tab a k
    | DUse _ k' u, DVal r => if Nat.eqb k' k then exists x x', ad_tab a k = Some x /\ spec i u x = Some (x', r) /\ ad_tab a' k = Some x'
        else ad_tab a' k = ad_tab a k
    | DUse _ _ _, DBad => ad_tab a' k = ad_tab a k
    | _, _ => False
    end.
  Proof.
    intros i op a a' r k E. destruct op as [h k'|h k'|h k' u]; unfold dense_spec in E.
    - destruct (Nat.ltb_spec k' card) as [LT|GE].
      + destruct (ad_tab a k') eqn:T; inversion E; subst; (split; [exact LT|]); cbn.
        * destruct (Nat.eqb_spec k' k) as [->|]; [now rewrite T|reflexivity].
        * unfold upd. destruct (Nat.eqb_spec k' k) as [->|NE]; [now rewrite Nat.eqb_refl, T|].
          destruct (Nat.eqb_spec k k'); [congruence|reflexivity].
      + inversion E; subst. auto.
    - destruct (Nat.ltb_spec k' card) as [LT|GE].
      + destruct (ad_tab a k') eqn:T; inversion E; subst; (split; [exact LT|]); cbn; auto.
      + inversion E; subst. auto.
    - destruct (ad_env a i h) as [k''|]; [|inversion E; subst; reflexivity].
      destruct (Nat.eqb k'' k'); [|inversion E; subst; reflexivity].
      destruct (ad_tab a k') as [x|] eqn:T; [|discriminate]. destruct (spec i u x) as [[x' r']|] eqn:SP; [|discriminate].
      inversion E; subst. cbn. unfold upd. destruct (Nat.eqb_spec k' k) as [->|NE].
      + exists x, x'. rewrite Nat.eqb_refl. auto.
      + destruct (Nat.eqb_spec k k'); [congruence|reflexivity].
  Qed.

  Lemma asked_snoc : forall k log i (op : dop) (r : dres), asked k (log ++ [(i, op, r)]) =
    asked k log || match op, r with DGet _ k', DUnit => Nat.eqb k' k | _, _ => false end.
  Proof. intros k log i op r. unfold asked. rewrite existsb_app. cbn. rewrite orb_false_r. now destruct op, r. Qed.
  Lemma on_cell_snoc : forall k log i (op : dop) (r : dres), on_cell k (log ++ [(i, op, r)]) =
    on_cell k log ++ match op, r with DUse _ k' u, DVal r => if Nat.eqb k' k then [(i, u, r)] else [] | _, _ => [] end.
  Proof. intros k log i op r. unfold on_cell. rewrite flat_map_app. cbn. rewrite app_nil_r. now destruct op, r. Qed.

  (** The metric of a cell is what the calls on it make it. *)
  Lemma legal_cell : forall k log a, legal dspec ad_new log a ->
    match ad_tab a k with
    | Some x => asked k log = true /\ legal spec st_new (on_cell k log) x
    | None => asked k log = false /\ on_cell k log = []
    end.
  Proof.
    intros k log. induction log as [|[[i op] r] log IH] using rev_ind; intros a H.
    - inversion H; subst. cbn. auto.
    - apply legal_rev in H as (a1 & H1 & E). specialize (IH _ H1). pose proof (dspec_cell _ _ _ _ _ k E) as SK.
      rewrite asked_snoc, on_cell_snoc.
      destruct op as [h k'|h k'|h k' u], r as [|b|r| | |]; try contradiction; rewrite ?orb_false_r, ?app_nil_r.
      + destruct SK as [_ SK]. destruct (Nat.eqb k' k); rewrite SK; [|rewrite orb_false_r; exact IH]. rewrite orb_true_r.
        destruct (ad_tab a1 k); [tauto|]. destruct IH as [_ ->]. split; [reflexivity|constructor].
      + destruct SK as [_ ->]. exact IH.
      + destruct SK as (_ & -> & _). exact IH.
      + destruct SK as [_ ->]. exact IH.
      + destruct (Nat.eqb k' k); [|rewrite SK, app_nil_r; exact IH]. destruct SK as (x & x' & A1 & A2 & ->). rewrite A1 in IH.
        split; [tauto|]. eapply legal_snoc; [exact (proj2 IH)|exact A2].
      + rewrite SK. exact IH.
  Qed.

  Lemma dlegal_results : forall a log a', legal dspec a log a' -> forall i op r, In (i, op, r) log ->
    r <> DDangling /\ (r = DPanic -> exists h k, op = DGet h k /\ card <= k).
  Proof.
    intros a log a' H. induction H as [s|s i op r s' log s'' E H IH]; intros j op' r'; [intros []|intros [X|X]]; [|eauto].
    inversion X; subst. pose proof (dspec_cell _ _ _ _ _ 0 E) as SK. destruct op', r'; try contradiction; split; try discriminate.
    intros _. destruct SK. eauto.
  Qed.

  (** A call on a metric comes after the other calls on the cell. *)
  Lemma dlegal_use : forall pre i h k u r post a', legal dspec ad_new (pre ++ (i, DUse h k u, DVal r) :: post) a' ->
    exists x x', legal spec st_new (on_cell k pre) x /\ spec i u x = Some (x', r).
  Proof.
    intros pre i h k u r post a' H. apply legal_app in H as (a1 & H1 & H). inversion H as [|s0 i0 op r0 a2 log s'' E H' EQ]; subst.
    pose proof (dspec_cell _ _ _ _ _ k E) as SK. cbn in SK. rewrite Nat.eqb_refl in SK. destruct SK as (x & x' & A1 & A2 & A3).
    pose proof (legal_cell k _ _ H1) as LF. rewrite A1 in LF. exists x, x'. tauto.
  Qed.

  Lemma dlegal_peek : forall pre i h k b post a', legal dspec ad_new (pre ++ (i, DPeek h k, DFound b) :: post) a' ->
    b = asked k pre.
  Proof.
    intros pre i h k b post a' H. apply legal_app in H as (a1 & H1 & H). inversion H as [|s0 i0 op r0 a2 log s'' E H' EQ]; subst.
    pose proof (dspec_cell _ _ _ _ _ k E) as SK. cbn in SK. destruct SK as (_ & _ & ->).
    pose proof (legal_cell k _ _ H1) as LF. destruct (ad_tab a1 k); symmetry; tauto.
  Qed.

  Section Amount.
    Variable m : Z.
    Hypothesis m_pos : (m <> 0)%Z.
    Variable mu : St -> Z.
    Variable add : Op -> Res -> Z.
    Hypothesis mu_new : mu st_new = 0%Z.
    Hypothesis mu_step : forall i u x x' r, spec i u x = Some (x', r) -> ((mu x') mod m = (mu x + add u r) mod m)%Z.

    Definition cell_amount (k : nat) (a : adense) : Z := match ad_tab a k with Some x => mu x | None => 0%Z end.

    Lemma dlegal_amount : forall k log a, legal dspec ad_new log a ->
      (cell_amount k a mod m = sum_over (fun e => dense_flow add k (snd (fst e), snd e)) log mod m)%Z.
    Proof.
      intros k log. induction log as [|[[i op] r] log IH] using rev_ind; intros a H.
      - inversion H; subst. reflexivity.
      - apply legal_rev in H as (a1 & H1 & E). specialize (IH _ H1). pose proof (dspec_cell _ _ _ _ _ k E) as SK.
        rewrite sum_over_app.
        pose (X := sum_over (fun e : @entry dop dres => dense_flow add k (snd (fst e), snd e)) log). change (cell_amount k a1 mod m = X mod m)%Z in IH.
        change (cell_amount k a mod m = (X + (dense_flow add k (op, r) + 0)) mod m)%Z. clearbody X. rewrite Z.add_0_r.
        assert (SAME : ad_tab a k = ad_tab a1 k -> (cell_amount k a mod m = (X + 0) mod m)%Z).
        { intros EQ. unfold cell_amount in *. rewrite EQ, Z.add_0_r. exact IH. }
        destruct op as [h k'|h k'|h k' u], r as [|b|r| | |]; cbn [dense_flow]; try contradiction; try (apply SAME; tauto).
        + destruct SK as [_ SK]. destruct (Nat.eqb k' k); [|auto]. unfold cell_amount in *. rewrite SK, Z.add_0_r.
          destruct (ad_tab a1 k); [exact IH|]. now rewrite mu_new.
        + destruct (Nat.eqb k' k); [|auto]. destruct SK as (x & x' & A1 & A2 & A3). unfold cell_amount in *. rewrite A3, A1 in *.
          rewrite (mu_step _ _ _ _ _ A2). rewrite <- (Z.add_mod_idemp_l X) by exact m_pos. rewrite <- IH.
          now rewrite Z.add_mod_idemp_l by exact m_pos.
    Qed.
  End Amount.
End Legal.

(* ------------------------------------------------------------------ *)
(** ** Any metric *)

Lemma run_app : forall Sh Op Res Mic (M : machine Sh Op Res Mic) prog s s' c, run M prog (s ++ s') c = run M prog s' (run M prog s c).
Proof. intros Sh Op Res Mic M prog. induction s as [|ic s IH]; intros s' c; [reflexivity|]. cbn [app run]. apply IH. Qed.

Lemma done_in_log' : forall Sh Op Res Mic (log : list (@entry Op Res)) (c : config Sh Op Res Mic) i op r,
  explains log c -> In (op, r) (t_done (c_th c i)) -> In (i, op, r) log.
Proof.
  intros Sh Op Res Mic log c i op r E I.
  assert (J : In (op, r) (of_thread i log)).
  { destruct (E i) as [->|(op' & mic & r' & _ & ->)]; [exact I|]. apply in_app_iff. now left. }
  unfold of_thread in J. apply in_map_iff in J as ([[i' op'] r'] & X & Y). inversion X; subst.
  apply filter_In in Y as [Y Z]. cbn in Z. apply Nat.eqb_eq in Z. now subst.
Qed.

Section Any.
  Context {Sh Op Res Mic V St : Type}.
  Variable O : machine Sh Op Res Mic.
  Variable sh_new : Sh.
  Variable view : Sh -> V.
  Variable spec : nat -> Op -> St -> option (St * Res).
  Variable st_new : St.
  Variable aview : St -> V.
  Hypothesis good : good_metric O sh_new view spec st_new aview.
  Variable card : nat.
  Notation M := (dense_machine O sh_new card).
  Notation dspec := (dense_spec spec st_new card).

  Theorem dense_linearizable : forall prog, exists L : schedule -> list (@entry (dense_op Op) (dense_res Res)),
    real_time_order L (fun s => run M prog s (start_config dv_new)) /\
    forall s, let c := run M prog s (start_config dv_new) in
      explains (L s) c /\
      exists a, legal dspec ad_new (L s) a /\
        (quiescent c -> forall k, option_map view (dense_lookup k (c_sh c)) = option_map aview (ad_tab a k)).
  Proof.
    destruct good as (lin & inv & rep & OK & RV). intros prog.
    destruct (linearizable_in_real_time _ _ _ _ _ _ _ _ _ _
      (object_linearizable _ _ _ _ _ _ _ (dense_ok O sh_new card spec st_new lin inv rep OK)) prog) as (L & RT & H).
    exists L. split; [exact RT|]. intros s c. destruct (H s) as (E & a & LG & R). split; [exact E|]. exists a. split; [exact LG|].
    intros Q k. specialize (R Q k). unfold dense_lookup. destruct (d_cells (c_sh (run M prog s (start_config dv_new))) k) as [|b|n sh] eqn:CK.
    - unfold c. rewrite CK. now rewrite R.
    - unfold c. rewrite CK. now rewrite R.
    - unfold c. rewrite CK. destruct (ad_tab a k); [|contradiction]. cbn. f_equal. now apply RV.
  Qed.

  (** All references to a cell are to the metric in it. *)
  Theorem dense_one_metric : forall prog s, let c := c_sh (run M prog s (start_config dv_new)) in
    forall i h k n, d_env c i h = Some (k, n) -> exists sh, d_cells c k = CFull n sh.
  Proof.
    destruct good as (lin & inv & rep & OK & RV). intros prog s.
    destruct (object_invariant _ _ _ _ _ _ _ prog s (dense_ok O sh_new card spec st_new lin inv rep OK)) as (g & st & I).
    cbn zeta in *. intros i h k n E. exact (di_refs _ _ _ _ _ I _ _ _ _ E).
  Qed.

  (** The metric of a cell is made once. *)
  Theorem dense_once : forall prog s s' k n sh, d_cells (c_sh (run M prog s (start_config dv_new))) k = CFull n sh ->
    exists sh', d_cells (c_sh (run M prog (s ++ s') (start_config dv_new))) k = CFull n sh'.
  Proof.
    destruct good as (lin & inv & rep & OK & RV). intros prog s s' k n sh. revert s sh.
    induction s' as [|[i ch] s' IH]; intros s sh F; [rewrite app_nil_r; eauto|].
    replace (s ++ (i, ch) :: s') with ((s ++ [(i, ch)]) ++ s') by now rewrite <- app_assoc.
    assert (ST : exists sh', d_cells (c_sh (run M prog (s ++ [(i, ch)]) (start_config dv_new))) k = CFull n sh'); [|destruct ST; eauto].
    rewrite run_app. destruct (object_invariant _ _ _ _ _ _ _ prog s (dense_ok O sh_new card spec st_new lin inv rep OK)) as (g & st & I).
    cbn zeta in I. revert F I. generalize (run M prog s (start_config dv_new)). intros c F I.
    cbn [run]. unfold step. destruct (t_cur (c_th c i)) as [[op mic]|] eqn:TC; [|destruct (prog i (t_done (c_th c i))); eauto].
    destruct (m_step M i ch mic (c_sh c)) as [[c' nxt]|] eqn:E; [|eauto].
    enough (exists sh', d_cells c' k = CFull n sh') by (destruct nxt; exact H).
    destruct mic as [h k'|h k'|h k'|h k'|h k'|h k' u|k' n' m]; cbn [m_step dense_machine dense_step] in E.
    - destruct (k' <? card); [|inversion E; subst; eauto]. destruct (d_cells (c_sh c) k'); inversion E; subst; cbn; eauto.
    - destruct (d_cells (c_sh c) k') eqn:CK; inversion E; subst; cbn; eauto. rewrite upd_other; [eauto|congruence].
    - inversion E; subst. cbn. rewrite upd_other; [eauto|]. intros <-.
      assert (B : d_cells (c_sh c) k = CBusy i) by (apply (di_busy _ _ _ _ _ I); rewrite TC; cbn; apply Nat.eqb_refl). congruence.
    - destruct (d_cells (c_sh c) k'); inversion E; subst; cbn; eauto.
    - destruct (k' <? card); [|inversion E; subst; eauto]. destruct (d_cells (c_sh c) k'); inversion E; subst; cbn; eauto.
    - destruct (d_env (c_sh c) i h) as [[k'' n']|]; [|inversion E; subst; eauto]. destruct (Nat.eqb k'' k'); inversion E; subst; eauto.
    - destruct (d_cells (c_sh c) k') as [| |n'' sh''] eqn:CK; try (inversion E; subst; eauto; fail).
      destruct (Nat.eqb_spec n'' n') as [->|]; [|inversion E; subst; eauto].
      destruct (m_step O i ch m sh'') as [[sh3 [m'|r]]|]; inversion E; subst; cbn; unfold upd;
        (destruct (Nat.eqb_spec k k') as [->|]; [|eauto]); rewrite CK in F; inversion F; subst; eauto.
  Qed.

  Theorem dense_results : forall prog s i op r, In (op, r) (t_done (c_th (run M prog s (start_config dv_new)) i)) ->
    r <> DDangling /\ (r = DPanic -> exists h k, op = DGet h k /\ card <= k).
  Proof.
    intros prog s i op r I. destruct (dense_linearizable prog) as (L & _ & H). destruct (H s) as (E & a & LG & _).
    eapply dlegal_results; [exact LG|]. eapply done_in_log'; eauto.
  Qed.
End Any.

(* ------------------------------------------------------------------ *)
(** ** Counters and histograms *)

Section Counters.
  Variable card : nat.
  Notation flow := (dense_flow (fun u (_ : N) => counter_delta u)).
  Notation dspec := (dense_spec (pure_spec counter_eff) 0%N card).

  Lemma dcounter_amount : forall k log a, legal dspec ad_new log a ->
    Z.of_N (match ad_tab a k with Some v => v | None => 0 end) = (sum_over (fun e => flow k (snd (fst e), snd e)) log mod 2 ^ 64)%Z.
  Proof.
    intros k log a LG.
    pose proof (dlegal_amount (pure_spec counter_eff) 0%N card (2 ^ 64)%Z ltac:(discriminate) Z.of_N
      (fun u _ => counter_delta u) eq_refl counter_step_mod k log a LG) as A.
    unfold cell_amount in A. pose proof (legal_cell (pure_spec counter_eff) 0%N card k log a LG) as LF.
    etransitivity; [|exact A]. destruct (ad_tab a k) as [v|]; [|reflexivity].
    destruct LF as [_ LF]. apply counter_legal in LF; [|reflexivity]. rewrite LF. now rewrite Z.mod_mod.
  Qed.

  Theorem dense_counter_total : forall prog s n k,
    let c := run (dense_counter_vec card) prog s (start_config dv_new) in
    quiescent c -> (forall i, n <= i -> t_done (c_th c i) = []) ->
    Z.of_N (match dense_lookup k (c_sh c) with Some v => v | None => 0 end) = (total_flow (flow k) n c mod 2 ^ 64)%Z.
  Proof.
    intros prog s n k c Q N. destruct (dense_linearizable _ _ _ _ _ _ (counter_good 0) card prog) as (L & _ & H).
    destruct (H s) as (E & a & LG & R). specialize (R Q k). change (explains (L s) c) in E.
    rewrite <- (flow_of_log _ _ _ _ (flow k) _ _ n E Q N).
    rewrite <- (dcounter_amount k _ _ LG).
    change (option_map (fun v => v) (dense_lookup k (c_sh c)) = option_map (fun v => v) (ad_tab a k)) in R.
    destruct (dense_lookup k (c_sh c)), (ad_tab a k); cbn in R; try discriminate; [|reflexivity]. now inversion R.
  Qed.

  Theorem dense_counter_order : forall prog, exists L : schedule -> list (@entry (dense_op counter_op) (dense_res N)),
    real_time_order L (fun s => run (dense_counter_vec card) prog s (start_config dv_new)) /\
    forall s, explains (L s) (run (dense_counter_vec card) prog s (start_config dv_new)) /\
      (forall pre i h k r post, L s = pre ++ (i, DUse h k KRead, DVal r) :: post ->
         Z.of_N r = (sum_over (fun e => flow k (snd (fst e), snd e)) pre mod 2 ^ 64)%Z) /\
      (forall pre i h k b post, L s = pre ++ (i, DPeek h k, DFound b) :: post -> b = asked k pre).
  Proof.
    intros prog. destruct (dense_linearizable _ _ _ _ _ _ (counter_good 0) card prog) as (L & RT & H).
    exists L. split; [exact RT|]. intros s. destruct (H s) as (E & a & LG & _). split; [exact E|]. split.
    - intros pre i h k r post EQ. rewrite EQ in LG. apply legal_app in LG as (a1 & L1 & L2).
      rewrite <- (dcounter_amount k _ _ L1). inversion L2 as [|s0 i0 op r0 a2 log s'' E2 H' EQ2]; subst.
      pose proof (dspec_cell _ _ _ _ _ _ _ _ k E2) as SK. cbn in SK. rewrite Nat.eqb_refl in SK. destruct SK as (x & x' & A1 & A2 & A3).
      rewrite A1. now inversion A2.
    - intros pre i h k b post EQ. rewrite EQ in LG. exact (dlegal_peek _ _ _ _ _ _ _ _ _ _ LG).
  Qed.
End Counters.

Section Histograms.
  Variable card nb : nat.
  Notation flow := (dense_flow hist_added).

  Theorem dense_hist_total : forall prog s n k,
    let c := run (dense_hist_vec nb card) prog s (start_config dv_new) in
    quiescent c -> (forall i, n <= i -> t_done (c_th c i) = []) ->
    (match dense_lookup k (c_sh c) with Some h => hist_count (hist_view (ch_state h)) | None => 0 end mod 2 ^ 64 =
     total_flow (flow k) n c mod 2 ^ 64)%Z.
  Proof.
    intros prog s n k c Q N. destruct (dense_linearizable _ _ _ _ _ _ (hist_good nb) card prog) as (L & _ & H).
    destruct (H s) as (E & a & LG & R). specialize (R Q k). change (explains (L s) c) in E.
    rewrite <- (flow_of_log _ _ _ _ (flow k) _ _ n E Q N).
    pose proof (dlegal_amount hist_spec (hist_new nb) card (2 ^ 64)%Z ltac:(discriminate)
      (fun h => hist_count (hist_view h)) hist_added (hist_count_new nb) hist_step_mod k _ _ LG) as A.
    unfold cell_amount in A. etransitivity; [|exact A]. f_equal.
    change (option_map (fun h => hist_view (ch_state h)) (dense_lookup k (c_sh c)) = option_map hist_view (ad_tab a k)) in R.
    destruct (dense_lookup k (c_sh c)), (ad_tab a k); cbn in R; try discriminate; [|reflexivity].
    assert (R' : hist_view (ch_state c0) = hist_view h) by congruence. now rewrite R'.
  Qed.

  Lemma on_cell_ops : forall k (log : list (@entry (dense_op hist_op) (dense_res hist_res))) i u r,
    In (i, u, r) (on_cell k log) -> exists h k', In (i, DUse h k' u, DVal r) log.
  Proof.
    intros k log i u r I. unfold on_cell in I. apply in_flat_map in I as ([[j op] q] & I & J).
    destruct op as [h k'|h k'|h k' u']; try contradiction. destruct q; try contradiction.
    destruct (Nat.eqb k' k); [|contradiction]. destruct J as [J|[]]. inversion J; subst. eauto.
  Qed.

  Theorem dense_hist_snapshots : forall prog, exists L : schedule -> list (@entry (dense_op hist_op) (dense_res hist_res)),
    real_time_order L (fun s => run (dense_hist_vec nb card) prog s (start_config dv_new)) /\
    forall s, explains (L s) (run (dense_hist_vec nb card) prog s (start_config dv_new)) /\
      ((forall i h k b x r, In (i, DUse h k (HObserve b x), r) (L s) -> b <= nb) ->
       forall pre i h k r post, L s = pre ++ (i, DUse h k HSample, DVal r) :: post ->
         exists hs, observe_seq (observations (on_cell k pre)) (hist_new nb) = Done hs /\ r = Some (hist_view hs)).
  Proof.
    intros prog. destruct (dense_linearizable _ _ _ _ _ _ (hist_good nb) card prog) as (L & RT & H).
    exists L. split; [exact RT|]. intros s. destruct (H s) as (E & a & LG & _). split; [exact E|].
    intros B pre i h k r post EQ. rewrite EQ in LG. destruct (dlegal_use _ _ _ _ _ _ _ _ _ _ _ LG) as (x & x' & LF & SP).
    exists x. split.
    - apply (hist_legal_observe _ _ _ LF). intros j b y q IN. apply on_cell_ops in IN as (h' & k' & IN).
      cbn. rewrite repeat_length. apply (B j h' k' b y (DVal q)). rewrite EQ. apply in_app_iff. now left.
    - cbn in SP. now inversion SP.
  Qed.
End Histograms.
