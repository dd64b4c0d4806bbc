(** Every row of a collection of a dense vec is its metric at one moment. *)
From Coq Require Import List NArith ZArith Bool Arith Lia.
From Verif Require Import Base BaseFacts FloatModel MetricModel MetricTheorems LabelModel LabelSpec GroupProofs LawProofs ConcModel ConcSpec ConcProofs ConcTheorems ConcVecSpec ConcVecTheorems
  ConcMomentSpec ConcMoment ConcLabelProofs ConcDenseModel ConcDenseSpec ConcDense ConcDenseTheorems ConcCallModel ConcBoth ConcScript ConcCallSpec
  ConcDenseCallModel ConcDenseCallSpec ConcDenseCallProofs.
From Verif Require ConcCallProofs.
Import ListNotations.
Local Open Scope nat_scope.
Local Set Asymmetric Patterns.

Section Moment.
  Context {L : lgset} {Sh Op Res Mic V St : Type}.
  Variable wt : lg_state L -> lg_group L -> Prop.
  Variable w : dense_setup L.
  Variable m : metric_code Sh Op Res Mic V.
  Variable spec : nat -> Op -> St -> option (St * Res).
  Variable st_new : St.
  Variable aview : St -> V.
  Variable P : dense_program L Op Res.
  Hypothesis fixed : dense_ok_setup L wt w.
  Hypothesis shaped : dense_shaped wt w P.
  Hypothesis good : good_metric (mc_machine m) (mc_new m) (mc_view m) spec st_new aview.
  Variable geq : forall a b : lg_group L, {a = b} + {a <> b}.
  Variable wr : Op -> bool.
  Hypothesis read_only : wr (mc_read m) = false.
  Notation ls := (dn_set w).
  Notation card := (dn_cells w).
  Notation read := (mc_read m).
  Notation next := (dense_next card read).
  Notation adv := (dense_adv (L := L) (Op := Op) (Res := Res)).
  Notation ini := (dense_init (L := L) (Op := Op)).
  Notation lop := (look_op L + dense_op Op)%type.
  Notation lres := (look_res L + dense_res Res)%type.
  Notation ID := (dense_id wt w).
  Local Notation done s i := (dense_finished w m P s i).
  Notation running s i := (dense_underway w m P s i).
  Local Notation history c i := (history_of ini next adv (P i) (t_done (c_th c i))).
  Notation cfg s := (dense_at_time w m P s).
  Notation collect_op := (collect_op w m (Res := Res)).
  Notation count_op := (count_op (L := L) (Op := Op) (Res := Res)).

  Definition dwrote (k : nat) (l : list (dense_op Op * dense_res Res)) : list Op :=
    flat_map (fun d => match d with (DUse _ k' u, DVal _) => if Nat.eqb k' k then filter wr [u] else [] | _ => [] end) l.

  Lemma dwrote_app : forall k a b, dwrote k (a ++ b) = dwrote k a ++ dwrote k b.
  Proof. intros k a b. apply flat_map_app. Qed.

  Section Key.
    Variable g : lg_group L.
    Variable k : nat.
    Hypothesis id : ID g k.

    Lemma dkey_cases : forall g' k' (x y : list Op), ID g' k' -> (if Nat.eqb k' k then x else y) = (if geq g' g then x else y).
    Proof.
      intros g' k' x y H. pose proof (ids_agree wt w fixed g k g' k' id H) as A. destruct (geq g' g) as [E|NE].
      - apply A in E. subst. now rewrite Nat.eqb_refl.
      - destruct (Nat.eqb_spec k' k) as [E|]; [|reflexivity]. apply A in E. contradiction.
    Qed.

    Lemma dwrote_reads : forall tr, Forall (fun d => collect_op d \/ count_op d) tr -> dwrote k (rdone tr) = [].
    Proof.
      intros tr F. assert (X : forall d, In d (rdone tr) -> match d with (DUse _ k' u, DVal _) => if Nat.eqb k' k then filter wr [u] else [] | _ => [] end = []).
      { intros [o r] I. apply in_sel_right in I. rewrite Forall_forall in F. specialize (F _ I).
        destruct o, r; cbn in F; try tauto; try reflexivity. destruct F as [->|[]]. cbn [filter]. rewrite read_only. now destruct (Nat.eqb k0 k). }
      unfold dwrote. induction (rdone tr) as [|d l IH]; [reflexivity|]. cbn [flat_map]. rewrite (X d) by now left. apply IH. intros e I. apply X. now right.
    Qed.

    Lemma dwrote_call : forall call tr, outcome_is wt w m call tr -> dwrote k (rdone tr) = dense_has_written geq wr g (call, tr).
    Proof.
      intros call tr OC. unfold dense_has_written. destruct OC as [g' u E|g' u k' r E|g' E|g' k' E|tr F A B C|tr F A]; try reflexivity.
      - cbn [fst snd dense_may_write]. rewrite <- (dkey_cases g' k') by exact E. cbn. now rewrite app_nil_r.
      - rewrite dwrote_reads; [cbn [fst snd]; now destruct (dense_result_of ECollect tr)|]. eapply Forall_impl; [|exact F]. auto.
      - rewrite dwrote_reads; [cbn [fst snd]; now destruct (dense_result_of ECount tr)|]. eapply Forall_impl; [|exact F]. auto.
    Qed.

    Lemma dwrote_calls : forall hd, (forall call tr, In (call, tr) hd -> outcome_is wt w m call tr) ->
      dwrote k (rdone (flat_map snd hd)) = flat_map (dense_has_written geq wr g) hd.
    Proof.
      intros hd. induction hd as [|[call tr] hd IH]; intros OC; [reflexivity|].
      cbn [flat_map snd]. unfold rdone in *. rewrite sel_done_app, dwrote_app.
      f_equal; [apply dwrote_call, OC; now left|]. apply IH. intros c t I. apply OC. now right.
    Qed.

    Lemma dwrote_under_way : forall call st tr op, tame wt w m call st tr -> next st = Some op ->
      forall pend, pend = [] \/ (exists o r, op = inr o /\ pend = [(o, r)]) -> initial (dwrote k (rdone tr ++ pend)) (dense_may_write geq wr g call).
    Proof.
      intros call st tr op T N pend PE.
      assert (CO : Forall (fun d => collect_op d \/ count_op d) tr -> dwrote k pend = [] -> initial (dwrote k (rdone tr ++ pend)) (dense_may_write geq wr g call)).
      { intros F Z0. rewrite dwrote_app, (dwrote_reads tr F), Z0. apply initial_nil. }
      assert (FC : Forall collect_op tr -> Forall (fun d => collect_op d \/ count_op d) tr) by (intros F; eapply Forall_impl; [|exact F]; auto).
      assert (FN : Forall count_op tr -> Forall (fun d => collect_op d \/ count_op d) tr) by (intros F; eapply Forall_impl; [|exact F]; auto).
      assert (PK : forall h q, op = inr (DPeek h q) \/ op = inr (DGet h q) \/ (exists o, op = inl o) \/ op = inr (DUse h q read) -> dwrote k pend = []).
      { intros h q O. destruct PE as [->|(o & r & -> & ->)]; [reflexivity|].
        destruct O as [O|[O|[[x O]|O]]]; inversion O; subst; cbn [dwrote flat_map]; destruct r; try reflexivity. cbn [filter]. rewrite read_only. now destruct (Nat.eqb q k). }
      destruct st as [g' u|q u|q u|g'|q|q|q|q|]; cbn [dense_next] in N.
      - injection N as <-. destruct T as [-> ->]. apply CO; [constructor|]. apply (PK 0 0). right. right. left. eauto.
      - injection N as <-. destruct T as (g' & -> & I & ->). rewrite dwrote_app, (PK 0 q) by auto. apply initial_nil.
      - injection N as <-. destruct T as (g' & -> & I & ->). destruct PE as [->|(o & r & X & ->)]; [apply initial_nil|]. injection X as <-.
        cbn [dense_may_write]. rewrite <- (dkey_cases g' q) by exact I. cbn [rdone sel_done flat_map right_of app fst snd dwrote]. rewrite app_nil_r.
        destruct r; try apply initial_nil. apply initial_refl.
      - injection N as <-. destruct T as [-> ->]. apply CO; [constructor|]. apply (PK 0 0). right. right. left. eauto.
      - destruct (Nat.ltb q card); [|discriminate]. injection N as <-. destruct T as (-> & _ & F & _). apply CO; [now apply FC|]. apply (PK 0 q). auto.
      - injection N as <-. destruct T as (-> & _ & F & _). apply CO; [now apply FC|]. apply (PK 0 0). right. right. left. eauto.
      - injection N as <-. destruct T as (-> & _ & F & _). apply CO; [now apply FC|]. apply (PK 0 q). auto.
      - destruct (Nat.ltb q card); [|discriminate]. injection N as <-. destruct T as (-> & _ & F & _). apply CO; [now apply FN|]. apply (PK 0 q). auto.
      - discriminate.
    Qed.

    Lemma dthread_writes : forall s log j, explained_by w m P s log ->
      initial (dense_writes_finished w m P geq wr g s j) (dwrote k (of_thread j log)) /\ initial (dwrote k (of_thread j log)) (dense_writes_begun w m P geq wr g s j).
    Proof.
      intros s log j E. destruct (tame_history wt w m spec st_new aview P fixed shaped good s j) as (A & D & C). pose proof (next_now w m P s j) as G.
      assert (W1 : dwrote k (rdone (flat_map snd (done s j))) = dense_writes_finished w m P geq wr g s j).
      { apply dwrote_calls. intros call tr I. exact (proj1 (made_outcome wt w m spec st_new aview P fixed shaped good s j call tr I)). }
      assert (REST : forall pend, (pend = [] \/ exists op mic r, t_cur (cells (cfg s) j) = Some (op, mic) /\ pend = [(op, r)]) ->
        initial (dwrote k (rdone (cur_trace (history (cfg s) j)) ++ pend)) (match running s j with Some call => dense_may_write geq wr g call | None => [] end)).
      { intros pend PE.
        assert (PE' : pend = [] \/ exists op mic r, t_cur (c_th (cfg s) j) = Some (inr op, mic) /\ pend = [(op, r)]).
        { destruct PE as [->|(op & mic & r & CU & ->)]; [now left|]. right. unfold cells, right_thread, sel_thread in CU. cbn [t_cur] in CU.
          destruct (t_cur (c_th (cfg s) j)) as [[[o'|o'] [m'|m']]|]; cbn in CU; try discriminate. injection CU as -> ->. eauto. }
        clear PE. unfold dense_underway, cur_trace, next_op in *.
        destruct (h_cur (history (cfg s) j)) as [[[call st] tr]|] eqn:HC.
        - destruct C as (T & NX & PC). destruct (next st) as [op|] eqn:NE; [|contradiction].
          destruct PE' as [->|(o & mic & r & CU & ->)].
          + apply (dwrote_under_way call st tr op T NE). now left.
          + rewrite CU in G. injection G as ->. apply (dwrote_under_way call st tr (inr o) T NE). right. eauto.
        - destruct PE' as [->|(o & mic & r & CU & ->)]; [apply initial_nil|].
          rewrite CU in *. change (h_done (history (cfg s) j)) with (done s j) in G.
          destruct (P j (done s j)) as [[g' u|g'| |]|]; cbn [dense_init dense_next] in G; try discriminate;
            (destruct (Nat.ltb 0 card); [|discriminate]); injection G as <-; cbn; destruct r; apply initial_nil. }
      assert (DD : exists pend, of_thread j log = rdone (flat_map snd (done s j)) ++ rdone (cur_trace (history (cfg s) j)) ++ pend /\
        (pend = [] \/ exists op mic r, t_cur (cells (cfg s) j) = Some (op, mic) /\ pend = [(op, r)])).
      { pose proof (f_equal (sel_done (@right_of _ _) (@right_of _ _)) D) as DS. rewrite sel_done_app in DS.
        destruct (E j) as [E'|(op & mic & r & CU & E')]; rewrite E'; unfold cells, right_thread, sel_thread; cbn [t_done];
          rewrite DS; unfold rdone.
        - exists []. split; [|now left]. now rewrite app_nil_r.
        - exists [(op, r)]. rewrite <- app_assoc. split; [reflexivity|]. right. eauto. }
      destruct DD as (pend & -> & PE). rewrite dwrote_app, W1. split; [apply initial_app|]. unfold dense_writes_begun. apply initial_under. exact (REST pend PE).
    Qed.

    Lemma cell_writes : forall j (log : list (@entry (dense_op Op) (dense_res Res))), writes_in wr j (on_cell k log) = dwrote k (of_thread j log).
    Proof.
      intros j log. induction log as [|e log IH]; [reflexivity|].
      transitivity (writes_in wr j (on_cell k [e]) ++ writes_in wr j (on_cell k log)).
      { assert (A : on_cell k (e :: log) = on_cell k [e] ++ on_cell k log) by (unfold on_cell; cbn [flat_map]; now rewrite app_nil_r).
        rewrite A. unfold writes_in. rewrite (of_thread_app j (on_cell k [e])), map_app, filter_app. reflexivity. }
      transitivity (dwrote k (of_thread j [e]) ++ dwrote k (of_thread j log)).
      2: { rewrite <- dwrote_app, <- of_thread_app. reflexivity. }
      rewrite IH. apply (f_equal (fun z => z ++ _)). destruct e as [[i o] r]. etransitivity; [|symmetry; exact (f_equal (dwrote k) (of_thread_one j i o r))].
      destruct o as [h q|h q|h q u]; try (destruct (Nat.eqb i j); reflexivity). destruct r as [|b|x| | |]; try (destruct (Nat.eqb i j); reflexivity).
      cbn [on_cell flat_map]. destruct (Nat.eqb q k) eqn:QK; cbn [app]; unfold writes_in.
      - etransitivity; [exact (f_equal (fun z => filter wr (map fst z)) (of_thread_one j i u x))|]. destruct (Nat.eqb i j); [|reflexivity]. cbn [map fst dwrote flat_map]. rewrite QK, app_nil_r. reflexivity.
      - destruct (Nat.eqb i j); [|reflexivity]. cbn [dwrote flat_map]. rewrite QK. reflexivity.
    Qed.
  End Key.

  Theorem dense_row_moment : forall s0 s1 i tr rest, running s0 i = None -> done (s0 ++ s1) i = done s0 i ++ (ECollect, tr) :: rest ->
    forall l g r, dense_result_of ECollect tr = DCollected l -> In (g, r) l ->
    exists log x x', legal spec st_new log x /\ spec i read x = Some (x', r) /\
      forall j, initial (dense_writes_finished w m P geq wr g s0 j) (writes_in wr j log) /\
        initial (writes_in wr j log) (dense_writes_begun w m P geq wr g (s0 ++ s1) j).
  Proof.
    intros s0 s1 i tr rest idle later l g r RL I. assert (IL : In (ECollect, tr) (done (s0 ++ s1) i)) by (rewrite later; apply in_or_app; right; now left).
    destruct (collect_facts wt w m spec st_new aview P fixed shaped good _ i tr IL) as (F & PK & NM & RD & RE & IDS & SUB). rewrite RE in RL. injection RL as <-.
    assert (X : exists k, In (k, g) (named tr) /\ In (k, r) (reads tr)).
    { clear -I RD. revert RD I. generalize (reads tr). induction (named tr) as [|[q x] d IH]; intros [|[q' v] vs] E I; cbn in *; try contradiction.
      injection E as -> E. destruct I as [I|I]; [injection I as -> ->; eauto|]. destruct (IH vs E I) as (k & A & B). eauto. }
    destruct X as (k & I1 & I2). pose proof (IDS k g I1) as IG. apply (in_reads w m) in I2 as (h & I2); [|exact F].
    destruct (call_logs wt w m spec st_new aview P fixed shaped good s0 s1 i _ tr rest idle later) as (log0 & more & a & X0 & X1 & LG & SP).
    destruct (SP _ _ I2) as (m' & post & ->). rewrite app_assoc in LG.
    destruct (dlegal_use spec st_new card _ _ _ _ _ _ _ _ LG) as (y & y' & LF & SY).
    exists (on_cell k (log0 ++ m')), y, y'. split; [exact LF|]. split; [exact SY|]. intros j.
    rewrite (cell_writes k j), of_thread_app, dwrote_app. split.
    - eapply initial_trans; [exact (proj1 (dthread_writes g k IG s0 log0 j X0))|apply initial_app].
    - eapply initial_trans; [|exact (proj2 (dthread_writes g k IG (s0 ++ s1) _ j X1))].
      rewrite <- dwrote_app, <- of_thread_app, app_assoc, (of_thread_app j (log0 ++ m')), dwrote_app. apply initial_app.
  Qed.
End Moment.

(** ** Gauges *)
Section Gauges.
  Context {L : lgset}.
  Variable wt : lg_state L -> lg_group L -> Prop.
  Variable w : dense_setup L.
  Variable P : dense_program L igauge_op Z.
  Hypothesis fixed : dense_ok_setup L wt w.
  Hypothesis shaped : dense_shaped wt w P.
  Variable geq : forall a b : lg_group L, {a = b} + {a <> b}.
  Variable g : lg_group L.
  Hypothesis no_set : forall j hd x, P j hd <> Some (EUpdate g (IWrite (GSet x))).

  Lemma dense_begun_program : forall s j u, In u (dense_writes_begun w gauge_code P geq gauge_writes g s j) -> exists hd, P j hd = Some (EUpdate g u).
  Proof.
    intros s j u I.
    assert (MW : forall call, In u (dense_may_write geq gauge_writes g call) -> call = EUpdate g u).
    { intros [g' u'|g'| |] J; cbn [dense_may_write] in J; try contradiction. destruct (geq g' g) as [->|]; [|contradiction].
      apply filter_In in J as [[->|[]] _]. reflexivity. }
    apply in_app_or in I as [I|I].
    - apply in_flat_map in I as ((call & tr) & I & J). unfold dense_has_written in J. cbn [fst snd] in J.
      destruct (dense_result_of call tr); try contradiction. apply MW in J. subst call.
      destruct (made_outcome wt w gauge_code (pure_spec igauge_eff) 0%Z (fun v => v) P fixed shaped (igauge_good 0) s j _ tr I) as (_ & H & _). exact H.
    - destruct (dense_underway w gauge_code P s j) as [call|] eqn:U; [|contradiction]. apply MW in I. subst call.
      destruct (tame_history wt w gauge_code (pure_spec igauge_eff) 0%Z (fun v => v) P fixed shaped (igauge_good 0) s j) as (_ & _ & C).
      unfold dense_underway in U.
      match type of U with match ?x with _ => _ end = _ => destruct x as [[[c st] t]|] end.
      + injection U as ->. apply C.
      + destruct (t_cur _); [eauto|discriminate].
  Qed.

  Section One.
    Variables s0 s1 : schedule.
    Variable i : nat.
    Variable tr : trace (look_op L + dense_op igauge_op) (look_res L + dense_res Z).
    Variable rest : list (dense_call L igauge_op * trace (look_op L + dense_op igauge_op) (look_res L + dense_res Z)).
    Hypothesis idle : dense_underway w gauge_code P s0 i = None.
    Hypothesis later : dense_finished w gauge_code P (s0 ++ s1) i = dense_finished w gauge_code P s0 i ++ (ECollect, tr) :: rest.
    Variable n : nat.
    Hypothesis below : forall j, n <= j -> dense_finished w gauge_code P (s0 ++ s1) j = [] /\ dense_underway w gauge_code P (s0 ++ s1) j = None.
    Variables (l : list (lg_group L * Z)) (r : Z).
    Hypothesis collected : dense_result_of ECollect tr = DCollected l.
    Hypothesis shown : In (g, r) l.

    Theorem dense_gauge_moment : exists ws : nat -> list igauge_op,
      (forall j, initial (dense_writes_finished w gauge_code P geq gauge_writes g s0 j) (ws j) /\ initial (ws j) (dense_writes_begun w gauge_code P geq gauge_writes g (s0 ++ s1) j)) /\
      r = to_i64 (sum_over (fun j => sum_over gauge_delta (ws j)) (seq 0 n)).
    Proof.
      destruct (dense_row_moment wt w gauge_code (pure_spec igauge_eff) 0%Z (fun v => v) P fixed shaped (igauge_good 0) geq gauge_writes eq_refl
        s0 s1 i tr rest idle later l g r collected shown) as (log & x & x' & LG & RD & WS).
      exists (fun j => writes_in gauge_writes j log). split; [exact WS|].
      cbn in RD. unfold pure_spec in RD. cbn in RD. injection RD as _ <-.
      assert (NS : forall e, In e log -> is_set (snd (fst e)) = false).
      { intros [[j u] q] I. cbn [fst snd]. destruct u as [[|z| |z|z]|]; try reflexivity. exfalso.
        assert (J : In (IWrite (GSet z)) (writes_in gauge_writes j log)).
        { apply filter_In. split; [|reflexivity]. apply in_map_iff. exists (IWrite (GSet z), q). split; [reflexivity|]. now apply ConcCallProofs.in_of_thread. }
        destruct (proj2 (WS j)) as (c & E). destruct (dense_begun_program (s0 ++ s1) j (IWrite (GSet z))) as (hd & X).
        - rewrite E. apply in_or_app. now left.
        - exact (no_set _ _ _ X). }
      rewrite (gauge_no_set 0 log x ltac:(lia) LG NS), Z.add_0_l. f_equal.
      set (big := S (list_max (map (fun e => fst (fst e)) log)) + n).
      rewrite (gauge_of_thread log big).
      2:{ intros e I. unfold big. pose proof (proj1 (list_max_le (map (fun e => fst (fst e)) log) _) (Nat.le_refl _)) as F. rewrite Forall_forall in F.
          specialize (F _ (in_map (fun e => fst (fst e)) _ _ I)). cbn beta in F. lia. }
      unfold big. rewrite Nat.add_comm, seq_app, sum_over_app. cbn [Nat.add].
      assert (Z0 : sum_over (fun j => sum_over gauge_delta (writes_in gauge_writes j log)) (seq n (S (list_max (map (fun e => fst (fst e)) log)))) = 0%Z); [|lia].
      assert (G : forall k, (forall j, In j k -> n <= j) -> sum_over (fun j => sum_over gauge_delta (writes_in gauge_writes j log)) k = 0%Z).
      { induction k as [|j k IH]; intros H; [reflexivity|]. change (sum_over gauge_delta (writes_in gauge_writes j log) + sum_over (fun j => sum_over gauge_delta (writes_in gauge_writes j log)) k = 0)%Z.
        rewrite IH by (intros q Q; apply H; now right). destruct (proj2 (WS j)) as (c & E). unfold dense_writes_begun, dense_writes_finished in E.
        destruct (below j (H j (or_introl eq_refl))) as [-> ->] in E. cbn in E. symmetry in E. apply app_eq_nil in E as [-> _]. reflexivity. }
      apply G. intros j I. apply in_seq in I. lia.
    Qed.

    (** Bounds for every thread add up. *)
    Theorem dense_gauge_between : forall lo hi : nat -> Z,
      (forall j p, j < n -> initial (dense_writes_finished w gauge_code P geq gauge_writes g s0 j) p -> initial p (dense_writes_begun w gauge_code P geq gauge_writes g (s0 ++ s1) j) ->
         (lo j <= sum_over gauge_delta p <= hi j)%Z) ->
      (- 2 ^ 63 <= sum_over lo (seq 0 n))%Z -> (sum_over hi (seq 0 n) < 2 ^ 63)%Z ->
      (sum_over lo (seq 0 n) <= r <= sum_over hi (seq 0 n))%Z.
    Proof.
      intros lo hi B LO H. destruct dense_gauge_moment as (ws & WS & ->).
      assert (LE : (sum_over lo (seq 0 n) <= sum_over (fun j => sum_over gauge_delta (ws j)) (seq 0 n) <= sum_over hi (seq 0 n))%Z).
      { assert (G : forall k, (forall j, In j k -> j < n) -> (sum_over lo k <= sum_over (fun j => sum_over gauge_delta (ws j)) k <= sum_over hi k)%Z).
        { induction k as [|j k IH]; intros X; [cbn; lia|]. destruct (WS j) as [W1 W2]. pose proof (B j (ws j) (X j (or_introl eq_refl)) W1 W2).
          specialize (IH (fun q Q => X q (or_intror Q))). unfold sum_over in *. cbn [fold_right]. lia. }
        apply G. intros j I. apply in_seq in I. lia. }
      rewrite to_i64_small by lia. exact LE.
    Qed.

    (** Things counted up when they begin and down when they end. *)
    Theorem dense_gauge_in_flight :
      (forall j p, j < n -> initial p (dense_writes_begun w gauge_code P geq gauge_writes g (s0 ++ s1) j) -> (0 <= sum_over gauge_delta p <= 1)%Z) ->
      (Z.of_nat n < 2 ^ 63)%Z -> (0 <= r <= Z.of_nat n)%Z.
    Proof.
      intros B H.
      pose proof (dense_gauge_between (fun _ => 0%Z) (fun _ => 1%Z)) as X. rewrite !sum_const in X. specialize (X (fun j p J _ I => B j p J I)). lia.
    Qed.
  End One.
End Gauges.
