(** Every row of a collection of a sparse vec is its metric at one moment. *)
From Coq Require Import List NArith ZArith Bool Arith Lia.
From Verif Require Import Base BaseFacts FloatModel MetricModel MetricTheorems LabelModel LabelSpec GroupProofs LawProofs ConcModel ConcSpec ConcProofs ConcTheorems ConcVecModel ConcVecSpec
  ConcVec ConcVecTheorems ConcLabelModel ConcLabelSpec ConcLabelProofs ConcLabelTheorems ConcCallModel ConcBoth ConcHandles
  ConcScript ConcCallSpec ConcCallProofs ConcCallTheorems ConcCallOrder ConcMomentSpec.
Import ListNotations.
Local Open Scope nat_scope.
Local Set Asymmetric Patterns.

Lemma initial_refl : forall A (a : list A), initial a a.
Proof. intros A a. exists []. now rewrite app_nil_r. Qed.
Lemma initial_app : forall A (a b : list A), initial a (a ++ b).
Proof. intros A a b. now exists b. Qed.
Lemma initial_nil : forall A (a : list A), initial [] a.
Proof. intros A a. now exists a. Qed.
Lemma initial_trans : forall A (a b c : list A), initial a b -> initial b c -> initial a c.
Proof. intros A a b c (x & ->) (y & ->). exists (x ++ y). now rewrite app_assoc. Qed.
Lemma initial_under : forall A (a b c : list A), initial b c -> initial (a ++ b) (a ++ c).
Proof. intros A a b c (x & ->). exists x. now rewrite app_assoc. Qed.

Section Moment.
  Context {Sh Op Res Mic V St : Type}.
  Variable w : setup.
  Variable m : metric_code Sh Op Res Mic V.
  Variable spec : nat -> Op -> St -> option (St * Res).
  Variable st_new : St.
  Variable aview : St -> V.
  Variable P : call_program Op Res V.
  Hypothesis ok : setup_ok w.
  Hypothesis shaped : calls_shaped (su_fields w) P.
  Hypothesis good : good_metric (mc_machine m) (mc_new m) (mc_view m) spec st_new aview.
  Let sound := proj1 ok.
  Let ndup := proj2 ok.
  Variable wr : Op -> bool.
  Hypothesis read_only : wr (mc_read m) = false.
  Notation lop := (label_op + vec_op unique Op)%type.
  Notation lres := (label_res + vec_res unique Res V)%type.
  Notation read := (mc_read m).
  Notation shards := (su_shards w).
  Notation next := (call_next shards read).
  Notation done s i := (finished_calls w m P s i).
  Notation cfg s := (at_time (su_build w) (su_fields w) (su_loc w) (su_accepts w) (su_shard_of w) (mc_machine m) (mc_new m) (mc_view m)
      shards read P (su_strings w) s).
  Local Notation history c i := (history_of call_init next (call_adv (V := V)) (P i) (t_done (c_th c i))).
  Notation explained_by := (explained_by (su_build w) (su_fields w) (su_loc w) (su_accepts w) (su_shard_of w) (mc_machine m) (mc_new m) (mc_view m)
      shards read P (su_strings w)).

  (** Writes to the metric with key [k] among operations on the vec. *)
  Definition wrote (k : unique) (l : list (vec_op unique Op * vec_res unique Res V)) : list Op :=
    flat_map (fun d => match d with (SUse _ k' u, RVal _) => if unique_eqb k' k then filter wr [u] else [] | _ => [] end) l.

  Lemma wrote_app : forall k a b, wrote k (a ++ b) = wrote k a ++ wrote k b.
  Proof. intros k a b. apply flat_map_app. Qed.

  Section Key.
    Variable g : group_val.
    Variable k : unique.
    Notation matches := (matches (V := V) (Res := Res) (Op := Op) g k).

    Lemma key_cases : forall (g' : group_val) (k' : unique) (x y : list Op), (k' = k <-> g' = g) ->
      (if unique_eqb k' k then x else y) = (if group_eq_dec g' g then x else y).
    Proof.
      intros g' k' x y H. destruct (group_eq_dec g' g) as [E|NE].
      - apply H in E. assert (unique_eqb k' k = true) as -> by now apply unique_eqb_spec. reflexivity.
      - destruct (unique_eqb k' k) eqn:Q; [|reflexivity]. apply unique_eqb_spec in Q. apply H in Q. contradiction.
    Qed.

    Lemma wrote_reads : forall tr, Forall (collect_op (Res := Res) (V := V) read) tr -> wrote k (rdone tr) = [].
    Proof.
      intros tr F. induction F as [|[o r] tr C F IH]; [reflexivity|]. unfold rdone in *. cbn [sel_done flat_map fst snd].
      change (flat_map _ tr) with (sel_done (@right_of label_op (vec_op unique Op)) (@right_of label_res (vec_res unique Res V)) tr) in *.
      destruct o as [o|o]; [exact IH|]. destruct r as [r|r]; [exact IH|]. cbn [right_of app].
      unfold wrote in *. cbn [flat_map]. rewrite IH. unfold collect_op in C. cbn [fst] in C.
      destruct o as [h q|h q u|h|q|h x]; try contradiction; try reflexivity.
      subst u. destruct r; try reflexivity. cbn [filter]. rewrite read_only. now destruct (unique_eqb q k).
    Qed.

    Lemma wrote_call : forall call tr, outcome_is shards read call tr -> matches tr -> wrote k (rdone tr) = has_written wr g (call, tr).
    Proof.
      intros call tr OC MA. unfold has_written. destruct OC as [g' u|g' u k' r|g'|g' k' v|tr F S R L|tr F S L]; try reflexivity.
      - cbn [fst snd result_of may_write]. rewrite <- (key_cases g' k') by (apply MA; now left).
        cbn [rdone sel_done flat_map right_of app fst snd wrote]. now rewrite !app_nil_r.
      - rewrite (wrote_reads tr F). cbn [fst snd]. now destruct (result_of CCollect tr).
      - rewrite (wrote_reads tr F). cbn [fst snd]. now destruct (result_of CCount tr).
    Qed.

    Lemma wrote_calls : forall hd, (forall call tr, In (call, tr) hd -> outcome_is shards read call tr) -> matches (flat_map snd hd) ->
      wrote k (rdone (flat_map snd hd)) = flat_map (has_written wr g) hd.
    Proof.
      intros hd. induction hd as [|[call tr] hd IH]; intros OC MA; [reflexivity|].
      cbn [flat_map snd]. unfold rdone in *. rewrite sel_done_app, wrote_app. f_equal.
      - apply wrote_call; [apply OC; now left|]. intros g' k' I. apply MA. cbn. apply in_or_app. now left.
      - apply IH; [intros c t I; apply OC; now right|]. intros g' k' I. apply MA. cbn. apply in_or_app. now right.
    Qed.

    Lemma wrote_under_way : forall call st tr op, tame shards read call st tr -> next st = Some op -> matches tr ->
      forall pend, pend = [] \/ (exists o r, op = inr o /\ pend = [(o, r)]) -> initial (wrote k (rdone tr ++ pend)) (may_write wr g call).
    Proof.
      intros call st tr op T N MA pend PE.
      assert (CO : Forall (collect_op (Res := Res) (V := V) read) tr -> (pend = [] \/ exists o r, pend = [(o, r)] /\ collect_op (Res := Res) (V := V) read (inr o, inr r)) ->
        initial (wrote k (rdone tr ++ pend)) (may_write wr g call)).
      { intros F PE'. rewrite wrote_app, (wrote_reads tr F). destruct PE' as [->|(o & r' & -> & C)]; [apply initial_nil|].
        change [(o, r')] with (rdone [(inr o, inr r') : lop * lres]). rewrite wrote_reads by now repeat constructor. apply initial_nil. }
      destruct st as [g' u|q u|q u| |g'|q|x|x ks|x q ks|x|x|]; cbn [call_next] in N.
      - injection N as <-. destruct T as [-> ->]. destruct PE as [->|(o & r & X & _)]; [|discriminate]. apply initial_nil.
      - injection N as <-. destruct T as (g' & -> & ->). destruct PE as [->|(o & r & X & ->)]; [apply initial_nil|]. injection X as <-. destruct r; apply initial_nil.
      - injection N as <-. destruct T as (g' & -> & ->). destruct PE as [->|(o & r & X & ->)]; [apply initial_nil|]. injection X as <-.
        cbn [may_write]. rewrite <- (key_cases g' q) by (apply MA; now left).
        cbn [rdone sel_done flat_map right_of app fst snd wrote]. rewrite app_nil_r. destruct r; try apply initial_nil. apply initial_refl.
      - injection N as <-. destruct T as (g' & u & q & y & -> & ->). cbn [may_write]. rewrite <- (key_cases g' q) by (apply MA; now left).
        destruct PE as [->|(o & r & X & ->)].
        + cbn [rdone sel_done flat_map right_of app fst snd wrote]. rewrite app_nil_r. apply initial_refl.
        + injection X as <-. cbn [rdone sel_done flat_map right_of app fst snd wrote]. rewrite app_nil_r. apply initial_refl.
      - injection N as <-. destruct T as [-> ->]. destruct PE as [->|(o & r & X & _)]; [|discriminate]. apply initial_nil.
      - injection N as <-. destruct T as (g' & -> & ->). destruct PE as [->|(o & r & X & ->)]; [apply initial_nil|]. injection X as <-. apply initial_nil.
      - destruct (Nat.ltb x shards); [|discriminate]. injection N as <-. destruct T as (-> & _ & F & _). apply (CO F).
        destruct PE as [->|(o & r & X & ->)]; [now left|]. injection X as <-. right. do 2 eexists. split; [reflexivity|exact Logic.I].
      - destruct T as (-> & _ & F & _). apply (CO F). destruct PE as [->|(o & r & X & ->)]; [now left|]. right.
        destruct ks; [|subst op; discriminate]. subst op. injection N as <-. do 2 eexists. split; [reflexivity|exact Logic.I].
      - injection N as <-. destruct T as (-> & _ & F & _). apply (CO F).
        destruct PE as [->|(o & r & X & ->)]; [now left|]. injection X as <-. right. do 2 eexists. split; [reflexivity|]. reflexivity.
      - destruct (Nat.ltb x shards); [|discriminate]. injection N as <-. destruct T as (-> & _ & F & _). apply (CO F).
        destruct PE as [->|(o & r & X & ->)]; [now left|]. injection X as <-. right. do 2 eexists. split; [reflexivity|exact Logic.I].
      - injection N as <-. destruct T as (-> & _ & F & _). apply (CO F).
        destruct PE as [->|(o & r & X & ->)]; [now left|]. injection X as <-. right. do 2 eexists. split; [reflexivity|exact Logic.I].
      - discriminate.
    Qed.

    Lemma thread_writes : forall s log j, explained_by s log -> matches (t_done (c_th (cfg s) j)) ->
      initial (writes_finished w m P wr g s j) (wrote k (of_thread j log)) /\ initial (wrote k (of_thread j log)) (writes_begun w m P wr g s j).
    Proof.
      intros s log j E MA.
      destruct (tame_history (su_build w) (su_fields w) (su_loc w) (su_accepts w) (su_shard_of w) (mc_machine m) (mc_new m) (mc_view m)
        spec st_new aview shards read P (su_strings w) sound ndup shaped good s j) as (A & D & C).
      pose proof (run_good call_init next (call_adv (V := V)) (both (label_machine (su_build w) (su_fields w) (su_loc w) (su_accepts w))
        (sparse_machine unique_eqb (su_shard_of w) (mc_machine m) (mc_new m) (mc_view m))) (su_strings w, sv_new) P s j) as [_ G].
      change (c_th (run _ (follow call_init next call_adv P) s (start_config (su_strings w, sv_new))) j) with (c_th (cfg s) j) in G.
      change (hist call_init next call_adv P _ j) with (history (cfg s) j) in G.
      change (made _ _ _ _ _ _ _ _ _ _ _ _ s j) with (done s j) in A, D.
      assert (MM : matches (flat_map snd (done s j))) by (intros g' k' I; apply MA; rewrite D; apply in_or_app; now left).
      assert (MC : matches (cur_trace (history (cfg s) j))) by (intros g' k' I; apply MA; rewrite D; apply in_or_app; now right).
      assert (W1 : wrote k (rdone (flat_map snd (done s j))) = writes_finished w m P wr g s j).
      { apply wrote_calls; [|exact MM]. intros call tr I. exact (proj1 (made_outcome (su_build w) (su_fields w) (su_loc w) (su_accepts w) (su_shard_of w) (mc_machine m) (mc_new m) (mc_view m)
          spec st_new aview shards read P (su_strings w) sound ndup shaped good s j call tr I)). }
      assert (REST : forall pend, (pend = [] \/ exists op mic r, t_cur (rights (cfg s) j) = Some (op, mic) /\ pend = [(op, r)]) ->
        initial (wrote k (rdone (cur_trace (history (cfg s) j)) ++ pend)) (match call_underway w m P s j with Some call => may_write wr g call | None => [] end)).
      { intros pend PE.
        assert (PE' : pend = [] \/ exists op mic r, t_cur (c_th (cfg s) j) = Some (inr op, mic) /\ pend = [(op, r)]).
        { destruct PE as [->|(op & mic & r & CU & ->)]; [now left|]. right. unfold rights, right_thread, sel_thread in CU. cbn [t_cur] in CU.
          destruct (t_cur (c_th (cfg s) j)) as [[[o'|o'] [mm|mm]]|]; cbn in CU; try discriminate. injection CU as -> ->. eauto. }
        clear PE. unfold call_underway, underway, cur_trace, next_op in *.
        destruct (h_cur (history (cfg s) j)) as [[[call st] tr]|] eqn:HC.
        - destruct C as (T & NX & _ & PC). destruct (next st) as [op|] eqn:NE; [|contradiction].
          destruct PE' as [->|(o & mic & r & CU & ->)].
          + apply (wrote_under_way call st tr op T NE MC). now left.
          + rewrite CU in G. injection G as ->. apply (wrote_under_way call st tr (inr o) T NE MC). right. eauto.
        - destruct PE' as [->|(o & mic & r & CU & ->)]; [apply initial_nil|].
          rewrite CU in *. change (h_done (history (cfg s) j)) with (done s j) in G.
          destruct (P j (done s j)) as [[g' u|g'| |]|]; cbn [call_init call_next] in G; try discriminate;
          (destruct (Nat.ltb 0 shards); [|discriminate]); injection G as <-; cbn [rdone sel_done flat_map app wrote]; apply initial_nil. }
      assert (DD : exists pend, of_thread j log = rdone (flat_map snd (done s j)) ++ rdone (cur_trace (history (cfg s) j)) ++ pend /\
        (pend = [] \/ exists op mic r, t_cur (rights (cfg s) j) = Some (op, mic) /\ pend = [(op, r)])).
      { pose proof (f_equal (sel_done (@right_of _ _) (@right_of _ _)) D) as DS. rewrite sel_done_app in DS.
        destruct (E j) as [E'|(op & mic & r & CU & E')]; rewrite E'; unfold rights, right_thread, sel_thread; cbn [t_done];
          rewrite DS; unfold rdone.
        - exists []. split; [|now left]. now rewrite app_nil_r.
        - exists [(op, r)]. rewrite <- app_assoc. split; [reflexivity|]. right. eauto. }
      destruct DD as (pend & -> & PE). rewrite wrote_app, W1. split; [apply initial_app|]. unfold writes_begun. apply initial_under. exact (REST pend PE).
    Qed.

    Lemma life_writes : forall j (log : list (@entry (vec_op unique Op) (vec_res unique Res V))), (forall i q, ~ In (i, SRemove k, q) log) ->
      writes_in wr j (life unique_eqb k log) = wrote k (of_thread j log).
    Proof.
      intros j log. induction log as [|[[i o] r] log IH] using rev_ind; intros NR; [reflexivity|].
      assert (IH' : writes_in wr j (life unique_eqb k log) = wrote k (of_thread j log)) by (apply IH; intros i' q I; apply (NR i' q), in_or_app; now left). clear IH.
      rewrite of_thread_app, wrote_app, <- IH'. pose proof (life_snoc unique_eqb k log i o r) as LS.
      assert (SAME : life unique_eqb k (log ++ [(i, o, r)]) = life unique_eqb k log -> wrote k [(o, r)] = [] ->
        writes_in wr j (life unique_eqb k (log ++ [(i, o, r)])) = writes_in wr j (life unique_eqb k log) ++ wrote k (of_thread j [(i, o, r)])).
      { intros -> W. assert (X : of_thread j [(i, o, r)] = if Nat.eqb i j then [(o, r)] else []) by (unfold of_thread; cbn [filter fst]; now destruct (Nat.eqb i j)).
        rewrite X. destruct (Nat.eqb i j); [rewrite W|]; now rewrite app_nil_r. }
      destruct o as [h q|h q u|h|q|h s]; try (apply SAME; [exact LS|reflexivity]).
      - destruct r; try (apply SAME; [exact LS|reflexivity]). destruct (unique_eqb q k) eqn:Q.
        + etransitivity; [exact (f_equal (writes_in wr j) LS)|]. unfold writes_in. rewrite of_thread_app, map_app, filter_app. f_equal.
          unfold of_thread. cbn [filter fst]. destruct (Nat.eqb i j); [|reflexivity]. cbn [map fst snd wrote flat_map]. rewrite Q. now rewrite app_nil_r.
        + apply SAME; [exact LS|]. cbn [wrote flat_map]. now rewrite Q.
      - destruct (unique_eqb q k) eqn:Q; [|apply SAME; [exact LS|reflexivity]]. apply unique_eqb_spec in Q. subst q. exfalso. apply (NR i r), in_or_app. right. now left.
    Qed.
  End Key.

  (** The value in a row is read after the same calls as in some history of its metric
      in which every thread is somewhere between where it was when the collection began
      and where it is now. *)
  Theorem row_moment : forall g, (forall j hd, P j hd <> Some (CDelete g)) ->
    forall s0 s1 i tr rest, call_underway w m P s0 i = None -> done (s0 ++ s1) i = done s0 i ++ (CCollect, tr) :: rest ->
    forall l r, result_of CCollect tr = Collected l -> In (g, r) l ->
    exists log x x', legal spec st_new log x /\ spec i read x = Some (x', r) /\
      forall j, initial (writes_finished w m P wr g s0 j) (writes_in wr j log) /\ initial (writes_in wr j log) (writes_begun w m P wr g (s0 ++ s1) j).
  Proof.
    intros g KP s0 s1 i tr rest ID LA l r RC I.
    assert (IN : In (CCollect, tr) (done (s0 ++ s1) i)) by (rewrite LA; apply in_or_app; right; now left).
    rewrite (collected_is w m spec st_new aview P ok shaped good _ _ _ _ IN RC) in I.
    destruct (collect_facts (su_build w) (su_fields w) (su_loc w) (su_accepts w) (su_shard_of w) (mc_machine m) (mc_new m) (mc_view m)
      spec st_new aview shards read P (su_strings w) sound ndup shaped good (s0 ++ s1) i tr IN) as (F & S & R & _ & _ & EN & SUB).
    rewrite groups_decoded, values_read in I. apply in_collected in I as (k & I1 & I2); [|exact R].
    destruct (EN k g I1) as (j0 & EK). apply (in_reads read) in I2 as (h & I2); [|exact F].
    destruct (call_logs (su_build w) (su_fields w) (su_loc w) (su_accepts w) (su_shard_of w) (mc_machine m) (mc_new m) (mc_view m)
      spec st_new aview shards read P (su_strings w) sound ndup shaped good CCollect s0 s1 i tr rest ID LA) as (log0 & more & a & X0 & X1 & LG & SP).
    destruct (SP _ _ I2) as (mid & post & ->). rewrite app_assoc in LG.
    destruct (legal_use unique_eqb unique_eqb_spec (su_shard_of w) _ _ _ _ _ _ _ _ _ _ _ LG) as (y & y' & LF & SY).
    exists (life unique_eqb k (log0 ++ mid)), y, y'. split; [exact LF|]. split; [exact SY|]. intros j.
    assert (M1 : forall j, matches g k (t_done (c_th (cfg (s0 ++ s1)) j))).
    { intros j1 g' k' J. exact (ids_unique (su_build w) (su_fields w) (su_loc w) (su_accepts w) (su_shard_of w) (mc_machine m) (mc_new m) (mc_view m)
        shards read P (su_strings w) sound ndup shaped (s0 ++ s1) j1 j0 g' g k' k J EK). }
    assert (M0 : forall j, matches g k (t_done (c_th (cfg s0) j))).
    { intros j1 g' k' J. apply (M1 j1).
      destruct (done_grows (both (label_machine (su_build w) (su_fields w) (su_loc w) (su_accepts w))
        (sparse_machine unique_eqb (su_shard_of w) (mc_machine m) (mc_new m) (mc_view m))) (calling shards read P) (su_strings w, sv_new) s0 s1 j1) as (x & E).
      change (t_done (c_th (cfg (s0 ++ s1)) j1) = t_done (c_th (cfg s0) j1) ++ x) in E. rewrite E. apply in_or_app. now left. }
    assert (NR : forall i' q, ~ In (i', SRemove k, q) (log0 ++ mid)).
    { intros i' q J. apply (not_removed (su_build w) (su_fields w) (su_loc w) (su_accepts w) (su_shard_of w) (mc_machine m) (mc_new m) (mc_view m)
        shards read P (su_strings w) sound ndup shaped g KP (s0 ++ s1) _ i' k q X1); [eauto|]. rewrite app_assoc. apply in_or_app. now left. }
    rewrite (life_writes k j _ NR), of_thread_app, wrote_app. split.
    - eapply initial_trans; [exact (proj1 (thread_writes g k s0 log0 j X0 (M0 j)))|apply initial_app].
    - eapply initial_trans; [|exact (proj2 (thread_writes g k (s0 ++ s1) _ j X1 (M1 j)))].
      rewrite <- wrote_app, <- of_thread_app, app_assoc, (of_thread_app j (log0 ++ mid)), wrote_app. apply initial_app.
  Qed.
End Moment.

(** ** Gauges *)
Lemma sum_const : forall z n b, sum_over (fun _ : nat => z) (seq b n) = (z * Z.of_nat n)%Z.
Proof. intros z n. induction n as [|n IH]; intros b; [cbn; lia|]. cbn [seq]. change (z + sum_over (fun _ => z) (seq (S b) n) = z * Z.of_nat (S n))%Z. rewrite IH. lia. Qed.

Lemma gauge_of_thread : forall (log : list (@entry igauge_op Z)) n, (forall e, In e log -> fst (fst e) < n) ->
  sum_over (fun e => gauge_delta (snd (fst e))) log = sum_over (fun j => sum_over gauge_delta (writes_in gauge_writes j log)) (seq 0 n).
Proof.
  intros log n BE. pose proof (flow_by_thread _ _ (fun d : igauge_op * Z => gauge_delta (fst d)) n log BE) as F. cbn [fst] in F.
  etransitivity; [exact F|]. apply sum_over_ext. intros j _. unfold writes_in.
  induction (of_thread j log) as [|[u r] l IH]; [reflexivity|]. cbn [map fst filter]. destruct u as [op|]; cbn [gauge_writes].
  - cbn [sum_over fold_right fst]. unfold sum_over in IH. rewrite IH. reflexivity.
  - cbn [sum_over fold_right fst gauge_delta]. unfold sum_over in IH. rewrite IH. apply Z.add_0_l.
Qed.

Section Gauges.
  Variable w : setup.
  Variable P : call_program igauge_op Z Z.
  Hypothesis ok : setup_ok w.
  Hypothesis shaped : calls_shaped (su_fields w) P.
  Variable g : group_val.
  Hypothesis kept : forall j hd, P j hd <> Some (CDelete g).
  Hypothesis no_set : forall j hd x, P j hd <> Some (CUpdate g (IWrite (GSet x))).

  Lemma begun_program : forall s j u, In u (writes_begun w gauge_code P gauge_writes g s j) -> exists hd, P j hd = Some (CUpdate g u).
  Proof.
    intros s j u I.
    assert (MW : forall call, In u (may_write gauge_writes g call) -> call = CUpdate g u).
    { intros [g' u'|g'| |] J; cbn [may_write] in J; try contradiction. destruct (group_eq_dec g' g) as [->|]; [|contradiction].
      apply filter_In in J as [[->|[]] _]. reflexivity. }
    apply in_app_or in I as [I|I].
    - apply in_flat_map in I as ((call & tr) & I & J). unfold has_written in J. cbn [fst snd] in J.
      destruct (result_of call tr); try contradiction. apply MW in J. subst call.
      destruct (made_outcome (su_build w) (su_fields w) (su_loc w) (su_accepts w) (su_shard_of w) (mc_machine gauge_code) (mc_new gauge_code) (mc_view gauge_code)
        (pure_spec igauge_eff) 0%Z (fun v => v) (su_shards w) (mc_read gauge_code) P (su_strings w) (proj1 ok) (proj2 ok) shaped (igauge_good 0) s j _ tr I) as (_ & H & _). exact H.
    - destruct (call_underway w gauge_code P s j) as [call|] eqn:U; [|contradiction]. apply MW in I. subst call.
      destruct (tame_history (su_build w) (su_fields w) (su_loc w) (su_accepts w) (su_shard_of w) (mc_machine gauge_code) (mc_new gauge_code) (mc_view gauge_code)
        (pure_spec igauge_eff) 0%Z (fun v => v) (su_shards w) (mc_read gauge_code) P (su_strings w) (proj1 ok) (proj2 ok) shaped (igauge_good 0) s j) as (_ & _ & C).
      unfold call_underway, underway in U.
      match type of U with match ?x with _ => _ end = _ => destruct x as [[[c st] t]|] end.
      + injection U as ->. apply C.
      + destruct (t_cur _); [eauto|discriminate].
  Qed.

  Section One.
    Variables s0 s1 : schedule.
    Variable i : nat.
    Variable tr : trace (label_op + vec_op unique igauge_op) (label_res + vec_res unique Z Z).
    Variable rest : list (vec_call igauge_op * trace (label_op + vec_op unique igauge_op) (label_res + vec_res unique Z Z)).
    Hypothesis idle : call_underway w gauge_code P s0 i = None.
    Hypothesis later : finished_calls w gauge_code P (s0 ++ s1) i = finished_calls w gauge_code P s0 i ++ (CCollect, tr) :: rest.
    Variable n : nat.
    Hypothesis below : forall j, n <= j -> finished_calls w gauge_code P (s0 ++ s1) j = [] /\ call_underway w gauge_code P (s0 ++ s1) j = None.
    Variables (l : list (group_val * Z)) (r : Z).
    Hypothesis collected : result_of CCollect tr = Collected l.
    Hypothesis shown : In (g, r) l.

    Theorem gauge_moment : exists ws : nat -> list igauge_op,
      (forall j, initial (writes_finished w gauge_code P gauge_writes g s0 j) (ws j) /\ initial (ws j) (writes_begun w gauge_code P gauge_writes g (s0 ++ s1) j)) /\
      r = to_i64 (sum_over (fun j => sum_over gauge_delta (ws j)) (seq 0 n)).
    Proof.
      destruct (row_moment w gauge_code (pure_spec igauge_eff) 0%Z (fun v => v) P ok shaped (igauge_good 0) gauge_writes eq_refl g kept
        s0 s1 i tr rest idle later l r collected shown) as (log & x & x' & LG & RD & WS).
      exists (fun j => writes_in gauge_writes j log). split; [exact WS|].
      cbn in RD. unfold pure_spec in RD. cbn in RD. injection RD as _ <-.
      assert (NS : forall e, In e log -> is_set (snd (fst e)) = false).
      { intros [[j u] q] I. cbn [fst snd]. destruct u as [[|z| |z|z]|]; try reflexivity. exfalso.
        assert (J : In (IWrite (GSet z)) (writes_in gauge_writes j log)).
        { apply filter_In. split; [|reflexivity]. apply in_map_iff. exists (IWrite (GSet z), q). split; [reflexivity|]. now apply in_of_thread. }
        destruct (proj2 (WS j)) as (c & E). destruct (begun_program (s0 ++ s1) j (IWrite (GSet z))) as (hd & X).
        - rewrite E. apply in_or_app. now left.
        - exact (no_set _ _ _ X). }
      rewrite (gauge_no_set 0 log x ltac:(lia) LG NS), Z.add_0_l. f_equal.
      set (big := S (list_max (map (fun e => fst (fst e)) log)) + n).
      rewrite (gauge_of_thread log big).
      2:{ intros e I. unfold big. pose proof (proj1 (list_max_le (map (fun e => fst (fst e)) log) _) (Nat.le_refl _)) as F. rewrite Forall_forall in F.
          specialize (F _ (in_map (fun e => fst (fst e)) _ _ I)). cbn beta in F. lia. }
      unfold big. rewrite Nat.add_comm, seq_app, sum_over_app. cbn [Nat.add].
      assert (Z0 : sum_over (fun j => sum_over gauge_delta (writes_in gauge_writes j log)) (seq n (S (list_max (map (fun e => fst (fst e)) log)))) = 0%Z); [|lia].
      assert (G : forall k, (forall j, In j k -> n <= j) -> sum_over (fun j => sum_over gauge_delta (writes_in gauge_writes j log)) k = 0%Z).
      { induction k as [|j k IH]; intros H; [reflexivity|]. change (sum_over gauge_delta (writes_in gauge_writes j log) + sum_over (fun j => sum_over gauge_delta (writes_in gauge_writes j log)) k = 0)%Z.
        rewrite IH by (intros q Q; apply H; now right). destruct (proj2 (WS j)) as (c & E). unfold writes_begun, writes_finished in E.
        destruct (below j (H j (or_introl eq_refl))) as [-> ->] in E. cbn in E. symmetry in E. apply app_eq_nil in E as [-> _]. reflexivity. }
      apply G. intros j I. apply in_seq in I. lia.
    Qed.

    (** Bounds for every thread add up. *)
    Theorem gauge_between : forall lo hi : nat -> Z,
      (forall j p, j < n -> initial (writes_finished w gauge_code P gauge_writes g s0 j) p -> initial p (writes_begun w gauge_code P gauge_writes g (s0 ++ s1) j) ->
         (lo j <= sum_over gauge_delta p <= hi j)%Z) ->
      (- 2 ^ 63 <= sum_over lo (seq 0 n))%Z -> (sum_over hi (seq 0 n) < 2 ^ 63)%Z ->
      (sum_over lo (seq 0 n) <= r <= sum_over hi (seq 0 n))%Z.
    Proof.
      intros lo hi B L H. destruct gauge_moment as (ws & WS & ->).
      assert (LE : (sum_over lo (seq 0 n) <= sum_over (fun j => sum_over gauge_delta (ws j)) (seq 0 n) <= sum_over hi (seq 0 n))%Z).
      { assert (G : forall k, (forall j, In j k -> j < n) -> (sum_over lo k <= sum_over (fun j => sum_over gauge_delta (ws j)) k <= sum_over hi k)%Z).
        { induction k as [|j k IH]; intros X; [cbn; lia|]. destruct (WS j) as [W1 W2]. pose proof (B j (ws j) (X j (or_introl eq_refl)) W1 W2).
          specialize (IH (fun q Q => X q (or_intror Q))). unfold sum_over in *. cbn [fold_right]. lia. }
        apply G. intros j I. apply in_seq in I. lia. }
      rewrite to_i64_small by lia. exact LE.
    Qed.

    (** Things counted up when they begin and down when they end. *)
    Theorem gauge_in_flight :
      (forall j p, j < n -> initial p (writes_begun w gauge_code P gauge_writes g (s0 ++ s1) j) -> (0 <= sum_over gauge_delta p <= 1)%Z) ->
      (Z.of_nat n < 2 ^ 63)%Z -> (0 <= r <= Z.of_nat n)%Z.
    Proof.
      intros B H.
      pose proof (gauge_between (fun _ => 0%Z) (fun _ => 1%Z)) as X. rewrite !sum_const in X. specialize (X (fun j p J _ I => B j p J I)). lia.
    Qed.
  End One.
End Gauges.
