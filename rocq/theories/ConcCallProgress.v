(** Threads making whole calls do not deadlock. *)
From Coq Require Import List NArith ZArith Bool Arith Lia.
From Verif Require Import Base BaseFacts FloatModel MetricModel LabelModel LabelSpec GroupProofs ConcModel ConcSpec ConcProofs ConcTheorems ConcVecModel ConcVecSpec
  ConcVecTheorems ConcLabelModel ConcLabelProofs ConcHandles ConcDenseModel ConcDenseSpec ConcCallModel ConcBoth ConcScript ConcCallSpec ConcCallProofs ConcCallTheorems ConcDenseCallModel
  ConcDenseCallSpec ConcProgressSpec ConcProgress.
Import ListNotations.
Local Open Scope nat_scope.
Local Set Asymmetric Patterns.

(** ** Two objects, one of which never waits *)
Section Both.
  Context {Sh1 Op1 Res1 Mic1 Sh2 Op2 Res2 Mic2 : Type}.
  Variable M1 : machine Sh1 Op1 Res1 Mic1.
  Variable M2 : machine Sh2 Op2 Res2 Mic2.
  Variable sh1 : Sh1.
  Variable sh2 : Sh2.
  Variable prog : program (Op1 + Op2) (Res1 + Res2).
  Notation cfg s := (run (both M1 M2) prog s (start_config (sh1, sh2))).
  Hypothesis goes : forall i ch mic sh, m_step M1 i ch mic sh <> None.
  (** What the threads have begun on the other object can be continued to lists
      without a deadlock; only threads with something left to do continue. *)
  Hypothesis closes : forall s, exists l,
    (forall i, exists t, l i = begun (right_thread (c_th (cfg s) i)) ++ t /\ (t <> [] -> active prog (cfg s) i)) /\
    deadlock_free M2 sh2 (calls l).

  Lemma both_deadlock_free : deadlock_free (both M1 M2) (sh1, sh2) prog.
  Proof.
    intros s c (i & A).
    destruct (parts_more M1 M2 sh1 sh2 prog s [] _ _ _ _ (parts_start M1 M2 sh1 sh2 prog)) as (l1 & t1 & l2 & t2 & _ & _ & PA). cbn [app] in PA.
    destruct PA as [_ [B EX]]. destruct (closes s) as (l & CL & DF).
    assert (X : extends l2 l) by (intros j; destruct (CL j) as (t & E & _); exists t; rewrite E, B; reflexivity).
    destruct (EX l X) as [SH TH]. cbn zeta in SH, TH.
    pose proof (sides M1 M2 sh1 sh2 prog s) as SD. change (cfg s) with c in B, CL, SH, TH, SD.
    (* an active thread either goes on at once or is in a call of the other object *)
    assert (CASES : forall j, active prog c j ->
      (forall ch, enabled (both M1 M2) prog ch c j) \/ exists op mic, t_cur (c_th c j) = Some (inr op, inr mic)).
    { intros j AJ. unfold enabled. destruct (t_cur (c_th c j)) as [[op mic]|] eqn:CUR.
      - destruct (SD j) as [S _]. rewrite CUR in S. destruct op as [op|op], mic as [mic|mic]; try contradiction; [left|eauto].
        intros ch. cbn [m_step both both_step]. pose proof (goes j ch mic (fst (c_sh c))) as G.
        destruct (m_step M1 j ch mic (fst (c_sh c))) as [[? [?|?]]|]; [discriminate..|congruence].
      - left. intros _. destruct AJ as [AJ|AJ]; [congruence|exact AJ]. }
    destruct (CASES i A) as [EN|(op & mic & CUR)]; [eauto|].
    destruct (DF t2) as (j & AJ & EJ).
    { exists i. left. rewrite TH. unfold right_thread, sel_thread. cbn [t_cur]. rewrite CUR. cbn. discriminate. }
    assert (ACT : active prog c j).
    { unfold active in AJ. rewrite TH in AJ. destruct AJ as [AJ|AJ].
      - left. intros E. unfold right_thread, sel_thread in AJ. cbn [t_cur] in AJ. rewrite E in AJ. now apply AJ.
      - destruct (t_cur (c_th c j)) as [p|] eqn:E; [left; congruence|].
        destruct (CL j) as (t & EL & AT). apply AT. intros ->. apply AJ. unfold calls. apply nth_error_None.
        rewrite EL, app_nil_r. unfold begun, right_thread, sel_thread. cbn [t_cur t_done]. rewrite E. cbn. rewrite app_nil_r, map_length. lia. }
    exists j. split; [exact ACT|]. destruct (CASES j ACT) as [EN|(op' & mic' & CUR')]; [exact EN|].
    intros ch. specialize (EJ ch). unfold enabled in *. rewrite TH in EJ. unfold right_thread, sel_thread in EJ. cbn [t_cur] in EJ.
    rewrite CUR' in *. cbn in EJ. rewrite SH in EJ. cbn [m_step both both_step].
    destruct (m_step M2 j ch mic' (snd (c_sh c))) as [[? [?|?]]|]; [discriminate..|congruence].
  Qed.
End Both.

(** ** Dense vecs *)
Theorem dense_calls_free : forall (L : lgset) Sh Op Res Mic V St (w : dense_setup L) (m : metric_code Sh Op Res Mic V) spec (st_new : St) aview
  (P : dense_program L Op Res), lively_metric (mc_machine m) (mc_new m) (mc_view m) spec st_new aview ->
  deadlock_free (shared_dense w m) (tt, dv_new) (follow dense_init (dense_next (dn_cells w) (mc_read m)) dense_adv P).
Proof.
  intros L Sh Op Res Mic V St w m spec st_new aview P LV. apply both_deadlock_free.
  - intros i ch mic sh. cbn. destruct (look_eff _ _ _ _ mic sh). discriminate.
  - intros s. eexists. split; [|eapply dense_deadlock_free, LV]. intros i. exists []. split; [now rewrite app_nil_r|congruence].
Qed.

(** ** Guards after operations *)
Section Turns.
  Context {K Op : Type}.
  (** The guard had after [l], if every operation may follow the ones before. *)
  Fixpoint turn_after (had : option nat) (l : list (vec_op K Op)) : option (option nat) :=
    match l with
    | [] => Some had
    | op :: t =>
      match op, had with
      | SGet h _, None | SOpen h _, None => turn_after (Some h) t
      | SRemove _, None => turn_after None t
      | SUse h _ _, Some h' => if Nat.eqb h h' then turn_after had t else None
      | SDrop h, Some h' => if Nat.eqb h h' then turn_after None t else None
      | _, _ => None
      end
    end.
  Lemma turn_after_app : forall a b had, turn_after had (a ++ b) = match turn_after had a with Some h => turn_after h b | None => None end.
  Proof.
    induction a as [|op a IH]; intros b had; [reflexivity|]. cbn [app turn_after].
    destruct op as [h k|h k u|h|k|h s], had as [h'|]; try reflexivity; try apply IH; destruct (Nat.eqb h h'); try apply IH; reflexivity.
  Qed.
  Lemma turn_after_takes : forall l had, turn_after had l = Some None -> takes_turns had l = true.
  Proof.
    induction l as [|op l IH]; intros had H; cbn [turn_after] in H.
    - injection H as ->. reflexivity.
    - destruct op as [h k|h k u|h|k|h s], had as [h'|]; try discriminate; cbn [takes_turns]; auto; destruct (Nat.eqb h h'); try discriminate; cbn; auto.
  Qed.
  Definition closing (had : option nat) : list (vec_op K Op) := match had with Some h => [SDrop h] | None => [] end.
  Lemma closing_takes : forall l had, turn_after None l = Some had -> takes_turns None (l ++ closing had) = true.
  Proof.
    intros l had H. apply turn_after_takes. rewrite turn_after_app, H. destruct had as [h|]; [|reflexivity]. cbn. now rewrite Nat.eqb_refl.
  Qed.
End Turns.

(** ** Sparse vecs *)
Section Calls.
  Context {Sh Op Res Mic V St : Type}.
  Variable bd : build.
  Variable fields : group_set.
  Variable loc : bytes -> nat.
  Variable accepts : nat -> list bytes -> bytes -> bool.
  Variable shard_of : unique -> nat.
  Variable O : machine Sh Op Res Mic.
  Variable sh_new : Sh.
  Variable view : Sh -> V.
  Variable spec : nat -> Op -> St -> option (St * Res).
  Variable st_new : St.
  Variable aview : St -> V.
  Variable shards : nat.
  Variable read : Op.
  Notation lop := (label_op + vec_op unique Op)%type.
  Notation lres := (label_res + vec_res unique Res V)%type.
  Variable P : nat -> list (vec_call Op * trace lop lres) -> option (vec_call Op).
  Variable m0 : interners.
  Hypothesis sound : sound_set fields.
  Hypothesis ndup : forall l, NoDup (m0 l).
  Hypothesis shaped : calls_shaped fields P.
  Hypothesis lively : lively_metric O sh_new view spec st_new aview.

  Notation Ml := (label_machine bd fields loc accepts).
  Notation Mv := (sparse_machine unique_eqb shard_of O sh_new view).
  Notation next := (call_next shards read).
  Notation prog := (calling (V := V) (Res := Res) shards read P).
  Notation cfg s := (at_time bd fields loc accepts shard_of O sh_new view shards read P m0 s).
  Notation lpath call tr st := (path next (call_adv (V := V)) (call_init call) tr st).
  Notation vops tr := (map fst (rdone (Op := Op) (Res := Res) (V := V) tr)).

  Definition holding (st : call_state Op) : option nat :=
    match st with TUse _ _ | TDrop | TKeys _ _ | TRead _ _ _ | TClose _ => Some 0 | _ => None end.

  Lemma vops_app : forall a b, vops (a ++ b) = vops a ++ vops b.
  Proof. intros a b. unfold rdone. now rewrite sel_done_app, map_app. Qed.

  Lemma path_turns : forall call tr st, lpath call tr st -> fine tr -> returns_all unique_eqb [] (rdone tr) ->
    turn_after None (vops tr) = Some (holding st).
  Proof.
    intros call tr st H. induction H as [|tr st op r H IH N]; intros F R.
    - destruct call; reflexivity.
    - assert (F' : fine tr) by (intros o' r' I; apply F, in_or_app; now left).
      pose proof (F op r ltac:(apply in_or_app; right; now left)) as Fd. clear F.
      assert (R' := R). unfold rdone in R'. rewrite sel_done_app in R'. apply returns_all_app in R' as [R' Rd].
      destruct (path_tame accepts shards read m0 ndup call tr st H F' R') as [_ G]. unfold rdone in G.
      rewrite vops_app, turn_after_app, (IH F' R'). clear IH F' R H R'.
      destruct st as [g u|k u|k u| |g|k|s|s ks|s k ks|s|s|]; cbn [call_next] in N.
      + injection N as <-. destruct r as [[[k|]| | |]|r]; try contradiction; reflexivity.
      + injection N as <-. cbn [fit] in G. rewrite G in Rd. destruct r as [r|r]; [contradiction|]. cbn in Rd. destruct Rd as [-> _]. reflexivity.
      + injection N as <-. cbn [fit] in G. rewrite G in Rd. destruct r as [r|r]; [contradiction|].
        cbn [sel_done flat_map right_of fst snd app returns_all returns guard_keys find Nat.eqb] in Rd.
        rewrite existsb_in in Rd by now left. destruct Rd as [(x & ->) _]. reflexivity.
      + injection N as <-. destruct G as (ks & G). rewrite G in Rd. destruct r as [r|r]; [contradiction|]. cbn in Rd. destruct Rd as [-> _]. reflexivity.
      + injection N as <-. destruct r as [[[k|]| | |]|r]; try contradiction; reflexivity.
      + injection N as <-. cbn [fit] in G. rewrite G in Rd. destruct r as [r|r]; [contradiction|]. cbn in Rd. destruct Rd as [(v & ->) _]. reflexivity.
      + destruct (Nat.ltb s shards); [|discriminate]. injection N as <-. cbn [fit] in G. rewrite G in Rd. destruct r as [r|r]; [contradiction|].
        cbn in Rd. destruct Rd as [(ks & ->) _]. reflexivity.
      + destruct G as (all & G & IN). rewrite G in Rd. destruct ks as [|k ks]; injection N as <-.
        * destruct r as [r|r]; [contradiction|]. cbn in Rd. destruct Rd as [-> _]. reflexivity.
        * destruct r as [[ | | |]|r]; try contradiction. reflexivity.
      + destruct G as (all & G & IN). rewrite G in Rd. injection N as <-. destruct r as [r|r]; [contradiction|].
        cbn [sel_done flat_map right_of fst snd app returns_all returns guard_keys find Nat.eqb] in Rd.
        rewrite existsb_in in Rd by (apply IN; now left). destruct Rd as [(x & ->) _]. reflexivity.
      + destruct (Nat.ltb s shards); [|discriminate]. injection N as <-. cbn [fit] in G. rewrite G in Rd. destruct r as [r|r]; [contradiction|].
        cbn in Rd. destruct Rd as [(ks & ->) _]. reflexivity.
      + injection N as <-. destruct G as (ks & G). rewrite G in Rd. destruct r as [r|r]; [contradiction|]. cbn in Rd. destruct Rd as [-> _]. reflexivity.
      + discriminate.
  Qed.

  Lemma ended : forall st, next st = None -> holding st = None.
  Proof. intros [g u|k u|k u| |g|k|s|s ks|s k ks|s|s|] H; try discriminate; auto. destruct ks; discriminate. Qed.

  Lemma paths_turns : forall hd tl, (forall call tr, In (call, tr) hd -> exists st, lpath call tr st /\ next st = None) ->
    fine (flat_map snd hd ++ tl) -> returns_all unique_eqb [] (rdone (flat_map snd hd ++ tl)) ->
    turn_after None (vops (flat_map snd hd)) = Some None /\ fine tl /\ returns_all unique_eqb [] (rdone tl).
  Proof.
    induction hd as [|[call tr] hd IH]; intros tl HP HF HR; cbn [flat_map snd app] in *.
    - split; [reflexivity|]. split; assumption.
    - rewrite <- app_assoc in HF, HR. unfold rdone in HR. rewrite sel_done_app in HR. apply returns_all_app in HR as [HR1 HR2].
      destruct (HP call tr (or_introl eq_refl)) as (st & HP1 & HP2).
      assert (F1 : fine tr) by (intros o r I; apply HF, in_or_app; now left).
      destruct (path_tame accepts shards read m0 ndup call tr st HP1 F1 HR1) as [T G].
      assert (G0 : fold_left guards_after (rdone tr) [] = []).
      { unfold fit in G. unfold call_next in HP2. destruct st as [g u|k u|k u| |g|k|x|x ks|x k ks|x|x|]; try discriminate; auto.
        destruct ks; discriminate. }
      unfold rdone in G0. rewrite G0 in HR2.
      destruct (IH tl) as (A & B & E).
      { intros c' t' I. apply HP. now right. }
      { intros o r I. apply HF, in_or_app. now right. }
      { exact HR2. }
      split; [|split; assumption]. rewrite vops_app, turn_after_app, (path_turns _ _ _ HP1 F1 HR1), (ended _ HP2). exact A.
  Qed.

  (** What a thread has begun leaves it with at most the guard of its call. *)
  Lemma begun_turns : forall s i, exists had, turn_after None (begun (rights (cfg s) i)) = Some had /\
    (had <> None -> active prog (cfg s) i).
  Proof.
    intros s i. pose proof (run_good call_init next (call_adv (V := V)) (both Ml Mv) (m0, sv_new) P s i) as [G CUR].
    change (ConcScript.good call_init next call_adv (P i) (t_done (c_th (cfg s) i)) (hist call_init next (call_adv (V := V)) P (cfg s) i)) in G.
    change (match t_cur (c_th (cfg s) i) with Some (op, _) => next_op call_init next (P i) (hist call_init next (call_adv (V := V)) P (cfg s) i) = Some op | None => True end) in CUR.
    destruct G as [D PA C].
    pose proof (lively_good _ _ _ _ _ _ _ _ _ _ _ _ lively) as good.
    pose proof (run_fine bd fields loc accepts shard_of O sh_new view spec st_new aview shards read P m0 sound ndup shaped good s i) as F.
    pose proof (right_returns bd fields loc accepts shard_of O sh_new view spec st_new aview shards read P m0 ndup shaped good s i) as R.
    pose proof (sides Ml Mv m0 sv_new prog s i) as [SD _]. change (c_th (run (both Ml Mv) prog s (start_config (m0, sv_new))) i) with (c_th (cfg s) i) in SD.
    unfold rights, right_thread, sel_thread in R |- *. cbn [t_done] in R. unfold begun. cbn [t_done t_cur].
    remember (hist call_init next (call_adv (V := V)) P (cfg s) i) as hs eqn:HS.
    rewrite D in F, R.
    destruct (paths_turns (h_done hs) (cur_trace hs)) as (TA & FT & RT); [intros call tr I; apply PA in I; apply I|exact F|exact R|].
    assert (TD : turn_after None (vops (t_done (c_th (cfg s) i))) = Some (match h_cur hs with Some (_, st, _) => holding st | None => None end)).
    { rewrite D, vops_app, turn_after_app, TA. unfold cur_trace in *. destruct (h_cur hs) as [[[call st] tr]|]; [|reflexivity].
      destruct C as (C1 & _). exact (path_turns _ _ _ C1 FT RT). }
    rewrite turn_after_app. unfold rdone in TD. rewrite TD.
    destruct (t_cur (c_th (cfg s) i)) as [[op mic]|] eqn:TC.
    - assert (ACT : active prog (cfg s) i) by (left; congruence).
      destruct op as [op|op], mic as [mic|mic]; try contradiction; cbn [right_of].
      + eexists. split; [reflexivity|auto].
      + unfold next_op in CUR. destruct (h_cur hs) as [[[call st] tr]|].
        * destruct st as [g u|k u|k u| |g|k|x|x ks|x k ks|x|x|]; cbn [call_next] in CUR; try discriminate.
          -- injection CUR as <-. cbn. eauto.
          -- injection CUR as <-. cbn. eauto.
          -- injection CUR as <-. cbn. eauto.
          -- injection CUR as <-. cbn. eauto.
          -- destruct (Nat.ltb x shards); [|discriminate]. injection CUR as <-. cbn. eauto.
          -- destruct ks; [|discriminate]. injection CUR as <-. cbn. eauto.
          -- injection CUR as <-. cbn. eauto.
          -- destruct (Nat.ltb x shards); [|discriminate]. injection CUR as <-. cbn. eauto.
          -- injection CUR as <-. cbn. eauto.
        * destruct (P i (h_done hs)) as [[g u|g| |]|]; cbn [call_init call_next] in CUR; try discriminate;
            (destruct (Nat.ltb 0 shards); [|discriminate]); injection CUR as <-; cbn; eauto.
    - eexists. split; [reflexivity|]. intros NN. right. unfold calling, follow. unfold hist in HS. rewrite <- HS.
      destruct (h_cur hs) as [[[call st] tr]|]; [|congruence]. apply C.
  Qed.

  Lemma calls_free : deadlock_free (both Ml Mv) (m0, sv_new) prog.
  Proof.
    apply both_deadlock_free.
    - intros i ch mic m E. exact (eq_ind (Some _) (fun x => if x then True else False) I None E).
    - intros s.
      exists (fun i => begun (rights (cfg s) i) ++ match turn_after None (begun (rights (cfg s) i)) with Some had => closing had | None => [] end).
      split.
      + intros i. eexists. split; [reflexivity|]. destruct (begun_turns s i) as (had & -> & A). intros NN. apply A. intros ->. now apply NN.
      + eapply sparse_deadlock_free; [exact unique_eqb_spec|exact lively|]. apply takes_turns_one_guard. intros i.
        destruct (begun_turns s i) as (had & E & _). rewrite E. now apply closing_takes.
  Qed.
End Calls.

Theorem sparse_calls_free : forall Sh Op Res Mic V St w (m : metric_code Sh Op Res Mic V) spec (st_new : St) aview (P : call_program Op Res V),
  setup_ok w -> calls_shaped (su_fields w) P -> lively_metric (mc_machine m) (mc_new m) (mc_view m) spec st_new aview ->
  deadlock_free
    (shared_vec (su_build w) (su_fields w) (su_loc w) (su_accepts w) (su_shard_of w) (mc_machine m) (mc_new m) (mc_view m))
    (su_strings w, sv_new) (calling (su_shards w) (mc_read m) P).
Proof.
  intros Sh Op Res Mic V St w m spec st_new aview P [S N] SH LV. eapply calls_free; eassumption.
Qed.
