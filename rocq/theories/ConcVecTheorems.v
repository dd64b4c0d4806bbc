(** Sparse vecs under concurrency: consequences (C53). *)
From Coq Require Import List NArith ZArith Bool Arith Lia ZifyBool ZifyN ZifyNat.
From Verif Require Import Base FloatModel MetricModel MetricProofs ConcModel ConcSpec ConcProofs ConcHist ConcTheorems ConcLock
  ConcVecModel ConcVecSpec ConcVec.
Import ListNotations.
Local Open Scope nat_scope.

Section Legal.
  Context {K Op Res V St : Type}.
  Variable keqb : K -> K -> bool.
  Hypothesis keqb_eq : forall x y, keqb x y = true <-> x = y.
  Variable shard_of : K -> nat.
  Variable spec : nat -> Op -> St -> option (St * Res).
  Variable st_new : St.
  Variable aview : St -> V.

  Notation avec := (avec K St).
  Notation vop := (vec_op K Op).
  Notation vres := (vec_res K Res V).
  Notation vspec := (vec_spec keqb shard_of spec st_new aview).

  Let refl : forall x, keqb x x = true := keqb_refl keqb keqb_eq.
  Let neq : forall x y, keqb x y = false <-> x <> y := keqb_neq keqb keqb_eq.

  Record av_ok (a : avec) : Prop := {
    ao_home : forall s p, In p (a_tab a s) -> shard_of (fst p) = s;
    ao_keys : forall s, NoDup (map fst (a_tab a s));
    ao_guards : forall i h s ks k, In (i, h, s, ks) (a_guards a) -> In k ks -> shard_of k = s
  }.

  Lemma av_ok_new : av_ok av_new.
  Proof. split; cbn; intros; try contradiction. constructor. Qed.

  Lemma aget_in : forall k x (t : list (K * St)), aget keqb k t = Some x -> In (k, x) t.
  Proof.
    intros k x t H. unfold aget in H. destruct (find _ t) as [[k' y]|] eqn:F; [|discriminate]. inversion H; subst.
    apply find_some in F as [I E]. cbn in E. apply keqb_eq in E. now subst.
  Qed.
  Lemma aget_none : forall k (t : list (K * St)), aget keqb k t = None -> ~ In k (map fst t).
  Proof.
    intros k t H I. unfold aget in H. destruct (find _ t) as [[k' y]|] eqn:F; [discriminate|].
    apply in_map_iff in I as (p & <- & I). eapply find_none in F; [|exact I]. cbn in F. rewrite refl in F. discriminate.
  Qed.
  Lemma aget_some : forall k (t : list (K * St)), In k (map fst t) -> exists x, aget keqb k t = Some x.
  Proof. intros k t I. destruct (aget keqb k t) as [x|] eqn:E; [eauto|]. now apply aget_none in E. Qed.
  Lemma aset_keys : forall k x (t : list (K * St)), map fst (aset keqb k x t) = map fst t.
  Proof. intros k x t. unfold aset. rewrite map_map. apply map_ext. intros p. now destruct (keqb (fst p) k). Qed.
  Lemma aget_aset : forall k x y (t : list (K * St)) k', aget keqb k t = Some y ->
    aget keqb k' (aset keqb k x t) = if keqb k k' then Some x else aget keqb k' t.
  Proof.
    intros k x y t k' H. unfold aget, aset in *. induction t as [|[q z] t IH]; cbn in *; [discriminate|].
    destruct (keqb q k) eqn:QK; cbn [fst].
    - apply keqb_eq in QK. subst q. destruct (keqb k k') eqn:KK; [reflexivity|].
      clear - KK keqb_eq. induction t as [|[q z] t IH]; cbn; [reflexivity|].
      destruct (keqb q k) eqn:QK; cbn [fst].
      + apply keqb_eq in QK. subst q. rewrite KK. exact IH.
      + destruct (keqb q k'); [reflexivity|exact IH].
    - destruct (keqb q k') eqn:QK'; [|apply IH; exact H].
      destruct (keqb k k') eqn:KK; [|reflexivity]. apply keqb_eq in KK, QK'. subst. now rewrite refl in QK.
  Qed.
  Lemma aget_adel : forall k (t : list (K * St)) k',
    aget keqb k' (adel keqb k t) = if keqb k k' then None else aget keqb k' t.
  Proof.
    intros k t k'. unfold aget, adel. induction t as [|[q z] t IH]; cbn; [now destruct (keqb k k')|].
    destruct (keqb q k) eqn:QK; cbn [negb find fst].
    - rewrite IH. apply keqb_eq in QK. subst q. now destruct (keqb k k').
    - destruct (keqb q k') eqn:QK'; [|exact IH].
      destruct (keqb k k') eqn:KK; [|reflexivity]. apply keqb_eq in KK, QK'. subst. now rewrite refl in QK.
  Qed.
  Lemma aget_snoc : forall k x (t : list (K * St)) k', aget keqb k t = None ->
    aget keqb k' (t ++ [(k, x)]) = if keqb k k' then Some x else aget keqb k' t.
  Proof.
    intros k x t k' H. unfold aget in *. induction t as [|[q z] t IH]; cbn in *; [now destruct (keqb k k')|].
    destruct (keqb q k) eqn:QK; [discriminate|]. destruct (keqb q k') eqn:QK'; [|apply IH; exact H].
    destruct (keqb k k') eqn:KK; [|reflexivity]. apply keqb_eq in KK, QK'. subst. now rewrite refl in QK.
  Qed.

  Lemma ag_find_in : forall i h (a : avec) i' h' s ks, ag_find i h a = Some (i', h', s, ks) ->
    i' = i /\ h' = h /\ In (i, h, s, ks) (a_guards a).
  Proof.
    intros i h a i' h' s ks F. unfold ag_find in F. apply find_some in F as [I E]. cbn in E. apply andb_prop in E as [E1 E2].
    apply Nat.eqb_eq in E1, E2. subst. auto.
  Qed.

  Lemma spec_ok : forall i op a a' r, av_ok a -> vspec i op a = Some (a', r) -> av_ok a'.
  Proof.
    intros i op a a' r [H N G] E. destruct op as [h k|h k u|h|k|h s]; cbn [vec_spec] in E.
    - destruct (ag_find i h a); [inversion E; subst; now split|].
      destruct (aget keqb k (a_tab a (shard_of k))) eqn:AG.
      + inversion E; subst. split; cbn; auto. intros i' h' s' ks k' [X|X]; [|eauto]. inversion X; subst. intros [<-|[]]. reflexivity.
      + destruct (guarded (shard_of k) a); [discriminate|]. inversion E; subst. split; cbn.
        * intros s p. unfold upd. destruct (Nat.eqb_spec s (shard_of k)) as [->|]; [|apply H].
          rewrite in_app_iff. intros [X|[<-|[]]]; [now apply H|reflexivity].
        * intros s. unfold upd. destruct (Nat.eqb_spec s (shard_of k)) as [->|]; [|apply N].
          apply NoDup_map_snoc; [apply N|]. now apply aget_none.
        * intros i' h' s' ks k' [X|X]; [|eauto]. inversion X; subst. intros [<-|[]]. reflexivity.
    - destruct (ag_find i h a) as [[[[i' h'] s] ks]|]; [|inversion E; subst; now split].
      destruct (existsb _ ks); [|inversion E; subst; now split].
      destruct (aget keqb k (a_tab a s)) eqn:AG; [|discriminate]. destruct (spec i u s0) as [[x' r']|]; [|discriminate].
      inversion E; subst. split; cbn; auto.
      + intros s' p. unfold upd. destruct (Nat.eqb_spec s' s) as [->|]; [|apply H]. intros I.
        assert (J : In (fst p) (map fst (a_tab a s))) by (rewrite <- (aset_keys k x'); now apply in_map).
        apply in_map_iff in J as (q & <- & J). now apply H.
      + intros s'. unfold upd. destruct (Nat.eqb_spec s' s) as [->|]; [|apply N]. rewrite aset_keys. apply N.
    - destruct (ag_find i h a); inversion E; subst; [|now split]. split; cbn; auto.
      intros i' h' s' ks k' X. apply filter_In in X as [X _]. eauto.
    - destruct (guarded (shard_of k) a); [discriminate|]. inversion E; subst. split; cbn; auto.
      + intros s' p. unfold upd. destruct (Nat.eqb_spec s' (shard_of k)) as [->|]; [|apply H].
        unfold adel. intros I. apply filter_In in I as [I _]. now apply H.
      + intros s'. unfold upd. destruct (Nat.eqb_spec s' (shard_of k)) as [->|]; [|apply N]. apply NoDup_map_filter, N.
    - destruct (ag_find i h a); inversion E; subst; [now split|]. split; cbn; auto.
      intros i' h' s' ks k' [X|X]; [|eauto]. inversion X; subst. intros I. apply in_map_iff in I as (p & <- & I). now apply H.
  Qed.

  (** What a call does to the metric of [k]. *)
  Lemma spec_key : forall i op a a' r k, av_ok a -> vspec i op a = Some (a', r) ->
    let g b := aget keqb k (a_tab b (shard_of k)) in
    match op, r with
    | SGet _ k', RUnit => if keqb k' k then g a' = Some (match g a with Some x => x | None => st_new end) else g a' = g a
    | SUse _ k' u, RVal r => if keqb k' k then exists x x', g a = Some x /\ spec i u x = Some (x', r) /\ g a' = Some x' else g a' = g a
    | SRemove k', RRemoved v =>
        if keqb k' k then g a' = None /\ v = option_map aview (g a) else g a' = g a
    | SGet _ _, RBad | SUse _ _ _, RBad | SDrop _, (RUnit | RBad) | SOpen _ _, RBad => g a' = g a
    | SOpen _ s, RKeys ks => g a' = g a /\ ks = map fst (a_tab a s)
    | _, _ => False
    end.
  Proof.
    intros i op a a' r k OK E g. destruct op as [h k'|h k' u|h|k'|h s]; cbn [vec_spec] in E.
    - destruct (ag_find i h a); [inversion E; subst; reflexivity|].
      destruct (aget keqb k' (a_tab a (shard_of k'))) eqn:AG.
      + inversion E; subst. unfold g. cbn. destruct (keqb k' k) eqn:KK; [|reflexivity]. apply keqb_eq in KK. subst. now rewrite AG.
      + destruct (guarded (shard_of k') a); [discriminate|]. inversion E; subst. unfold g. cbn.
        unfold upd. destruct (keqb k' k) eqn:KK.
        * apply keqb_eq in KK. subst. rewrite Nat.eqb_refl, AG. rewrite aget_snoc by exact AG. now rewrite refl.
        * destruct (Nat.eqb_spec (shard_of k) (shard_of k')) as [->|]; [|reflexivity]. rewrite aget_snoc by exact AG. now rewrite KK.
    - destruct (ag_find i h a) as [[[[i' h'] s] ks]|] eqn:AF; [|inversion E; subst; reflexivity].
      destruct (existsb (fun q => keqb q k') ks) eqn:EX; [|inversion E; subst; reflexivity].
      destruct (aget keqb k' (a_tab a s)) as [x|] eqn:AG; [|discriminate]. destruct (spec i u x) as [[x' r']|] eqn:SP; [|discriminate].
      inversion E; subst. apply ag_find_in in AF as (-> & -> & I).
      assert (HS : shard_of k' = s).
      { apply existsb_exists in EX as (q & Q & QE). apply keqb_eq in QE. subst q. eapply (ao_guards _ OK); eauto. }
      subst s. unfold g. cbn. unfold upd. destruct (keqb k' k) eqn:KK.
      + apply keqb_eq in KK. subst k'. exists x, x'. rewrite Nat.eqb_refl. rewrite (aget_aset _ _ x) by exact AG. now rewrite refl.
      + destruct (Nat.eqb_spec (shard_of k) (shard_of k')) as [->|]; [|reflexivity]. rewrite (aget_aset _ _ x) by exact AG. now rewrite KK.
    - destruct (ag_find i h a); inversion E; subst; reflexivity.
    - destruct (guarded (shard_of k') a); [discriminate|]. inversion E; subst. unfold g. cbn. unfold upd. destruct (keqb k' k) eqn:KK.
      + apply keqb_eq in KK. subst k'. rewrite Nat.eqb_refl, aget_adel, refl. split; [reflexivity|].
        now destruct (aget keqb k (a_tab a (shard_of k))).
      + destruct (Nat.eqb_spec (shard_of k) (shard_of k')) as [->|]; [|reflexivity]. rewrite aget_adel. now rewrite KK.
    - destruct (ag_find i h a); inversion E; subst; [reflexivity|]. split; reflexivity.
  Qed.

  Lemma legal_ok : forall a log a', av_ok a -> legal vspec a log a' -> av_ok a'.
  Proof. intros a log a' OK H. induction H; auto. apply IHlegal. eapply spec_ok; eauto. Qed.

  (** Every result is one of these. *)
  Lemma legal_results : forall a log a', av_ok a -> legal vspec a log a' -> forall i op r, In (i, op, r) log -> r <> RPanic /\ r <> RDangling.
  Proof.
    intros a log a' OK H. induction H as [s|s i op r s' log s'' E H IH]; intros j op' r'; [intros []|intros [X|X]].
    - inversion X; subst. destruct op'; cbn [vec_spec] in E;
        repeat match type of E with context [match ?x with _ => _ end] => destruct x; try discriminate end;
        inversion E; subst; split; discriminate.
    - apply (IH (spec_ok _ _ _ _ _ OK E) _ _ _ X).
  Qed.

  Lemma legal_rev : forall Op' Res' St' (sp : nat -> Op' -> St' -> option (St' * Res')) a log i op r a',
    legal sp a (log ++ [(i, op, r)]) a' -> exists a1, legal sp a log a1 /\ sp i op a1 = Some (a', r).
  Proof.
    intros Op' Res' St' sp a log i op r a' H. apply legal_app in H as (a1 & H1 & H2). exists a1. split; [exact H1|].
    inversion H2; subst. match goal with X : legal _ _ [] _ |- _ => inversion X; subst end. assumption.
  Qed.

  Lemma present_snoc : forall k log i (op : vop) (r : vres), present keqb k (log ++ [(i, op, r)]) =
    match op, r with
    | SGet _ k', RUnit => keqb k' k || present keqb k log
    | SRemove k', _ => negb (keqb k' k) && present keqb k log
    | _, _ => present keqb k log
    end.
  Proof. intros k log i op r. unfold present. rewrite fold_left_app. now destruct op, r. Qed.
  Lemma life_snoc : forall k log i (op : vop) (r : vres), life keqb k (log ++ [(i, op, r)]) =
    match op, r with
    | SUse _ k' u, RVal r => if keqb k' k then life keqb k log ++ [(i, u, r)] else life keqb k log
    | SRemove k', _ => if keqb k' k then [] else life keqb k log
    | _, _ => life keqb k log
    end.
  Proof. intros k log i op r. unfold life. rewrite fold_left_app. now destruct op, r. Qed.

  (** The metric of a key is what the calls on it since its creation make it. *)
  Lemma legal_life : forall k log a, legal vspec av_new log a ->
    match aget keqb k (a_tab a (shard_of k)) with
    | Some x => present keqb k log = true /\ legal spec st_new (life keqb k log) x
    | None => present keqb k log = false /\ life keqb k log = []
    end.
  Proof.
    intros k log. induction log as [|[[i op] r] log IH] using rev_ind; intros a H.
    - inversion H; subst. cbn. auto.
    - apply legal_rev in H as (a1 & H1 & E). specialize (IH _ H1).
      pose proof (legal_ok _ _ _ av_ok_new H1) as OK. pose proof (spec_key _ _ _ _ _ k OK E) as SK. cbn zeta in SK.
      rewrite present_snoc, life_snoc.
      destruct op as [h k'|h k' u|h|k'|h s], r as [| |r|v| | |]; try contradiction; try (rewrite SK; exact IH).
      + destruct (keqb k' k); cbn [orb]; [|rewrite SK; exact IH]. rewrite SK.
        destruct (aget keqb k (a_tab a1 (shard_of k))) as [x|]; [tauto|]. destruct IH as [_ ->]. split; [reflexivity|constructor].
      + destruct (keqb k' k); [|rewrite SK; exact IH]. destruct SK as (x & x' & A1 & A2 & ->). rewrite A1 in IH. split; [tauto|].
        eapply legal_snoc; [exact (proj2 IH)|exact A2].
      + destruct (keqb k' k); cbn [negb andb]; [destruct SK as [-> _]; auto|rewrite SK; exact IH].
      + destruct SK as [-> _]. exact IH.
  Qed.

  (** *** Amounts *)
  Section Amount.
    Variable m : Z.
    Hypothesis m_pos : (m <> 0)%Z.
    Variable mu : St -> Z.
    Variable add : Op -> Res -> Z.
    Variable amount : V -> Z.
    Hypothesis mu_new : mu st_new = 0%Z.
    Hypothesis mu_view : forall x, amount (aview x) = mu x.
    Hypothesis mu_step : forall i u x x' r, spec i u x = Some (x', r) -> ((mu x') mod m = (mu x + add u r) mod m)%Z.

    Definition amount_of (k : K) (a : avec) : Z :=
      match aget keqb k (a_tab a (shard_of k)) with Some x => mu x | None => 0%Z end.

    Lemma legal_amount : forall k log a, legal vspec av_new log a ->
      (amount_of k a mod m = sum_over (fun e => vec_flow keqb add amount k (snd (fst e), snd e)) log mod m)%Z.
    Proof.
      intros k log. induction log as [|[[i op] r] log IH] using rev_ind; intros a H.
      - inversion H; subst. reflexivity.
      - apply legal_rev in H as (a1 & H1 & E). specialize (IH _ H1).
        pose proof (legal_ok _ _ _ av_ok_new H1) as OK. pose proof (spec_key _ _ _ _ _ k OK E) as SK. cbn zeta in SK.
        rewrite sum_over_app.
        pose (X := sum_over (fun e : @entry vop vres => vec_flow keqb add amount k (snd (fst e), snd e)) log). change (amount_of k a1 mod m = X mod m)%Z in IH.
        change (amount_of k a mod m = (X + (vec_flow keqb add amount k (op, r) + 0)) mod m)%Z. clearbody X. rewrite Z.add_0_r.
        assert (SAME : aget keqb k (a_tab a (shard_of k)) = aget keqb k (a_tab a1 (shard_of k)) -> (amount_of k a mod m = (X + 0) mod m)%Z).
        { intros EQ. unfold amount_of in *. rewrite EQ, Z.add_0_r. exact IH. }
        destruct op as [h k'|h k' u|h|k'|h s], r as [| |r|v| | |]; cbn [vec_flow]; try contradiction; auto.
        + destruct (keqb k' k); [|auto]. unfold amount_of in *. rewrite SK, Z.add_0_r.
          destruct (aget keqb k (a_tab a1 (shard_of k))); [exact IH|]. now rewrite mu_new.
        + destruct (keqb k' k); [|auto]. destruct SK as (x & x' & A1 & A2 & A3). unfold amount_of in *. rewrite A3, A1 in *.
          rewrite (mu_step _ _ _ _ _ A2). rewrite <- (Z.add_mod_idemp_l X) by exact m_pos. rewrite <- IH.
          now rewrite Z.add_mod_idemp_l by exact m_pos.
        + destruct (keqb k' k); [|destruct v; auto]. destruct SK as [A1 ->]. unfold amount_of in *. rewrite A1.
          destruct (aget keqb k (a_tab a1 (shard_of k))) as [x|]; cbn [option_map].
          * rewrite mu_view. rewrite <- (Z.add_mod_idemp_l X) by exact m_pos. rewrite <- IH.
            rewrite Z.add_mod_idemp_l by exact m_pos. now rewrite Z.add_opp_diag_r.
          * now rewrite Z.add_0_r.
        + apply SAME. apply SK.
    Qed.
  End Amount.

  (** A shard with a guard loses nothing: before the removal the guard is dropped. *)
  Lemma guard_stays : forall log a a' i h s ks, legal vspec a log a' -> ag_find i h a = Some (i, h, s, ks) ->
    (forall r, ~ In (i, SDrop h, r) log) -> ag_find i h a' = Some (i, h, s, ks).
  Proof.
    intros log a a' i h s ks H. induction H as [a|a j op r a1 log a' E H IH]; intros F ND; [exact F|].
    apply IH; [|intros r' X; apply (ND r'); now right]. clear IH H.
    assert (GA : forall g, ag_find i h (with_guard g a) = if ag_is i h g then Some g else ag_find i h a) by reflexivity.
    destruct op as [h' k|h' k u|h'|k|h' s']; cbn [vec_spec] in E.
    - destruct (ag_find j h' a) eqn:AF; [inversion E; subst; exact F|].
      assert (NE : ag_is i h (j, h', shard_of k, [k]) = false).
      { cbn. destruct (Nat.eqb_spec j i) as [->|]; [|reflexivity]. destruct (Nat.eqb_spec h' h) as [->|]; [|reflexivity]. congruence. }
      destruct (aget keqb k (a_tab a (shard_of k))).
      + inversion E; subst. rewrite GA, NE. exact F.
      + destruct (guarded (shard_of k) a); [discriminate|]. inversion E; subst.
        unfold ag_find, with_guard. cbn [a_guards find]. rewrite NE. exact F.
    - destruct (ag_find j h' a) as [[[[i' h''] s''] ks']|]; [|inversion E; subst; exact F].
      destruct (existsb _ _); [|inversion E; subst; exact F].
      destruct (aget keqb k (a_tab a s'')); [|discriminate]. destruct (spec j u s0) as [[x' r']|]; [|discriminate].
      inversion E; subst. exact F.
    - destruct (ag_find j h' a) eqn:AF; inversion E; subst; [|exact F].
      assert (NE : ~ (j = i /\ h' = h)) by (intros [-> ->]; apply (ND RUnit); now left).
      unfold ag_find in *. cbn [a_guards]. clear - F NE. induction (a_guards a) as [|[[[i' h''] s''] ks'] gs IH]; cbn in *; [discriminate|].
      destruct (Nat.eqb_spec i' i) as [->|NI]; cbn [andb] in F.
      + destruct (Nat.eqb_spec h'' h) as [->|NH].
        * inversion F; subst. assert (B : (Nat.eqb i j && Nat.eqb h h')%bool = false).
          { destruct (Nat.eqb_spec i j), (Nat.eqb_spec h h'); try reflexivity. exfalso. apply NE. auto. }
          rewrite B. cbn. now rewrite !Nat.eqb_refl.
        * destruct (Nat.eqb i j && Nat.eqb h'' h')%bool; cbn; [now apply IH|]. rewrite Nat.eqb_refl.
          destruct (Nat.eqb_spec h'' h); [contradiction|]. cbn. now apply IH.
      + destruct (Nat.eqb i' j && Nat.eqb h'' h')%bool; cbn; [now apply IH|].
        destruct (Nat.eqb_spec i' i); [contradiction|]. cbn. now apply IH.
    - destruct (guarded (shard_of k) a); [discriminate|]. inversion E; subst. exact F.
    - destruct (ag_find j h' a) eqn:AF; inversion E; subst; [exact F|].
      assert (NE : ag_is i h (j, h', s', map fst (a_tab a s')) = false).
      { cbn. destruct (Nat.eqb_spec j i) as [->|]; [|reflexivity]. destruct (Nat.eqb_spec h' h) as [->|]; [|reflexivity]. congruence. }
      rewrite GA, NE. exact F.
  Qed.

  Lemma get_guard : forall i h k a a', vspec i (SGet h k) a = Some (a', RUnit) -> ag_find i h a' = Some (i, h, shard_of k, [k]).
  Proof.
    intros i h k a a' E. cbn [vec_spec] in E. destruct (ag_find i h a); [discriminate|].
    destruct (aget keqb k (a_tab a (shard_of k))); [|destruct (guarded (shard_of k) a); [discriminate|]];
      inversion E; subst; unfold ag_find; cbn; now rewrite !Nat.eqb_refl.
  Qed.

  Lemma legal_protects : forall pre i h k mid j k' r post a a',
    legal vspec a (pre ++ (i, SGet h k, RUnit) :: mid ++ (j, SRemove k', r) :: post) a' -> shard_of k' = shard_of k ->
    exists r', In (i, SDrop h, r') mid.
  Proof.
    intros pre i h k mid j k' r post a a' H HS. apply legal_app in H as (a1 & _ & H).
    inversion H as [|s i0 op r0 a2 log s'' E H' EQ]; subst. apply legal_app in H' as (a3 & H1 & H2).
    inversion H2 as [|s i1 op1 r1 a4 log1 s1 E1 H3 EQ]; subst.
    destruct (existsb (fun e => match e with (i', SDrop h', _) => Nat.eqb i' i && Nat.eqb h' h | _ => false end) mid) eqn:EX.
    - apply existsb_exists in EX as ([[i' op'] r'] & IN & B). destruct op'; try discriminate. apply andb_prop in B as [B1 B2].
      apply Nat.eqb_eq in B1, B2. subst. eauto.
    - exfalso. pose proof (guard_stays _ _ _ _ _ _ _ H1 (get_guard _ _ _ _ _ E)) as F.
      assert (ND : forall r, ~ In (i, SDrop h, r) mid).
      { intros r' IN. assert (existsb (fun e => match e with (i', SDrop h', _) => Nat.eqb i' i && Nat.eqb h' h | _ => false end) mid = true); [|congruence].
        apply existsb_exists. exists (i, SDrop h, r'). split; [exact IN|]. now rewrite !Nat.eqb_refl. }
      specialize (F ND). cbn [vec_spec] in E1. destruct (guarded (shard_of k') a3) eqn:G; [discriminate|].
      apply ag_find_in in F as (_ & _ & IN). unfold guarded in G.
      assert (existsb (fun g : @aguard K => let '(_, _, s', _) := g in Nat.eqb s' (shard_of k')) (a_guards a3) = true); [|congruence].
      apply existsb_exists. exists (i, h, shard_of k, [k]). split; [exact IN|]. rewrite HS. apply Nat.eqb_refl.
  Qed.

  (** Opening a shard gives the keys of all its metrics, each once. *)
  Lemma legal_open : forall pre i h s ks post a',
    legal vspec av_new (pre ++ (i, SOpen h s, RKeys ks) :: post) a' ->
    NoDup ks /\ forall k, In k ks <-> shard_of k = s /\ present keqb k pre = true.
  Proof.
    intros pre i h s ks post a' H. apply legal_app in H as (a1 & H1 & H). inversion H as [|s0 i0 op r0 a2 log s'' E H' EQ]; subst.
    pose proof (legal_ok _ _ _ av_ok_new H1) as OK. cbn [vec_spec] in E. destruct (ag_find i h a1); [discriminate|].
    inversion E; subst; clear E. split; [apply (ao_keys _ OK)|]. intros k. pose proof (legal_life k _ _ H1) as LF. split.
    - intros I. apply in_map_iff in I as (p & <- & I). pose proof (ao_home _ OK _ _ I) as HS. split; [exact HS|].
      destruct (aget_some (fst p) (a_tab a1 s)) as [x X]; [now apply in_map|]. rewrite HS, X in LF. tauto.
    - intros [<- P]. destruct (aget keqb k (a_tab a1 (shard_of k))) as [x|] eqn:AG; [|destruct LF; congruence].
      apply aget_in in AG. apply in_map_iff. exists (k, x). auto.
  Qed.

  (** A call on a metric comes after the calls of its life. *)
  Lemma legal_use : forall pre i h k u r post a',
    legal vspec av_new (pre ++ (i, SUse h k u, RVal r) :: post) a' ->
    exists x x', legal spec st_new (life keqb k pre) x /\ spec i u x = Some (x', r).
  Proof.
    intros pre i h k u r post a' H. apply legal_app in H as (a1 & H1 & H). inversion H as [|s0 i0 op r0 a2 log s'' E H' EQ]; subst.
    pose proof (legal_ok _ _ _ av_ok_new H1) as OK. pose proof (spec_key _ _ _ _ _ k OK E) as SK. cbn zeta in SK. cbn in SK.
    rewrite refl in SK. destruct SK as (x & x' & A1 & A2 & A3). pose proof (legal_life k _ _ H1) as LF. rewrite A1 in LF.
    exists x, x'. tauto.
  Qed.
End Legal.

(* ------------------------------------------------------------------ *)
(** ** Any metric *)

Lemma counter_good : forall v0, good_metric counter_machine v0 (fun v => v) (pure_spec counter_eff) v0 (fun v => v).
Proof. intros v0. do 3 eexists. split; [apply atomic_ok|]. intros sh st E. exact E. Qed.
Lemma igauge_good : forall v0, good_metric igauge_machine v0 (fun v => v) (pure_spec igauge_eff) v0 (fun v => v).
Proof. intros v0. do 3 eexists. split; [apply atomic_ok|]. intros sh st E. exact E. Qed.
Lemma float_good : forall v0, good_metric float_machine v0 (fun v => v) float_spec v0 (fun v => v).
Proof. intros v0. do 3 eexists. split; [apply float_ok|]. intros sh st E. exact E. Qed.
Lemma hist_good : forall n, good_metric hist_machine {| ch_lock := rw_free; ch_state := hist_new n |} (fun c => hist_view (ch_state c))
  hist_spec (hist_new n) hist_view.
Proof. intros n. do 3 eexists. split; [apply hist_ok|]. intros sh st [-> _]. reflexivity. Qed.

Section Any.
  Context {K Sh Op Res Mic V St : Type}.
  Variable keqb : K -> K -> bool.
  Hypothesis keqb_eq : forall x y, keqb x y = true <-> x = y.
  Variable shard_of : K -> nat.
  Variable O : machine Sh Op Res Mic.
  Variable sh_new : Sh.
  Variable view : Sh -> V.
  Variable spec : nat -> Op -> St -> option (St * Res).
  Variable st_new : St.
  Variable aview : St -> V.
  Hypothesis good : good_metric O sh_new view spec st_new aview.
  Notation M := (sparse_machine keqb shard_of O sh_new view).
  Notation vspec := (vec_spec keqb shard_of spec st_new aview).

  Definition same_views (c : svec K Sh) (a : avec K St) : Prop :=
    forall k, option_map view (vec_lookup keqb shard_of k c) = option_map aview (aget keqb k (a_tab a (shard_of k))).

  Lemma rep_views : forall (rep : Sh -> St -> Prop) c a, (forall sh st, rep sh st -> view sh = aview st) -> vec_rep rep c a -> same_views c a.
  Proof.
    intros rep c a RV [_ T] k. specialize (T (shard_of k)). unfold vec_lookup, find_key, aget.
    induction T as [|e p t u [E1 E2] T IH]; cbn; [reflexivity|]. rewrite E1. destruct p as [q y]. cbn [fst snd] in *.
    destruct (keqb q k); cbn; [f_equal; now apply RV|exact IH].
  Qed.

  Theorem any_linearizable : forall prog, exists L : schedule -> list (@entry (vec_op K Op) (vec_res K Res V)),
    real_time_order L (fun s => run M prog s (start_config sv_new)) /\
    forall s, let c := run M prog s (start_config sv_new) in
      explains (L s) c /\
      exists a, legal vspec av_new (L s) a /\ (quiescent c -> same_views (c_sh c) a).
  Proof.
    destruct good as (lin & inv & rep & OK & RV). intros prog.
    destruct (linearizable_in_real_time _ _ _ _ _ _ _ _ _ _ (sparse_linearizable keqb keqb_eq shard_of O sh_new view spec st_new aview lin inv rep OK RV) prog)
      as (L & RT & H).
    exists L. split; [exact RT|]. intros s c. destruct (H s) as (E & a & LG & R). split; [exact E|]. exists a. split; [exact LG|].
    intros Q. eapply rep_views; [exact RV|]. exact (R Q).
  Qed.

  Theorem any_structure : forall prog s, let c := c_sh (run M prog s (start_config sv_new)) in
    (forall s e, In e (tab_of s c) -> shard_of (e_key e) = s) /\
    (forall s e e', In e (tab_of s c) -> In e' (tab_of s c) -> e_key e = e_key e' -> e = e') /\
    (forall g k n, In g (v_guards c) -> In (k, n) (g_refs g) ->
       exists e, In e (tab_of (g_shard g) c) /\ e_key e = k /\ e_id e = n).
  Proof.
    destruct good as (lin & inv & rep & OK & RV). intros prog s.
    destruct (object_invariant _ _ _ _ _ _ _ prog s (sparse_ok keqb keqb_eq shard_of O sh_new view spec st_new aview lin inv rep OK RV)) as (g & st & I).
    cbn zeta in I. split; [apply (vi_home _ _ _ _ _ _ I)|]. split; [|apply (vi_refs _ _ _ _ _ _ I)].
    intros s' e e' E1 E2 EQ. eapply (NoDup_map_inj _ _ e_key); eauto. apply (vi_keys _ _ _ _ _ _ I).
  Qed.

  Lemma done_in_log : forall (log : list (@entry (vec_op K Op) (vec_res K Res V))) (c : config (svec K Sh) (vec_op K Op) (vec_res K Res V) (vec_mic K Op Res Mic V)) i op r,
    explains log c -> In (op, r) (t_done (c_th c i)) -> In (i, op, r) log.
  Proof.
    intros log c i op r E I.
    assert (J : In (op, r) (of_thread i log)).
    { destruct (E i) as [->|(op' & mic & r' & _ & ->)]; [exact I|]. apply in_app_iff. now left. }
    unfold of_thread in J. apply in_map_iff in J as ([[i' op'] r'] & X & Y). inversion X; subst.
    apply filter_In in Y as [Y Z]. cbn in Z. apply Nat.eqb_eq in Z. now subst.
  Qed.

  Theorem any_results : forall prog s i op r, In (op, r) (t_done (c_th (run M prog s (start_config sv_new)) i)) ->
    r <> RPanic /\ r <> RDangling.
  Proof.
    intros prog s i op r I. destruct (any_linearizable prog) as (L & _ & H). destruct (H s) as (E & a & LG & _).
    eapply (legal_results keqb keqb_eq); [apply av_ok_new|exact LG|]. eapply done_in_log; eauto.
  Qed.
End Any.

(* ------------------------------------------------------------------ *)
(** ** Sums with results *)

Lemma flow_by_thread : forall Op Res (f : Op * Res -> Z) n (log : list (@entry Op Res)),
  (forall e, In e log -> fst (fst e) < n) ->
  sum_over (fun e => f (snd (fst e), snd e)) log =
  sum_over (fun i => sum_over f (of_thread i log)) (seq 0 n).
Proof.
  intros Op Res f n log. induction log as [|[[i op] r] log IH]; intros H.
  - symmetry. apply sum_over_zero.
  - change (f (op, r) + sum_over (fun e : @entry Op Res => f (snd (fst e), snd e)) log =
            sum_over (fun i0 => sum_over f (of_thread i0 ((i, op, r) :: log))) (seq 0 n))%Z.
    transitivity (f (op, r) + sum_over (fun i => sum_over f (of_thread i log)) (seq 0 n))%Z.
    { apply (f_equal (Z.add (f (op, r)))). apply IH. intros e E; apply H; right; exact E. }
    rewrite <- (sum_delta i n (f (op, r))) at 1 by (apply (H (i, op, r)); left; reflexivity).
    rewrite <- sum_over_add. apply sum_over_ext. intros j _. unfold of_thread. cbn [filter fst].
    destruct (Nat.eqb i j); cbn; reflexivity.
Qed.

Lemma flow_of_log : forall Sh Op Res Mic f (log : list (@entry Op Res)) (c : config Sh Op Res Mic) n,
  explains log c -> quiescent c -> (forall i, n <= i -> t_done (c_th c i) = []) ->
  sum_over (fun e => f (snd (fst e), snd e)) log = total_flow f n c.
Proof.
  intros Sh Op Res Mic f log c n E Q N. rewrite (flow_by_thread _ _ _ n) by (eapply explains_below; eauto).
  unfold total_flow. apply sum_over_ext. intros i _. now rewrite (explains_quiescent _ _ _ _ _ _ E Q).
Qed.

(* ------------------------------------------------------------------ *)
(** ** Counters *)

Lemma counter_step_mod : forall i u x x' r, pure_spec counter_eff i u x = Some (x', r) ->
  (Z.of_N x' mod 2 ^ 64 = (Z.of_N x + counter_delta u) mod 2 ^ 64)%Z.
Proof.
  intros i u x x' r E. unfold pure_spec in E. change (2 ^ 64)%Z with (Z.of_N W64).
  destruct u as [|y|]; cbn [counter_eff counter_delta] in *; inversion E; subst.
  - unfold counter_inc, counter_inc_by, wrap64. now rewrite N2Z.inj_mod, N2Z.inj_add, Z.mod_mod.
  - unfold counter_inc_by, wrap64. now rewrite N2Z.inj_mod, N2Z.inj_add, Z.mod_mod.
  - now rewrite Z.add_0_r.
Qed.

Section Counters.
  Context {K : Type}.
  Variable keqb : K -> K -> bool.
  Hypothesis keqb_eq : forall x y, keqb x y = true <-> x = y.
  Variable shard_of : K -> nat.
  Notation flow := (vec_flow (V := N) keqb (fun u (_ : N) => counter_delta u) Z.of_N).
  Notation vspec := (vec_spec (V := N) keqb shard_of (pure_spec counter_eff) 0%N (fun v => v)).

  Lemma counter_amount : forall k log a, legal vspec av_new log a ->
    Z.of_N (match aget keqb k (a_tab a (shard_of k)) with Some v => v | None => 0 end) =
    (sum_over (fun e => flow k (snd (fst e), snd e)) log mod 2 ^ 64)%Z.
  Proof.
    intros k log a LG.
    pose proof (legal_amount keqb keqb_eq shard_of (pure_spec counter_eff) 0%N (fun v : N => v) (2 ^ 64)%Z ltac:(discriminate) Z.of_N
      (fun u _ => counter_delta u) Z.of_N eq_refl (fun _ => eq_refl) counter_step_mod k log a LG) as A.
    unfold amount_of in A.
    pose proof (legal_life keqb keqb_eq shard_of (pure_spec counter_eff) 0%N (fun v : N => v) k log a LG) as LF.
    etransitivity; [|exact A]. destruct (aget keqb k (a_tab a (shard_of k))) as [v|]; [|reflexivity].
    destruct LF as [_ LF]. apply counter_legal in LF; [|reflexivity]. rewrite LF. now rewrite Z.mod_mod.
  Qed.

  Theorem counter_vec_total : forall prog s n k,
    let c := run (counter_vec keqb shard_of) prog s (start_config sv_new) in
    quiescent c -> (forall i, n <= i -> t_done (c_th c i) = []) ->
    Z.of_N (match vec_lookup keqb shard_of k (c_sh c) with Some v => v | None => 0 end) = (total_flow (flow k) n c mod 2 ^ 64)%Z.
  Proof.
    intros prog s n k c Q N.
    destruct (any_linearizable keqb keqb_eq shard_of _ _ _ _ _ _ (counter_good 0) prog) as (L & _ & H).
    destruct (H s) as (E & a & LG & R). specialize (R Q k). change (explains (L s) c) in E.
    rewrite <- (flow_of_log _ _ _ _ (flow k) _ _ n E Q N).
    rewrite <- (counter_amount k _ _ LG).
    change (option_map (fun v => v) (vec_lookup keqb shard_of k (c_sh c)) = option_map (fun v => v) (aget keqb k (a_tab a (shard_of k)))) in R.
    destruct (vec_lookup keqb shard_of k (c_sh c)), (aget keqb k (a_tab a (shard_of k))); cbn in R; try discriminate; [|reflexivity].
    now inversion R.
  Qed.

  (** Reads, collections and removals, in the order in which the calls took effect. *)
  Theorem counter_vec_order : forall prog, exists L : schedule -> list (@entry (vec_op K counter_op) (vec_res K N N)),
    real_time_order L (fun s => run (counter_vec keqb shard_of) prog s (start_config sv_new)) /\
    forall s, explains (L s) (run (counter_vec keqb shard_of) prog s (start_config sv_new)) /\
      (forall pre i h k r post, L s = pre ++ (i, SUse h k KRead, RVal r) :: post ->
         Z.of_N r = (sum_over (fun e => flow k (snd (fst e), snd e)) pre mod 2 ^ 64)%Z) /\
      (forall pre i h sh ks post, L s = pre ++ (i, SOpen h sh, RKeys ks) :: post ->
         NoDup ks /\ forall k, In k ks <-> shard_of k = sh /\ present keqb k pre = true) /\
      (forall pre i k v post, L s = pre ++ (i, SRemove k, RRemoved v) :: post ->
         match v with
         | Some v => Z.of_N v = (sum_over (fun e => flow k (snd (fst e), snd e)) pre mod 2 ^ 64)%Z
         | None => present keqb k pre = false
         end) /\
      (forall pre i h k mid j k' r post, L s = pre ++ (i, SGet h k, RUnit) :: mid ++ (j, SRemove k', r) :: post ->
         shard_of k' = shard_of k -> exists r', In (i, SDrop h, r') mid).
  Proof.
    intros prog. destruct (any_linearizable keqb keqb_eq shard_of _ _ _ _ _ _ (counter_good 0) prog) as (L & RT & H).
    exists L. split; [exact RT|]. intros s. destruct (H s) as (E & a & LG & _). split; [exact E|]. split; [|split; [|split]].
    - intros pre i h k r post EQ. rewrite EQ in LG. apply legal_app in LG as (a1 & L1 & L2).
      rewrite <- (counter_amount k _ _ L1). inversion L2 as [|s0 i0 op r0 a2 log s'' E2 H' EQ2]; subst.
      pose proof (spec_key keqb keqb_eq shard_of _ _ _ _ _ _ _ _ k (legal_ok keqb keqb_eq shard_of _ _ _ _ _ _ (av_ok_new shard_of) L1) E2) as SK.
      cbn in SK. rewrite (keqb_refl keqb keqb_eq) in SK. destruct SK as (x & x' & A1 & A2 & A3). rewrite A1. now inversion A2.
    - intros pre i h sh ks post EQ. rewrite EQ in LG. exact (legal_open keqb keqb_eq shard_of _ _ _ _ _ _ _ _ _ _ LG).
    - intros pre i k v post EQ. rewrite EQ in LG. apply legal_app in LG as (a1 & L1 & L2).
      pose proof (counter_amount k _ _ L1) as CA. pose proof (legal_life keqb keqb_eq shard_of _ _ _ k _ _ L1) as LF.
      inversion L2 as [|s0 i0 op r0 a2 log s'' E2 H' EQ2]; subst.
      pose proof (spec_key keqb keqb_eq shard_of _ _ _ _ _ _ _ _ k (legal_ok keqb keqb_eq shard_of _ _ _ _ _ _ (av_ok_new shard_of) L1) E2) as SK.
      cbn in SK. rewrite (keqb_refl keqb keqb_eq) in SK. destruct SK as [_ ->].
      destruct (aget keqb k (a_tab a1 (shard_of k))); cbn; [exact CA|tauto].
    - intros pre i h k mid j k' r post EQ HS. rewrite EQ in LG. exact (legal_protects keqb shard_of _ _ _ _ _ _ _ _ _ _ _ _ _ _ LG HS).
  Qed.
End Counters.

(* ------------------------------------------------------------------ *)
(** ** Histograms *)

Lemma sum_update : forall b l, b < length l ->
  ((sum_over Z.of_N (update_nth b (fun c => wrap64 (c + 1)) l)) mod 2 ^ 64 = (sum_over Z.of_N l + 1) mod 2 ^ 64)%Z.
Proof.
  induction b as [|b IH]; intros [|x l] H; cbn [length] in H; try lia; cbn [update_nth].
  - change ((Z.of_N (wrap64 (x + 1)) + sum_over Z.of_N l) mod 2 ^ 64 = (Z.of_N x + sum_over Z.of_N l + 1) mod 2 ^ 64)%Z.
    unfold wrap64. rewrite N2Z.inj_mod, N2Z.inj_add. change (Z.of_N W64) with (2 ^ 64)%Z.
    rewrite Z.add_mod_idemp_l by discriminate. f_equal. lia.
  - change ((Z.of_N x + sum_over Z.of_N (update_nth b (fun c => wrap64 (c + 1)) l)) mod 2 ^ 64 = (Z.of_N x + sum_over Z.of_N l + 1) mod 2 ^ 64)%Z.
    rewrite <- Z.add_mod_idemp_r by discriminate. rewrite IH by lia. rewrite Z.add_mod_idemp_r by discriminate. f_equal. lia.
Qed.

Lemma hist_step_mod : forall i u x x' r, hist_spec i u x = Some (x', r) ->
  (hist_count (hist_view x') mod 2 ^ 64 = (hist_count (hist_view x) + hist_added u r) mod 2 ^ 64)%Z.
Proof.
  intros i u x x' r E. destruct u as [b v|]; cbn [hist_spec] in E.
  - unfold hist_observe in E. destruct (Nat.leb b (length (h_buckets x))).
    + destruct (Nat.ltb_spec b (length (h_buckets x))) as [LT|GE]; inversion E; subst; unfold hist_count, hist_view; cbn [fst snd h_buckets h_inf hist_added].
      * rewrite <- Z.add_mod_idemp_l by discriminate. rewrite sum_update by exact LT. rewrite Z.add_mod_idemp_l by discriminate. f_equal. lia.
      * unfold wrap64. rewrite N2Z.inj_mod, N2Z.inj_add. change (Z.of_N W64) with (2 ^ 64)%Z. rewrite Z.add_mod_idemp_r by discriminate.
        f_equal. lia.
    + inversion E; subst. cbn [hist_added]. now rewrite Z.add_0_r.
  - inversion E; subst. cbn [hist_added]. now rewrite Z.add_0_r.
Qed.

Lemma hist_count_new : forall n, hist_count (hist_view (hist_new n)) = 0%Z.
Proof. intros n. unfold hist_count, hist_view, hist_new, sum_over. cbn. induction n as [|n IH]; cbn in *; [reflexivity|lia]. Qed.

Section Histograms.
  Context {K : Type}.
  Variable keqb : K -> K -> bool.
  Hypothesis keqb_eq : forall x y, keqb x y = true <-> x = y.
  Variable shard_of : K -> nat.
  Variable nb : nat.
  Notation flow := (vec_flow keqb hist_added hist_count).

  Theorem hist_vec_total : forall prog s n k,
    let c := run (hist_vec nb keqb shard_of) prog s (start_config sv_new) in
    quiescent c -> (forall i, n <= i -> t_done (c_th c i) = []) ->
    (match vec_lookup keqb shard_of k (c_sh c) with Some h => hist_count (hist_view (ch_state h)) | None => 0 end mod 2 ^ 64 =
     total_flow (flow k) n c mod 2 ^ 64)%Z.
  Proof.
    intros prog s n k c Q N.
    destruct (any_linearizable keqb keqb_eq shard_of _ _ _ _ _ _ (hist_good nb) prog) as (L & _ & H).
    destruct (H s) as (E & a & LG & R). specialize (R Q k). change (explains (L s) c) in E.
    rewrite <- (flow_of_log _ _ _ _ (flow k) _ _ n E Q N).
    pose proof (legal_amount keqb keqb_eq shard_of hist_spec (hist_new nb) hist_view (2 ^ 64)%Z ltac:(discriminate)
      (fun h => hist_count (hist_view h)) hist_added hist_count (hist_count_new nb) (fun _ => eq_refl) hist_step_mod k _ _ LG) as A.
    unfold amount_of in A. etransitivity; [|exact A]. f_equal.
    change (option_map (fun h => hist_view (ch_state h)) (vec_lookup keqb shard_of k (c_sh c)) =
            option_map hist_view (aget keqb k (a_tab a (shard_of k)))) in R.
    destruct (vec_lookup keqb shard_of k (c_sh c)), (aget keqb k (a_tab a (shard_of k))); cbn in R; try discriminate; [|reflexivity].
    assert (R' : hist_view (ch_state c0) = hist_view h) by congruence. now rewrite R'.
  Qed.

  Lemma life_ops : forall k (log : list (@entry (vec_op K hist_op) (vec_res K hist_res (list N * N * N)))) i u r,
    In (i, u, r) (life keqb k log) -> exists h k', In (i, SUse h k' u, RVal r) log.
  Proof.
    intros k log. induction log as [|[[j op] q] log IH] using rev_ind; intros i u r I; [destruct I|].
    pose proof (life_snoc keqb k log j op q) as LS.
    assert (I' := eq_rect _ (fun l => In (i, u, r) l) I _ LS). clear I LS. rename I' into I. assert (X : In (i, u, r) (life keqb k log) -> exists h k', In (i, SUse h k' u, RVal r) (log ++ [(j, op, q)])).
    { intros J. destruct (IH _ _ _ J) as (h & k' & Y). exists h, k'. apply in_app_iff. now left. }
    destruct op as [h k'|h k' u'|h|k'|h s]; auto.
    - destruct q; auto. destruct (keqb k' k); auto. apply in_app_iff in I as [I|[I|[]]]; auto. inversion I; subst.
      exists h, k'. apply in_app_iff. right. now left.
    - destruct (keqb k' k); [destruct I|auto].
  Qed.

  Theorem hist_vec_snapshots : forall prog, exists L : schedule -> list (@entry (vec_op K hist_op) (vec_res K hist_res (list N * N * N))),
    real_time_order L (fun s => run (hist_vec nb keqb shard_of) prog s (start_config sv_new)) /\
    forall s, explains (L s) (run (hist_vec nb keqb shard_of) prog s (start_config sv_new)) /\
      ((forall i h k b x r, In (i, SUse h k (HObserve b x), r) (L s) -> b <= nb) ->
       forall pre i h k r post, L s = pre ++ (i, SUse h k HSample, RVal r) :: post ->
         exists hs, observe_seq (observations (life keqb k pre)) (hist_new nb) = Done hs /\ r = Some (hist_view hs)).
  Proof.
    intros prog. destruct (any_linearizable keqb keqb_eq shard_of _ _ _ _ _ _ (hist_good nb) prog) as (L & RT & H).
    exists L. split; [exact RT|]. intros s. destruct (H s) as (E & a & LG & _). split; [exact E|].
    intros B pre i h k r post EQ. rewrite EQ in LG. destruct (legal_use keqb keqb_eq shard_of _ _ _ _ _ _ _ _ _ _ _ LG) as (x & x' & LF & SP).
    exists x. split.
    - apply (hist_legal_observe _ _ _ LF). intros j b y q IN. apply life_ops in IN as (h' & k' & IN).
      cbn. rewrite repeat_length. apply (B j h' k' b y (RVal q)). rewrite EQ. apply in_app_iff. now left.
    - cbn in SP. now inversion SP.
  Qed.
End Histograms.
