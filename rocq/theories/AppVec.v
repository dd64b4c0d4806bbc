(** A metric vec over a derived group used step by step: lookups whose ids are
    kept, updates through kept ids, and a label set that learns values from
    elsewhere. *)
From Coq Require Import String List NArith ZArith Bool Lia Permutation.
From Verif Require Import Base BaseFacts Writer NameModel LabelModel LabelSpec LabelProofs GroupProofs LawProofs VecModel VecSpec VecProofs VecTheorems
  FloatModel EncoderModel FamilyModel TextModel TextSpec EncoderSpec EncoderProofs MetricModel ScrapeSpec ScrapeProofs ScrapeVec CallModel EndSpec EndProofs EndTheorems.
Import ListNotations.
Local Open Scope N_scope.

Section Vec.
  Context {bd : build} {A M : Type}.
  Notation L := (derived_lgset bd).
  Variable W : world L M.
  Hypothesis WOK : world_ok W.
  Variable step : M -> A -> M.
  (** The label set as it was made. *)
  Variable s0 : group_set.

  Notation OKS := (fun s => sound_set s /\ set_ext s0 s).
  Notation REL := (rel (w_bd W) (w_hash W) OKS group_valid).

  (** The vec holds what [step] made of the amounts in [l]; [ids] were issued
      for the groups [gs]. *)
  Definition holds (v : metric_vec L M) (ids : list (label_id L)) (gs : list group_val) (l : list (group_val * A)) : Prop :=
    exists a, REL {| cl_vec := v; cl_ids := ids |} a /\ a_groups a = gs /\ (forall g, a_map a g = made (w_default W) step (given g l)).

  Lemma holds_new : forall p v, constructed W p s0 v -> sound_set s0 -> holds v [] [] [].
  Proof.
    intros p v C OK. exists (empty_astate (s0 : lg_state L)).
    split; [|split; [reflexivity|reflexivity]].
    apply (constructed_rel W WOK p s0 v C). split; [exact OK|apply set_ext_refl].
  Qed.

  Lemma holds_set : forall v ids gs l, holds v ids gs l -> sound_set (mv_set v : group_set) /\ set_ext s0 (mv_set v : group_set).
  Proof. intros v ids gs l (a & R & _). exact (rel_ok _ _ _ _ _ _ R). Qed.

  (** Values learned elsewhere *)
  Lemma holds_ext : forall v ids gs l s', holds v ids gs l -> set_ext (mv_set v : group_set) s' ->
    holds {| mv_metrics := mv_metrics v; mv_set := (s' : lg_state L) |} ids gs l.
  Proof.
    intros v ids gs l s' (a & R & G & Mp) X. pose proof R as [OK ES INV SL DOM IDS]. cbn [cl_vec cl_ids] in *.
    assert (OK' : sound_set s' /\ set_ext s0 s').
    { split; [eapply set_ext_sound; [exact X|apply OK]|eapply set_ext_trans; [apply OK|exact X]]. }
    assert (CD : lg_cardinality L s' = lg_cardinality L (mv_set v)) by exact (set_ext_cardinality _ _ X).
    assert (KEEP : forall u, group_valid (mv_set v) u -> group_valid s' u /\ lg_decode L s' u = lg_decode L (mv_set v) u /\
      lg_encode_dense L s' u = lg_encode_dense L (mv_set v) u).
    { intros u V. split; [exact (set_ext_valid _ _ u X V)|]. split; [exact (set_ext_decode bd _ _ u X V)|].
      cbn [lg_encode_dense derived_lgset]. unfold group_encode_dense. pose proof (set_ext_no_dynamics _ _ X) as D.
      destruct (dynamics (mv_set v)) eqn:D1, (dynamics s') eqn:D2; try reflexivity; [discriminate (proj1 D eq_refl)|discriminate (proj2 D eq_refl)]. }
    destruct (slot_grow (w_bd W) (w_hash W) OKS well_shaped group_valid (derived_lawful_from bd s0) v s' {| cl_vec := v; cl_ids := ids |} a R eq_refl OK' CD KEEP) as [INV' SL'].
    exists {| a_set := (s' : lg_state L); a_map := a_map a; a_groups := a_groups a |}.
    split; [|split; [exact G|exact Mp]].
    constructor; cbn [cl_vec cl_ids mv_set mv_metrics a_set a_map a_groups]; auto.
    - intros g m E. destruct (DOM g m E) as (u & V & D). rewrite ES in V, D. exists u. destruct (KEEP u V) as (V' & -> & _). now split.
    - eapply Forall2_impl; [|exact IDS]. intros i g (V & D & K). destruct (KEEP _ V) as (V' & D' & K').
      split; [exact V'|]. split; [cbn [mv_set]; now rewrite D'|]. cbn [mv_metrics mv_set]. destruct (mv_metrics v); [now rewrite K'|exact K].
  Qed.

  Lemma Forall2_nth : forall {X Y} (P : X -> Y -> Prop) l m i x, Forall2 P l m -> nth_error l i = Some x -> exists y, nth_error m i = Some y /\ P x y.
  Proof.
    intros X Y P l m i x F. revert i. induction F as [|a b l m H F IH]; intros [|i] E; try discriminate; cbn in *; [injection E as <-; eauto|now apply IH].
  Qed.

  (** A lookup *)
  Lemma holds_lookup : forall v ids gs l g, holds v ids gs l -> well_shaped s0 g ->
    exists v' r, vec_try_with_labels (w_bd W) L M (w_hash W) v g = Done (v', r) /\
      mv_metrics v' = mv_metrics v /\
      (exists u, lg_encode L (mv_set v) g = Done (mv_set v', u) /\ (r = None <-> u = None)) /\
      match r with Some id => holds v' (ids ++ [id]) (gs ++ [g]) l | None => holds v' ids gs l end.
  Proof.
    intros v ids gs l g (a & R & G & Mp) WS.
    assert (T : @typed_ops L M well_shaped (a_set a) [@OpLookup L M g]).
    { intros g' [E|[]]. injection E as <-. pose proof (rel_set _ _ _ _ _ _ R) as ES. cbn [cl_vec] in ES. rewrite ES.
      unfold well_shaped. rewrite (set_ext_names s0); [exact WS|]. exact (proj2 (rel_ok _ _ _ _ _ _ R)). }
    destruct (exec_refines (derived_lawful_from bd s0) W WOK [@OpLookup L M g] _ _ R T) as (c' & os & a' & E & S & R' & _).
    unfold exec in E. cbn [vec_run vec_step cl_vec cl_ids] in E.
    assert (MM : forall v' r, vec_try_with_labels (w_bd W) L M (w_hash W) v g = Done (v', r) -> mv_metrics v' = mv_metrics v /\
      exists u, lg_encode L (mv_set v) g = Done (mv_set v', u) /\ (r = None <-> u = None)).
    { clear. intros v' r H. unfold vec_try_with_labels in H. destruct (lg_encode L (mv_set v) g) as [[ls u]|]; cbn [obind] in H; [|discriminate].
      destruct u as [u|].
      - destruct (mv_metrics v) as [cells|sh] eqn:EM.
        + destruct (lg_encode_dense L ls u) as [[i|]|]; cbn [obind] in H; try discriminate.
          destruct (debug_assert _ _); cbn [obind] in H; [|discriminate]. injection H as <- <-. cbn [mv_metrics mv_set].
          split; [reflexivity|]. eexists; split; [reflexivity|]. split; discriminate.
        + injection H as <- <-. split; [reflexivity|]. eexists; split; [reflexivity|]. split; discriminate.
      - injection H as <- <-. split; [reflexivity|]. eexists; split; [reflexivity|]. tauto. }
    destruct (vec_try_with_labels _ _ _ _ v g) as [[v' r]|]; cbn [obind] in E; [|discriminate].
    destruct (MM v' r eq_refl) as [M1 M2]. exists v', r. split; [reflexivity|]. split; [exact M1|]. split; [exact M2|].
    inversion S as [|? ? ? ? ? ? ? S1 S2]; subst. inversion S2; subst.
    destruct r as [id|]; cbn [obind] in E; injection E as <- E; subst.
    - inversion S1; subst; try contradiction. eexists. split; [exact R'|]. split; [reflexivity|exact Mp].
    - inversion S1; subst; try contradiction. eexists. split; [exact R'|]. split; [reflexivity|exact Mp].
  Qed.

  (** An update through an id *)
  Lemma holds_update : forall v ids gs l i id g x f, holds v ids gs l -> nth_error ids i = Some id -> nth_error gs i = Some g ->
    f (fold_left step (given g l) (w_default W)) = (fold_left step (given g l ++ [x]) (w_default W), 0) ->
    exists v', vec_get_metric (w_bd W) L M (w_default W) (w_hash W) (w_visits W) (w_grows W) v id f = Done (v', 0) /\
      mv_set v' = mv_set v /\ holds v' ids gs (l ++ [(g, x)]).
  Proof.
    intros v ids gs l i id g x f (a & R & G & Mp) N1 N2 F. subst gs.
    assert (T : @typed_ops L M well_shaped (a_set a) [@OpAccess L M i f]) by (intros g' [E|[]]; discriminate).
    destruct (exec_refines (derived_lawful_from bd s0) W WOK [@OpAccess L M i f] _ _ R T) as (c' & os & a' & E & S & R' & _).
    unfold exec in E. cbn [vec_run vec_step cl_vec cl_ids] in E. rewrite N1 in E.
    destruct (vec_get_metric _ _ _ _ _ _ _ v id f) as [[v' r]|]; cbn [obind] in E; [|discriminate]. injection E as <- <-.
    inversion S as [|? ? ? ? ? ? ? S1 S2]; subst. inversion S2; subst. clear S S2.
    assert (CUR : current (w_default W) a g = fold_left step (given g l) (w_default W)).
    { unfold current. rewrite Mp. unfold made. destruct (given g l); reflexivity. }
    inversion S1; subst; try congruence.
    match goal with H : nth_error _ i = Some ?h, H' : bound _ ?h _ _ |- _ => assert (X : h = g) by (pose proof (eq_trans (eq_sym H) N2) as Y; now injection Y); subst h end.
    match goal with H : f (current _ _ _) = _ |- _ => rewrite CUR, F in H; injection H as <- <- end.
    match goal with H : bound _ _ _ _ |- _ => rename H into BD end.
    exists v'. split; [reflexivity|]. split.
    - pose proof (rel_set _ _ _ _ _ _ R) as E1. pose proof (rel_set _ _ _ _ _ _ R') as E2. cbn [cl_vec with_vec a_set] in E1, E2. congruence.
    - eexists. split; [exact R'|]. split; [reflexivity|]. cbn [a_map]. intros h. destruct BD as [B1 B2].
      rewrite given_app, given_cons. cbn [given filter map fst snd]. rewrite app_nil_r.
      destruct (group_val_eqb g h) eqn:GE.
      + apply group_val_eqb_spec in GE. subst h. rewrite B1. unfold made. destruct (given g l ++ [x]) eqn:EG; [destruct (given g l); discriminate|reflexivity].
      + rewrite app_nil_r. rewrite B2; [apply Mp|]. intros ->. rewrite (proj2 (group_val_eqb_spec g g) eq_refl) in GE. discriminate.
  Qed.

  (** What a collection meets *)
  Lemma holds_samples : forall heck v ids gs l, holds v ids gs l ->
    exists smp, vec_samples L M (w_iter W) v = Done smp /\ NoDup (map fst smp) /\
      (forall g m, In (g, m) smp <-> made (w_default W) step (given g l) = Some m) /\
      Forall (fun q => group_shown heck s0 (fst q) (group_visit heck s0 (fst q)) /\ member (mv_set v : group_set) (fst q)) smp.
  Proof.
    intros heck v ids gs l (a & R & G & Mp).
    assert (T : @typed_ops L M well_shaped (a_set a) [@OpCollect L M]) by (intros g' [E|[]]; discriminate).
    destruct (exec_refines (derived_lawful_from bd s0) W WOK [@OpCollect L M] _ _ R T) as (c' & os & a' & E & S & R' & _).
    unfold exec in E. cbn [vec_run vec_step cl_vec cl_ids] in E.
    destruct (vec_samples L M (w_iter W) v) as [smp|] eqn:VS; cbn [obind] in E; [|discriminate]. injection E as <- <-.
    inversion S as [|? ? ? ? ? ? ? S1 S2]; subst. inversion S2; subst. clear S S2.
    inversion S1; subst; try contradiction.
    exists smp. split; [reflexivity|]. split; [assumption|]. split; [intros g m; rewrite <- Mp; auto|].
    pose proof (rel_ok _ _ _ _ _ _ R) as [SO SE]. pose proof (rel_inner _ _ _ _ _ _ R) as INV. cbn [cl_vec] in *.
    destruct (samples_spec (w_bd W) (w_default W) (w_hash W) (w_visits W) (w_grows W) (w_iter W) (w_geqb W) _ _ _ (derived_lawful_from bd s0) (wo_geqb W WOK) (wo_visits W WOK) (wo_iter W WOK) v) as (l' & El & I & _).
    { split; assumption. }
    { exact INV. }
    rewrite VS in El. injection El as <-.
    apply Forall_forall. intros [g m] J. cbn [fst]. apply I in J. destruct J as (u & V & D & _).
    pose proof (valid_member bd _ u g SO V D) as ME. split; [|exact ME].
    apply (set_ext_shown heck s0 _ g _ SE). rewrite <- (set_ext_visit heck _ _ g SE). apply (visit_exact heck _ g (proj1 SO) ME). reflexivity.
  Qed.

  Lemma holds_length : forall v ids gs l, holds v ids gs l -> length ids = length gs.
  Proof.
    intros v ids gs l (a & R & <- & _). pose proof (rel_ids _ _ _ _ _ _ R) as F. cbn [cl_ids] in F. clear - F. induction F; cbn; congruence.
  Qed.

  (** [with_labels], refused or not *)
  Lemma holds_with : forall v ids gs l g, holds v ids gs l -> well_shaped s0 g ->
    exists s' u, lg_encode L (mv_set v) g = Done (s', u) /\
      match u with
      | None => vec_with_labels (w_bd W) L M (w_hash W) v g = Panic
      | Some _ => exists v' id, vec_with_labels (w_bd W) L M (w_hash W) v g = Done (v', id) /\ mv_set v' = s' /\
          holds v' (ids ++ [id]) (gs ++ [g]) l
      end.
  Proof.
    intros v ids gs l g H WS. destruct (holds_lookup v ids gs l g H WS) as (v' & r & E & _ & (u & EU & RU) & H').
    exists (mv_set v'), u. split; [exact EU|]. unfold vec_with_labels. rewrite E. cbn [obind].
    destruct u as [u|], r as [id|]; try (destruct RU as [R1 R2]; (discriminate (R1 eq_refl) || discriminate (R2 eq_refl))).
    - exists v', id. auto.
    - reflexivity.
  Qed.

  (** A call *)
  Lemma holds_call : forall v ids gs l g x f, holds v ids gs l -> well_shaped s0 g ->
    f (fold_left step (given g l) (w_default W)) = Done (fold_left step (given g l ++ [x]) (w_default W)) ->
    exists s' u, lg_encode L (mv_set v) g = Done (s', u) /\
      match u with
      | None => run_call W (@Update L M false g f) v = Panic
      | Some _ => exists v', run_call W (@Update L M false g f) v = Done v' /\ mv_set v' = s' /\
          exists ids' gs', holds v' ids' gs' (l ++ [(g, x)])
      end.
  Proof.
    intros v ids gs l g x f H WS F. destruct (holds_with v ids gs l g H WS) as (s' & u & EU & X). exists s', u. split; [exact EU|].
    cbn [run_call]. unfold vec_method. destruct u as [u|].
    - destruct X as (v1 & id & E & S1 & H1). rewrite E. cbn [obind]. pose proof (holds_length _ _ _ _ H) as LN.
      destruct (holds_update v1 _ _ l (length ids) id g x (fun m => match f m with Done m' => (m', 0) | Panic => (m, 1) end) H1) as (v2 & E2 & S2 & H2).
      + apply nth_last.
      + rewrite LN. apply nth_last.
      + now rewrite F.
      + rewrite E2. cbn [obind]. exists v2. split; [reflexivity|]. split; [congruence|]. eauto.
    - rewrite X. reflexivity.
  Qed.
End Vec.
