(** Proofs about group traversal (C43). *)
From Coq Require Import String List NArith Bool Lia.
From Verif Require Import Base BaseFacts Writer NameModel NameSpec NameProofs LabelModel EncoderModel TextSpec TrimProofs EncoderSpec.
Import ListNotations.

Lemma bindr_ok : forall {S} (a b : io S) s, (a ;;? b) s =
  match a s with (s', ROk) => b s' | (s', r) => (s', r) end.
Proof. intros. unfold bindr. destruct (a s) as [s' []]; reflexivity. Qed.

Lemma do_events_app : forall {S} (e : encoder S) a b s,
  do_events e (a ++ b) s = match do_events e a s with (s', ROk) => do_events e b s' | (s', r) => (s', r) end.
Proof.
  induction a; intros; cbn [app do_events].
  - reflexivity.
  - destruct (do_event e a s) as [s' []]; auto.
Qed.

(** [e'] does what [e] does with every name moved below [nss]. *)
Definition wrap (nss : list bytes) (n : mname) : mname := fold_right NNamespace n nss.

Definition lifts {S} (nss : list bytes) (e e' : encoder S) : Prop :=
  (forall n h s, e_help e' n h s = e_help e (wrap nss n) h s) /\
  (forall k n s, e_type e' k n s = e_type e k (wrap nss n) s) /\
  (forall m ls n s, e_collect e' m ls n s = e_collect e m ls (wrap nss n) s).

Lemma lifts_nil : forall {S} (e : encoder S), lifts [] e e.
Proof. repeat split. Qed.

Lemma wrap_snoc : forall nss ns n, wrap (nss ++ [ns]) n = wrap nss (NNamespace ns n).
Proof. intros. unfold wrap. rewrite fold_right_app. reflexivity. Qed.

Lemma lifts_ns : forall {S} nss ns (e e' : encoder S), lifts nss e e' ->
  lifts (nss ++ [ns]) e (with_namespace ns e').
Proof.
  intros S nss ns e e' (H1 & H2 & H3).
  repeat split; intros; cbn [with_namespace e_help e_type e_collect];
    rewrite wrap_snoc; auto.
Qed.

Lemma collect_family_events : forall {S} (e e' : encoder S) nss base f s, lifts nss e e' ->
  collect_family e' (NBase base) f s = do_events e (family_events nss base f) s.
Proof.
  intros S e e' nss base f. induction f as [m|k samples|f IH|]; intros s L;
    pose proof L as (H1 & H2 & H3); cbn [collect_family family_events].
  - rewrite bindr_ok. cbn [do_events do_event]. rewrite H2.
    change (wrap nss (NBase base)) with (name_of nss base).
    change (kind_of m) with (metric_kind m). destruct (e_type e (metric_kind m) (name_of nss base) s) as [s' []]; try reflexivity.
    rewrite H3. change (wrap nss (NBase base)) with (name_of nss base).
    destruct (e_collect e m [] (name_of nss base) s') as [s'' []]; reflexivity.
  - rewrite bindr_ok. destruct samples as [l|]; cbn [do_events do_event]; rewrite H2;
      change (wrap nss (NBase base)) with (name_of nss base);
      destruct (e_type e k (name_of nss base) s) as [s' []]; try reflexivity.
    clear s. revert s'. induction l as [|[g m] l IHl]; intros s'; cbn [collect_samples map do_events do_event fst snd].
    + reflexivity.
    + rewrite bindr_ok, H3. change (wrap nss (NBase base)) with (name_of nss base).
      destruct (e_collect e m g (name_of nss base) s') as [s'' []]; try reflexivity. apply IHl.
  - apply IH; assumption.
  - reflexivity.
Qed.

Scheme group_mind := Induction for group Sort Prop
  with gfields_mind := Induction for gfields Sort Prop.
Combined Scheme group_gfields_ind from group_mind, gfields_mind.

Scheme group_events_mind := Minimality for group_events Sort Prop
  with fields_events_mind := Minimality for fields_events Sort Prop.
Combined Scheme group_fields_events_ind from group_events_mind, fields_events_mind.

Lemma collect_group_events_aux : forall {S} (e : encoder S),
  (forall nss g l, group_events nss g l -> forall e' s, lifts nss e e' ->
     collect_group e' g s = do_events e l s) /\
  (forall nss fs l, fields_events nss fs l -> forall e' s, lifts nss e e' ->
     collect_fields e' fs s = do_events e l s).
Proof.
  intros S e. apply group_fields_events_ind.
  - intros. cbn [collect_group]. auto.
  - intros nss a b la lb _ IHa _ IHb e' s L. cbn [collect_group].
    rewrite bindr_ok, do_events_app, (IHa e' s L).
    destruct (do_events e la s) as [s' []]; auto.
  - intros nss ns g l _ IH e' s L. cbn [collect_group]. apply IH. apply lifts_ns, L.
  - intros. cbn [collect_group]. auto.
  - reflexivity.
  - reflexivity.
  - intros nss name rename f rest l _ IH e' s L. cbn [collect_fields field_docs].
    change (metric_field_name name rename) with (match rename with Some r => r | None => name end).
    rewrite bindr_ok. cbn [ret_ok]. rewrite bindr_ok, (collect_family_events e e' nss _ f s L), do_events_app.
    destruct (do_events e (family_events nss _ f) s) as [s' []]; auto.
  - intros nss name rename docs help f rest l ND T _ IH e' s L. cbn [collect_fields].
    change (metric_field_name name rename) with (match rename with Some r => r | None => name end).
    destruct docs as [|d ds]; [congruence|]. unfold field_docs.
    rewrite (trimmed_unique _ _ _ (trim_trimmed _) T).
    rewrite bindr_ok. cbn [do_events do_event].
    pose proof L as (H1 & _). rewrite H1.
    match goal with |- context [wrap nss (NBase ?b)] =>
      change (wrap nss (NBase b)) with (name_of nss b) end.
    destruct (e_help e _ help s) as [s' []]; try reflexivity.
    rewrite bindr_ok, (collect_family_events e e' nss _ f s' L), do_events_app.
    destruct (do_events e (family_events nss _ f) s') as [s'' []]; auto.
  - intros nss g rest lg l _ IHg _ IH e' s L. cbn [collect_fields].
    rewrite bindr_ok, do_events_app, (IHg e' s L).
    destruct (do_events e lg s) as [s' []]; auto.
  - intros nss ns g rest lg l V _ IHg _ IH e' s L. cbn [collect_fields].
    rewrite (proj1 (metric_from_str_exact ns) V).
    rewrite bindr_ok, do_events_app, (IHg (with_namespace ns e') s (lifts_ns nss ns e e' L)).
    destruct (do_events e lg s) as [s' []]; auto.
  - intros nss ns g rest V e' s L. cbn [collect_fields].
    rewrite (proj2 (metric_from_str_exact ns) V). reflexivity.
Qed.

Lemma collect_group_events : forall g evs, group_events [] g evs ->
  forall {S} (e : encoder S) s, collect_group e g s = do_events e evs s.
Proof.
  intros. eapply (proj1 (collect_group_events_aux e)); eauto using lifts_nil.
Qed.

Lemma group_events_total_aux :
  (forall g nss, exists l, group_events nss g l) /\
  (forall fs nss, exists l, fields_events nss fs l).
Proof.
  apply group_gfields_ind.
  - intros fs IH nss. destruct (IH nss) as [l H]. exists l. constructor; auto.
  - intros a IHa b IHb nss. destruct (IHa nss), (IHb nss). eexists. constructor; eauto.
  - intros ns g IH nss. destruct (IH (nss ++ [ns])). eexists. constructor; eauto.
  - intros g IH nss. destruct (IH nss). eexists. constructor; eauto.
  - intros. eexists. constructor.
  - intros. eexists. constructor.
  - intros name rename docs f rest IH nss. destruct (IH nss).
    destruct docs; eexists.
    + apply FE_undocumented; eauto.
    + eapply FE_documented; eauto; [congruence|apply trim_trimmed].
  - intros g IHg rest IH nss. destruct (IHg nss), (IH nss). eexists. econstructor; eauto.
  - intros ns g IHg rest IH nss. destruct (valid_metric_nameb ns) eqn:V.
    + apply valid_metric_nameb_spec in V.
      destruct (IHg (nss ++ [ns])), (IH nss). eexists. eapply FE_ns; eauto.
    + eexists. apply FE_bad_ns. rewrite <- valid_metric_nameb_spec. congruence.
Qed.

Lemma group_events_det_aux :
  (forall nss g l, group_events nss g l -> forall l', group_events nss g l' -> l = l') /\
  (forall nss fs l, fields_events nss fs l -> forall l', fields_events nss fs l' -> l = l').
Proof.
  apply group_fields_events_ind; intros;
    match goal with H : group_events _ _ ?l' |- _ = ?l' => inversion H; subst; clear H
                  | H : fields_events _ _ ?l' |- _ = ?l' => inversion H; subst; clear H end;
    try congruence; try (exfalso; congruence);
    repeat match goal with
      | H : forall l', group_events ?n ?g l' -> _ , H' : group_events ?n ?g _ |- _ =>
        apply H in H'; subst
      | H : forall l', fields_events ?n ?g l' -> _ , H' : fields_events ?n ?g _ |- _ =>
        apply H in H'; subst
      | H : trimmed ?s ?a, H' : trimmed ?s ?b |- _ =>
        pose proof (trimmed_unique _ _ _ H H'); subst; clear H'
      end; try reflexivity; exfalso; match goal with H : _ <> _ |- _ => apply H; reflexivity end.
Qed.

Lemma group_events_functional : forall g nss,
  exists l, group_events nss g l /\ forall l', group_events nss g l' -> l' = l.
Proof.
  intros. destruct (proj1 group_events_total_aux g nss) as [l H]. exists l. split; auto.
  intros. symmetry. eapply (proj1 group_events_det_aux); eauto.
Qed.

Lemma bad_namespace : forall S (e : encoder S) ns g s, ~ valid_metric_name ns ->
  collect_group e (GStruct (FieldNamespace ns g FieldsNil)) s = (s, RPanic).
Proof.
  intros S e ns g s V. cbn. destruct (metric_from_str_exact ns) as [_ H]. rewrite (H V). reflexivity.
Qed.
