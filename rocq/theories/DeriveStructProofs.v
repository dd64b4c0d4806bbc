(** Generated structs and singleton enums as a whole. *)
From Coq Require Import String List NArith ZArith Bool Lia.
From Verif Require Import Base BaseFacts NameModel NameSpec NameProofs LabelModel LabelSpec EncoderModel
  DeriveModel DeriveSpec DeriveProofs DeriveMetricProofs DeriveNewProofs DeriveGroupProofs.
Import ListNotations.

Lemma derived_fields : forall shouty ident_ok attrs fs l new,
  derive_metric_group shouty ident_ok attrs (DataStruct fs) = Some (l, new) ->
  Forall2 (fun f r => mg_name r = fi_name f /\ metric_field_attrs (fi_attrs f) = Some (mg_attrs r)) fs l.
Proof.
  intros shouty ident_ok attrs fs l new H. unfold derive_metric_group in H.
  destruct (list_attrs _ _ _ _) as [a|]; [|discriminate]. destruct (collect_all mfield_of fs) as [l'|] eqn:C; [|discriminate].
  destruct (metric_consts _ _ _); [|discriminate]. injection H as -> _. revert l C.
  induction fs as [|f fs IH]; intros l C; cbn [collect_all] in C; [injection C as <-; constructor|].
  unfold mfield_of at 1 in C. destruct (metric_field_attrs (fi_attrs f)) as [a0|] eqn:A; [|discriminate]. cbn [option_map] in C.
  destruct (collect_all mfield_of fs) as [l2|]; [|discriminate]. injection C as <-. constructor; [split; [reflexivity|exact A]|]. now apply IH.
Qed.

Theorem struct_init_exact : forall shouty ident_ok attrs fs l new,
  derive_metric_group shouty ident_ok attrs (DataStruct fs) = Some (l, new) ->
  forall r, struct_new l = r <-> struct_initialised fs r.
Proof.
  intros shouty ident_ok attrs fs l new H r. apply derived_fields in H. unfold struct_new, struct_initialised. revert r.
  induction H as [|f m fs l [N A] H IH]; intros r; cbn [map].
  - split; [intros <-; constructor|]. now inversion 1.
  - pose proof (struct_new_exact (mg_name m) _ _ A) as E. destruct m as [n a]. cbn [mg_name mg_attrs] in *. split.
    + intros <-. constructor; [split; [exact N|]; now apply E|now apply IH].
    + intros F. inversion F as [|? [n' i] ? r' [N' I] F']; subst. cbn in N', I. subst n'. f_equal; [f_equal; now apply E|now apply IH].
Qed.

Theorem struct_of_exact : forall shouty ident_ok attrs fs l new,
  derive_metric_group shouty ident_ok attrs (DataStruct fs) = Some (l, new) ->
  forall cs, length cs = length fs -> forall g, struct_of (combine l cs) = Some g <-> struct_shown (combine fs cs) g.
Proof.
  intros shouty ident_ok attrs fs l new H. apply derived_fields in H.
  induction H as [|f m fs l [N A] H IH]; intros cs L g; destruct cs as [|c cs]; try discriminate L; cbn [combine struct_of].
  - split; [intros E; injection E as <-; constructor|]. now inversion 1.
  - injection L as L. specialize (IH cs L). destruct (metric_attrs_exact (fi_attrs f)) as [OK M]. specialize (M _ A).
    assert (Hok : metric_attrs_ok (fi_attrs f)) by (apply OK; eauto).
    destruct Hok as (_ & _ & FA & T0 & _). destruct M as (MR & MN & MF & MD & _).
    set (ms := arguments "metric" (fi_attrs f)) in *. destruct m as [n a]. cbn [mg_name mg_attrs] in *. subst n.
    assert (HD : (match mf_docs a with Some d => [d] | None => [] end) = field_help f).
    { unfold field_help. rewrite MD. now destruct (doc_texts (fi_attrs f)). }
    assert (Z0 : times ["rename"; "namespace"; "flatten"]%string ms = 0 <-> mf_kind a = KMetric None).
    { split.
      - intros Z. destruct (mf_kind a) as [[s|]|[s|]] eqn:K; [|reflexivity|..].
        + pose proof (proj1 (MR s) eq_refl) as J. apply (times_zero _ _ _ Z) in J. discriminate.
        + pose proof (proj1 (MN s) eq_refl) as J. apply (times_zero _ _ _ Z) in J. discriminate.
        + pose proof (proj1 MF eq_refl) as J. apply (times_zero _ _ _ Z) in J. discriminate.
      - intros K. destruct (Nat.eq_dec (times ["rename"; "namespace"; "flatten"]%string ms) 0) as [Q|Q]; [exact Q|].
        apply times_nonzero in Q. destruct Q as (x & I & X). rewrite Forall_forall in FA. pose proof (FA x I) as B.
        destruct B; try discriminate X; [apply MR in I|apply MN in I|apply MF in I]; congruence. }
    rewrite HD. split.
    + intros E. destruct (struct_of (combine l cs)) as [r|] eqn:SO; [|discriminate]. pose proof (proj1 (IH r) eq_refl) as R.
      destruct (mf_kind a) as [[s|]|[s|]] eqn:K, c as [fam|g0]; try discriminate E; injection E as <-.
      * apply SS_renamed; [now apply MR|exact R].
      * apply SS_metric; [now apply Z0|exact R].
      * apply SS_namespace; [now apply MN|exact R].
      * apply SS_flatten; [now apply MF|exact R].
    + intros S. inversion S as [|f' s fam rest r I R|f' fam rest r I R|f' ns g0 rest r I R|f' g0 rest r I R]; subst;
        rewrite (proj2 (IH r) R); [apply MR in I|apply Z0 in I|apply MN in I|apply MF in I]; now rewrite I.
Qed.

Theorem singleton_exact : forall heck F attrs vs e n,
  derive_enum attrs (@DataEnum F vs) = Some (e, Some n) -> NoDup (map vi_ident vs) ->
  In (equals "singleton" (TStr n)) (arguments "label" attrs) /\ valid_label_name n /\
  forall v, In v vs -> exists x, singleton_visit heck e n (vi_ident v) = [(n, x)] /\ variant_label heck attrs v x.
Proof.
  intros heck F attrs vs e n H ND. destruct (enum_exact F attrs (DataEnum vs)) as [OK M]. specialize (M e (Some n) vs H eq_refl).
  assert (Hok : enum_attrs_ok attrs /\ Forall variant_ok vs).
  { destruct (proj1 OK (ex_intro _ _ H)) as (A & vs' & E & B). injection E as <-. split; [exact A|exact B]. }
  destruct Hok as ((_ & _ & FA & _ & TR & _ & SV) & VO). destruct M as (MC & MZ & MS & MV).
  assert (SI : In (equals "singleton" (TStr n)) (arguments "label" attrs)) by now apply MS.
  split; [exact SI|]. split; [now apply SV|]. intros v I. unfold singleton_visit. cbn [value_visit].
  assert (FI : exists r, find (fun var => beqb (vi_ident v) (v_ident var)) (en_variants e) = Some r /\ variant_means v r).
  { revert I ND. clear -MV. induction MV as [|v0 r0 vs rs M MV IH]; intros I ND; [contradiction|]. cbn [map] in ND. inversion ND as [|? ? NI ND']; subst.
    cbn [find]. destruct M as (MI & M). destruct (beqb (vi_ident v) (v_ident r0)) eqn:B.
    - apply beqb_spec in B. rewrite MI in B. destruct I as [->|I]; [exists r0; split; [reflexivity|now split]|].
      exfalso. apply NI. rewrite <- B. now apply in_map.
    - destruct I as [->|I]; [rewrite MI, beqb_refl in B; discriminate|]. now apply IH. }
  destruct FI as (r & FI & (RI & RV & RR)). unfold enum_visit. rewrite FI.
  rewrite Forall_forall in VO. destruct (VO v I) as (_ & VA & VL & VU & VD).
  destruct (v_value r) as [z|] eqn:V.
  { eexists. split; [reflexivity|]. apply VL_number. now apply RV. }
  assert (DN : vi_disc v = DNone).
  { destruct (vi_disc v) as [|z|] eqn:D; [reflexivity| |congruence]. pose proof (proj2 (RV z) eq_refl). discriminate. }
  destruct (v_rename r) as [s|] eqn:R.
  { eexists. split; [reflexivity|]. apply VL_renamed; [exact DN|]. now apply RR. }
  assert (NA : arguments "label" (vi_attrs v) = []).
  { destruct (arguments "label" (vi_attrs v)) as [|m ms] eqn:A; [reflexivity|]. inversion VA as [|? ? (s & ->) _]; subst.
    pose proof (proj2 (RR s) (or_introl eq_refl)). discriminate. }
  eexists. split; [reflexivity|]. rewrite RI.
  destruct (Nat.eq_dec (times ["rename_all"]%string (arguments "label" attrs)) 0) as [Q|Q].
  - rewrite (MZ Q). now apply VL_snake.
  - apply times_nonzero in Q. destruct Q as (x & J & X). rewrite Forall_forall in FA. pose proof (FA x J) as B.
    destruct B as [p|p|nm r0 CN|s]; try discriminate X. rewrite (MC nm r0 CN J). now apply (VL_case heck attrs v nm r0).
Qed.
