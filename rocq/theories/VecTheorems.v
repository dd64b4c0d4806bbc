(** Consequences of the refinement. *)
From Coq Require Import List NArith ZArith Bool Lia ZifyBool ZifyN ZifyNat Permutation Sorted.
From Verif Require Import Base BaseFacts LabelModel LabelSpec LawProofs VecModel VecSpec ShardProofs VecProofs.
Import ListNotations.
Local Open Scope N_scope.

(* ------------------------------------------------------------------ *)
(** ** The specification on its own *)

Section SpecFacts.
  Context {L : lgset} {M : Type}.
  Variable mdefault : M.
  Variable geqb : lg_group L -> lg_group L -> bool.
  Variable wt : lg_state L -> lg_group L -> Prop.
  Hypothesis geqb_spec : forall a b, geqb a b = true <-> a = b.
  Notation step := (spec_step (M := M) mdefault geqb wt).
  Notation run := (spec_run (M := M) mdefault geqb wt).

  Definition aequiv (a b : @astate L M) : Prop :=
    a_set a = a_set b /\ (forall g, a_map a g = a_map b g) /\ a_groups a = a_groups b.

  Lemma g_dec : forall g h : lg_group L, {g = h} + {g <> h}.
  Proof.
    intros g h. destruct (geqb g h) eqn:E.
    - left. now apply geqb_spec.
    - right. intros ->. assert (geqb h h = true) by now apply geqb_spec. congruence.
  Qed.

  Lemma bound_det : forall (mp1 mp2 : lg_group L -> option M) g x m1 m2, (forall g', mp1 g' = mp2 g') ->
    bound mp1 g x m1 -> bound mp2 g x m2 -> forall g', m1 g' = m2 g'.
  Proof.
    intros mp1 mp2 g x m1 m2 E [A1 B1] [A2 B2] g'. destruct (g_dec g' g) as [->|N].
    - congruence.
    - rewrite B1, B2 by easy. apply E.
  Qed.

  Lemma NoDup_fst : forall (l : list (lg_group L * M)), NoDup (map fst l) -> NoDup l.
  Proof. intros. now apply NoDup_map_inv with (f := fst). Qed.

  Ltac inv H := inversion H; subst; clear H.

  Lemma step_det : forall k1 k2 a b op1 op2 o1 o2 a' b', aequiv a b -> same_op op1 op2 ->
    (plain_op op1 \/ (k1 = k2 /\ op1 <> OpInitAll)) ->
    step k1 a op1 o1 a' -> step k2 b op2 o2 b' -> same_out o1 o2 /\ aequiv a' b'.
  Proof.
    intros k1 k2 a b op1 op2 o1 o2 a' b' (E1 & E2 & E3) SO PL S1 S2.
    assert (CUR : forall g, current mdefault a g = current mdefault b g).
    { intros g. unfold current. now rewrite E2. }
    assert (KEEP : aequiv a b) by easy.
    inversion SO; subst; inversion S1; subst; inversion S2; subst;
      try (exfalso; (match goal with H : match _ with _ => _ end |- _ => exact H end));
      try (match goal with H : plain_op (OpRemove _) \/ _ |- _ => destruct H as [[]|[? _]]; congruence end);
      try (match goal with H : plain_op OpInitAll \/ _ |- _ => destruct H as [[]|[_ H]]; now elim H end);
      try congruence.
    all: try (match goal with
      | H : nth_error (a_groups ?x) ?h = Some ?g, H' : nth_error (a_groups ?y) ?h = Some ?g' |- _ =>
        tryif constr_eq g g' then fail else (assert (g = g') by congruence; subst g')
      end).
    all: try (match goal with H : ?f (current mdefault _ ?g) = _, H' : ?f (current mdefault _ ?g) = _ |- _ =>
        tryif constr_eq H H' then fail else
        (first [rewrite (CUR g) in H|rewrite (CUR g) in H']; rewrite H in H'; injection H' as <- <-) end).
    all: repeat match goal with
      | H : lg_encode L (a_set ?x) _ = _, H' : lg_encode L (a_set ?y) _ = _ |- _ =>
        tryif constr_eq H H' then fail else
        (first [rewrite E1 in H|rewrite E1 in H']; rewrite H in H'; injection H'; clear H'; intros; subst) end.
    all: try (split; [cbn [same_out]; congruence|unfold aequiv in *; cbn [a_set a_map a_groups];
        repeat split; try congruence; auto; eapply bound_det; eauto; fail]).
    all: try (split; [cbn [same_out]; now rewrite ?E1, ?E2, ?E3|easy]; fail).
    - (* cardinality *)
      split; [|easy]. cbn [same_out]. rewrite E1. do 2 f_equal.
      apply Permutation_length. apply NoDup_Permutation; auto. intros g. rewrite H0, H3, E2. easy.
    - (* collect *)
      split; [|easy]. cbn [same_out]. apply NoDup_Permutation; [now apply NoDup_fst|now apply NoDup_fst|].
      intros [g m]. match goal with H : forall g m, In (g, m) l <-> _ |- _ => rewrite H end.
      match goal with H : forall g m, In (g, m) l0 <-> _ |- _ => rewrite H end. now rewrite E2.
  Qed.

  Lemma run_det : forall k1 k2 ops1 ops2 a b os1 os2 a' b', aequiv a b ->
    Forall2 same_op ops1 ops2 ->
    Forall (fun op => plain_op op \/ (k1 = k2 /\ op <> OpInitAll)) ops1 ->
    run k1 a ops1 os1 a' -> run k2 b ops2 os2 b' -> Forall2 same_out os1 os2 /\ aequiv a' b'.
  Proof.
    intros k1 k2 ops1. induction ops1 as [|op1 ops1 IH]; intros ops2 a b os1 os2 a' b' E F P R1 R2.
    - inversion F; subst. inversion R1; subst. inversion R2; subst. auto.
    - inversion F; subst. inversion P; subst. inversion R1; subst. inversion R2; subst.
      match goal with X : step k1 _ _ _ _, Y : step k2 _ _ _ _ |- _ =>
        destruct (step_det _ _ _ _ _ _ _ _ _ _ E ltac:(eassumption) ltac:(eassumption) X Y) as [SO E'] end.
      match goal with X : run k1 _ _ _ _, Y : run k2 _ _ _ _ |- _ =>
        destruct (IH _ _ _ _ _ _ _ E' ltac:(eassumption) ltac:(eassumption) X Y) as [SOS E''] end.
      split; [now constructor|easy].
  Qed.

  Lemma run_app : forall k ops1 ops2 a os a'', run k a (ops1 ++ ops2) os a'' ->
    exists os1 os2 a', os = os1 ++ os2 /\ run k a ops1 os1 a' /\ run k a' ops2 os2 a''.
  Proof.
    intros k ops1. induction ops1 as [|op ops1 IH]; intros ops2 a os a'' R.
    - exists [], os, a. repeat split; [constructor|easy].
    - cbn [app] in R. inversion R as [|? ? o a1 ? os' ? S R']; subst.
      destruct (IH _ _ _ _ R') as (os1 & os2 & a' & -> & R1 & R2).
      exists (o :: os1), os2, a'. repeat split; [econstructor; eauto|easy].
  Qed.

  Lemma run_length : forall k ops a os a', run k a ops os a' -> length os = length ops.
  Proof. induction 1; simpl; auto. Qed.

  Lemma step_groups : forall k a op o a', step k a op o a' ->
    a_groups a' = a_groups a ++ issued [op] [o].
  Proof.
    intros k a op o a' S. inversion S; subst; cbn [a_groups issued]; rewrite ?app_nil_r; auto.
    destruct op; now rewrite ?app_nil_r.
  Qed.

  Lemma issued_cons : forall op (o : vec_out L M) ops os, issued (op :: ops) (o :: os) = issued [op] [o] ++ issued ops os.
  Proof. intros op o ops os. cbn [issued]. destruct op; try easy. destruct o; try easy. now destruct r. Qed.

  Lemma run_groups : forall k a ops os a', run k a ops os a' ->
    a_groups a' = a_groups a ++ issued ops os.
  Proof.
    induction 1 as [|a op o a1 ops os a2 S R IH].
    - cbn [issued]. now rewrite app_nil_r.
    - rewrite IH, (step_groups _ _ _ _ _ S), <- app_assoc. f_equal. symmetry. apply issued_cons.
  Qed.

  Lemma run_live : forall k ops a os a' lv, run k a ops os a' -> ~ In OpInitAll ops ->
    (forall g, a_map a g <> None <-> lv g) ->
    forall g, a_map a' g <> None <-> live_after k (a_groups a) lv ops os g.
  Proof.
    intros k ops. induction ops as [|op ops IH]; intros a os a' lv R NI LV.
    - inversion R; subst. exact LV.
    - inversion R as [|? ? o a1 ? os' ? S R']; subst. cbn [live_after].
      rewrite <- (step_groups _ _ _ _ _ S).
      apply (IH a1 os' a' _ R'); [intro H; apply NI; now right|].
      intros g. inversion S; subst; cbn [a_map]; auto.
      + match goal with H : bound _ ?g0 _ _ |- _ => destruct H as [B1 B2]; destruct (g_dec g g0) as [->|N] end.
        * rewrite B1. split; [now right|easy].
        * rewrite B2 by easy. rewrite LV. split; [now left|]. intros [?|?]; [easy|congruence].
      + match goal with H : bound _ ?g0 _ _ |- _ => destruct H as [B1 B2]; destruct (g_dec g g0) as [->|N] end.
        * rewrite B1. split; [now right|easy].
        * rewrite B2 by easy. rewrite LV. split; [now left|]. intros [?|?]; [easy|congruence].
      + match goal with H : bound _ ?g0 _ _ |- _ => destruct H as [B1 B2]; destruct (g_dec g g0) as [->|N] end.
        * rewrite B1. split; [easy|]. intros [_ H']. exfalso. now apply H'.
        * rewrite B2 by easy. rewrite LV. split; [|tauto]. intros. split; [easy|congruence].
      + rewrite LV. split; [|tauto]. intros. split; easy.
      + exfalso. apply NI. now left.
      + destruct op; try easy; rewrite LV; (split; [|try tauto]).
        * intros. now left.
        * intros [?|?]; [easy|congruence].
        * intros. now left.
        * intros [?|?]; [easy|congruence].
        * intros. split; [easy|congruence].
  Qed.
End SpecFacts.

(* ------------------------------------------------------------------ *)
(** ** Metric vecs *)

Lemma exec_app : forall {L M} (W : world L M) ops1 ops2 c,
  exec W c (ops1 ++ ops2) =
  (let! p := exec W c ops1 in
   let! q := exec W (fst p) ops2 in
   Done (fst q, snd p ++ snd q)).
Proof.
  intros L M W ops1 ops2. induction ops1 as [|op ops1 IH]; intros c.
  - cbn [app exec vec_run obind fst snd]. unfold exec. cbn [vec_run obind fst snd].
    destruct (vec_run _ _ _ _ _ _ _ _ c ops2) as [[c' os]|]; easy.
  - unfold exec in *. cbn [app vec_run].
    destruct (vec_step _ _ _ _ _ _ _ _ c op) as [[c1 o]|]; [|easy]. cbn [obind].
    rewrite IH. destruct (vec_run _ _ _ _ _ _ _ _ c1 ops1) as [[c2 os1]|]; [|easy]. cbn [obind fst snd].
    destruct (vec_run _ _ _ _ _ _ _ _ c2 ops2) as [[c3 os2]|]; easy.
Qed.

Section Top.
  Context {L : lgset} {M : Type} {ok : lg_state L -> Prop} {wt : lg_state L -> lg_group L -> Prop}
          {valid : lg_state L -> lg_unique L -> Prop}.
  Hypothesis LAW : lawful L ok wt valid.
  Variable W : world L M.
  Hypothesis WOK : world_ok W.

  Notation REL := (rel (w_bd W) (w_hash W) ok valid).
  Notation SRUN := (spec_run (w_default W) (w_geqb W) wt).
  Notation SSTEP := (spec_step (w_default W) (w_geqb W) wt).

  Lemma constructed_rel : forall p ls v, constructed W p ls v -> ok ls -> REL (start v) (empty_astate ls).
  Proof.
    intros p ls v (P1 & P2 & C) OK.
    assert (SP : forall v', vec_new_sparse (w_bd W) L M p ls = Done v' -> REL (start v') (empty_astate ls)).
    { intros v' E. unfold vec_new_sparse in E.
      destruct (sparse_init (w_bd W) (M := M) (w_hash W) (w_visits W) ok valid (wo_visits W WOK) p ls OK P1 P2) as (s & Es & R).
      rewrite Es in E. cbn [obind] in E. injection E as <-. exact R. }
    assert (DE : forall c, lg_cardinality L ls = Some c ->
      REL (start {| mv_metrics := Dense (new_dense M c); mv_set := ls |}) (empty_astate ls)).
    { intros c Ec. exact (dense_init (w_bd W) (w_hash W) (w_visits W) ok valid (wo_visits W WOK) ls c OK Ec). }
    destruct C as [E|[E|E]].
    - unfold vec_new in E. destruct (lg_cardinality L ls) as [c|] eqn:Ec; [|auto].
      destruct (c <=? DEFAULT_MAX_DENSE); [|auto]. injection E as <-. auto.
    - unfold vec_new_dense in E. destruct (lg_cardinality L ls) as [c|] eqn:Ec; [|easy].
      injection E as <-. auto.
    - auto.
  Qed.

  Lemma exec_refines : forall ops c a, REL c a -> typed_ops wt (a_set a) ops ->
    exists c' os a', exec W c ops = Done (c', os) /\ SRUN (storage_of (cl_vec c)) a ops os a' /\ REL c' a' /\
      storage_of (cl_vec c') = storage_of (cl_vec c) /\
      (forall g, wt (a_set a) g -> wt (a_set a') g) /\
      lg_cardinality L (a_set a') = lg_cardinality L (a_set a).
  Proof.
    intros ops c a R T.
    exact (run_refines (w_bd W) (w_default W) (w_hash W) (w_visits W) (w_grows W) (w_iter W) (w_geqb W)
      ok wt valid LAW (wo_geqb W WOK) (wo_visits W WOK) (wo_iter W WOK) ops c a R T).
  Qed.

  Theorem refinement : forall p ls v, constructed W p ls v -> ok ls ->
    forall ops, typed_ops wt ls ops ->
    exists c os a, exec W (start v) ops = Done (c, os) /\
      SRUN (storage_of v) (empty_astate ls) ops os a.
  Proof.
    intros p ls v C OK ops T.
    destruct (exec_refines ops _ _ (constructed_rel p ls v C OK) T) as (c & os & a & E & R & _). eauto.
  Qed.

  (** What is known after any run. *)
  Lemma reached : forall p ls v ops c os, constructed W p ls v -> ok ls -> typed_ops wt ls ops ->
    exec W (start v) ops = Done (c, os) ->
    exists a, SRUN (storage_of v) (empty_astate ls) ops os a /\ REL c a /\
      storage_of (cl_vec c) = storage_of v /\ (forall g, wt ls g -> wt (a_set a) g) /\
      lg_cardinality L (a_set a) = lg_cardinality L ls /\ a_groups a = issued ops os.
  Proof.
    intros p ls v ops c os C OK T E.
    destruct (exec_refines ops _ _ (constructed_rel p ls v C OK) T) as (c' & os' & a & E' & R & R' & K & Wt & Cd).
    rewrite E in E'. injection E' as <- <-. exists a. do 5 (split; [easy|]).
    rewrite (run_groups _ _ _ _ _ _ _ _ R). easy.
  Qed.

  Lemma typed_none : forall s (ops : list (vec_op L M)),
    Forall (fun op => match op with OpLookup _ => False | _ => True end) ops -> typed_ops wt s ops.
  Proof. intros s ops F g I. rewrite Forall_forall in F. now apply F in I. Qed.

  Ltac inv H := inversion H; subst; clear H.

  (** C12 *)
  Lemma samples_stable : forall v ls', lg_cardinality L ls' = lg_cardinality L (mv_set v) ->
    ok (mv_set v) -> inner_inv (w_bd W) (w_hash W) valid (mv_set v) (mv_metrics v) ->
    (forall u, valid (mv_set v) u -> lg_decode L ls' u = lg_decode L (mv_set v) u) ->
    (forall i c, lg_cardinality L (mv_set v) = Some c -> i < c ->
       lg_decode_dense L ls' i = lg_decode_dense L (mv_set v) i) ->
    vec_samples L M (w_iter W) {| mv_metrics := mv_metrics v; mv_set := ls' |} = vec_samples L M (w_iter W) v.
  Proof.
    intros v ls' EC OK INV KD KI. unfold vec_samples. cbn [mv_metrics mv_set].
    destruct (mv_metrics v) as [cells|s]; cbn [inner_inv] in INV.
    - assert (H : forall cells base, base + nlen cells <= nlen cells + base -> forall c, lg_cardinality L (mv_set v) = Some c ->
        base + nlen cells <= c ->
        dense_samples L M ls' base cells = dense_samples L M (mv_set v) base cells).
      { clear INV cells. induction cells as [|x cells IH]; intros base _ c Hc Hb; [easy|].
        cbn [dense_samples nlen] in *. rewrite (IH (N.succ base)) with (c := c) by (lia || auto).
        destruct x; [|easy]. rewrite (KI base c) by (auto || lia). easy. }
      apply (H cells 0) with (c := nlen cells); auto; lia.
    - destruct INV as [_ TI].
      assert (forall ts, (forall t, In t ts -> forall e, In e t -> valid (mv_set v) (entry_key e)) ->
        shards_samples L M (w_iter W) ls' ts = shards_samples L M (w_iter W) (mv_set v) ts) as H.
      { induction ts as [|t ts IH]; intros Vd; [easy|]. cbn [shards_samples].
        rewrite IH by (intros; apply (Vd t0); auto; now right).
        replace (table_samples L M ls' (w_iter W t)) with (table_samples L M (mv_set v) (w_iter W t)); [easy|].
        assert (VV : forall e, In e (w_iter W t) -> valid (mv_set v) (entry_key e)).
        { intros e He. apply (Vd t (or_introl eq_refl)). eapply Permutation_in; [apply (wo_iter W WOK)|exact He]. }
        induction (w_iter W t) as [|e t' IHt]; [easy|]. cbn [table_samples].
        rewrite KD by (apply VV; now left). rewrite IHt by (intros; apply VV; now right). easy. }
      apply H. intros t It e Ie. apply In_nnth in It as (i & Hi). destruct (TI i t Hi) as (_ & _ & B).
      now apply B.
  Qed.

  Theorem lookup_creates_nothing : forall p ls v ops c os g, constructed W p ls v -> ok ls ->
    typed_ops wt ls ops -> wt ls g -> exec W (start v) ops = Done (c, os) ->
    exists v' r, vec_try_with_labels (w_bd W) L M (w_hash W) (cl_vec c) g = Done (v', r) /\
      vec_samples L M (w_iter W) v' = vec_samples L M (w_iter W) (cl_vec c) /\
      vec_get_cardinality L M v' = vec_get_cardinality L M (cl_vec c) /\
      (r = None <-> exists s', lg_encode L (mv_set (cl_vec c)) g = Done (s', None)) /\
      (r = None <-> vec_with_labels (w_bd W) L M (w_hash W) (cl_vec c) g = Panic).
  Proof.
    intros p ls v ops c os g C OK T Wg E.
    destruct (reached p ls v ops c os C OK T E) as (a & R & RL & K & Wt & Cd & Gr).
    apply Wt in Wg. pose proof RL as [OK' ES INV SL DOM IDS].
    destruct (step_refines (w_bd W) (w_default W) (w_hash W) (w_visits W) (w_grows W) (w_iter W) (w_geqb W)
      ok wt valid LAW (wo_geqb W WOK) (wo_visits W WOK) (wo_iter W WOK) c a (OpLookup g) RL)
      as (c' & o & a' & Es & _).
    { intros g' H. now injection H as <-. }
    cbn [vec_step] in Es. rewrite ES in Wg.
    destruct (law_encode _ _ _ _ LAW _ g OK' Wg) as (ls' & r & EE & OK2 & EC & WT' & KEEP & KI).
    unfold vec_with_labels, vec_try_with_labels in *. rewrite EE in *. cbn [obind] in *.
    set (v' := {| mv_metrics := mv_metrics (cl_vec c); mv_set := ls' |}) in *.
    assert (SS : vec_samples L M (w_iter W) v' = vec_samples L M (w_iter W) (cl_vec c)).
    { apply samples_stable; auto. intros u Vu. now apply KEEP. }
    assert (CC : vec_get_cardinality L M v' = vec_get_cardinality L M (cl_vec c)).
    { unfold vec_get_cardinality, v'. cbn [mv_metrics mv_set]. rewrite EC. easy. }
    assert (RF : (exists s', Done (ls', r) = Done (s', @None (lg_unique L))) <-> r = None).
    { destruct r; split; intros H; try easy; solve [destruct H; congruence|eauto]. }
    destruct r as [u|].
    - destruct (mv_metrics (cl_vec c)) as [cells|s] eqn:EM.
      + destruct (lg_encode_dense L ls' u) as [[i|]|] eqn:ED; cbn [obind] in *; try easy.
        destruct (debug_assert (w_bd W) (i <? nlen cells)) as [[]|]; cbn [obind] in *; [|easy].
        eexists. eexists. split; [reflexivity|]. rewrite RF. repeat split; auto; easy.
      + eexists. eexists. split; [reflexivity|]. rewrite RF. cbn [obind]. repeat split; auto; easy.
    - eexists. eexists. split; [reflexivity|]. rewrite RF. cbn [obind]. repeat split; auto; easy.
  Qed.

  (** Ids are equal exactly when their groups are. *)
  Theorem ids_equal_iff : forall p ls v ops c os h1 h2 id1 id2, constructed W p ls v -> ok ls ->
    typed_ops wt ls ops -> exec W (start v) ops = Done (c, os) ->
    nth_error (cl_ids c) h1 = Some id1 -> nth_error (cl_ids c) h2 = Some id2 ->
    (label_id_eqb L id1 id2 = true <-> nth_error (issued ops os) h1 = nth_error (issued ops os) h2).
  Proof.
    intros p ls v ops c os h1 h2 id1 id2 C OK T E N1 N2.
    destruct (reached p ls v ops c os C OK T E) as (a & R & RL & K & Wt & Cd & Gr). rewrite <- Gr.
    pose proof (nth_ids (w_bd W) (w_hash W) ok valid c a h1 RL) as H1.
    pose proof (nth_ids (w_bd W) (w_hash W) ok valid c a h2 RL) as H2.
    rewrite N1 in H1. rewrite N2 in H2.
    destruct H1 as (g1 & -> & (V1 & D1 & _) & _), H2 as (g2 & -> & (V2 & D2 & _) & _).
    unfold label_id_eqb. rewrite (law_eqb _ _ _ _ LAW). split.
    - intros HE. rewrite HE in D1. congruence.
    - intros HE. injection HE as <-. 
      exact (decode_inj ok wt valid LAW _ _ _ _ (rel_ok _ _ _ _ _ _ RL) V1 V2 D1 D2).
  Qed.

  (** C14 *)
  Theorem remove_sparse : forall p ls v ops c os h g (f : M -> M * N), constructed W p ls v -> ok ls ->
    typed_ops wt ls ops -> exec W (start v) ops = Done (c, os) -> storage_of v = KSparse ->
    nth_error (issued ops os) h = Some g ->
    exists c' l n r l' n' up,
      exec W c [OpCollect; OpCardinality; OpRemove h; OpCollect; OpCardinality; OpRemove h; OpAccess h f] =
        Done (c', [OutSamples l; OutCardinality n up; OutRemoved r; OutSamples l'; OutCardinality n' up;
                   OutRemoved None; OutValue (snd (f (w_default W)))]) /\
      (forall m, r = Some m <-> In (g, m) l) /\
      (forall g' m, In (g', m) l' <-> In (g', m) l /\ g' <> g) /\
      n = n' + match r with Some _ => 1 | None => 0 end.
  Proof.
    intros p ls v ops c os h g f C OK T E KS Hh.
    destruct (reached p ls v ops c os C OK T E) as (a & R & RL & K & Wt & Cd & Gr). rewrite <- Gr in Hh.
    destruct (exec_refines [OpCollect; OpCardinality; OpRemove h; OpCollect; OpCardinality; OpRemove h; OpAccess h f] c a RL)
      as (c' & os' & a' & E' & S & _).
    { apply typed_none. repeat constructor. }
    rewrite K, KS in S. rewrite E'. clear E' E R.
    inversion S as [|? ? o1 a1 ? os1 ? S1 R1]; subst. clear S. inversion S1; subst; try easy.
    inversion R1 as [|? ? o2 a2 ? os2 ? S2 R2]; subst. clear R1. inversion S2; subst; try easy.
    inversion R2 as [|? ? o3 a3 ? os3 ? S3 R3]; subst. clear R2. inversion S3; subst; try congruence.
    inversion R3 as [|? ? o4 a4 ? os4 ? S4 R4]; subst. clear R3. inversion S4; subst; try easy.
    inversion R4 as [|? ? o5 a5 ? os5 ? S5 R5]; subst. clear R4. inversion S5; subst; try easy.
    inversion R5 as [|? ? o6 a6 ? os6 ? S6 R6]; subst. clear R5. inversion S6; subst; try easy;
      [|cbn [a_groups] in *; congruence].
    inversion R6 as [|? ? o7 a7 ? os7 ? S7 R7]; subst. clear R6. inversion S7; subst; try easy;
      [|cbn [a_groups] in *; congruence].
    inversion R7; subst. clear R7. cbn [a_groups a_map a_set] in *.
    repeat match goal with H : nth_error _ h = Some ?x |- _ =>
      tryif constr_eq x g then fail else (assert (x = g) by congruence; subst x) end.
    match goal with H : bound (a_map _) g None mp' |- _ => rename H into B1 end.
    match goal with H : bound mp' g None ?m2 |- _ => rename H into B2 end.
    destruct B1 as [B1 B1']. destruct B2 as [B2 B2'].
    do 7 eexists. split.
    { match goal with H : f (current _ _ g) = _ |- _ => unfold current in H; cbn [a_map] in H; rewrite B2 in H; rewrite H end.
      rewrite B1. cbn [snd]. reflexivity. }
    match goal with H : forall g m, In (g, m) l <-> _ |- _ => rename H into IL end.
    match goal with H : forall g m, In (g, m) l0 <-> _ |- _ => rename H into IL0 end.
    match goal with H : forall x, In x gs <-> _ |- _ => rename H into IG end.
    match goal with H : forall x, In x gs0 <-> _ |- _ => rename H into IG0 end.
    split; [|split].
    - intros m. now rewrite IL.
    - intros g' m. rewrite IL, IL0. destruct (g_dec (w_geqb W) (wo_geqb W WOK) g' g) as [->|N].
      + rewrite B1. split; [easy|]. now intros [_ H'].
      + rewrite B1' by easy. tauto.
    - match goal with H : NoDup gs |- _ => rename H into NG end.
      match goal with H : NoDup gs0 |- _ => rename H into NG0 end.
      match goal with |- context [match a_map ?x g with _ => _ end] => destruct (a_map x g) as [m|] eqn:Eg end.
      + assert (P : Permutation gs (g :: gs0)).
        { apply NoDup_Permutation; auto.
          - constructor; [|easy]. rewrite IG0, B1. easy.
          - intros x. cbn [In]. rewrite IG, IG0. destruct (g_dec (w_geqb W) (wo_geqb W WOK) x g) as [->|N].
            + rewrite Eg. split; [now left|easy].
            + rewrite B1' by easy. split; [now right|]. intros [?|?]; [congruence|easy]. }
        apply Permutation_length in P. rewrite P. cbn [length]. lia.
      + assert (P : Permutation gs gs0).
        { apply NoDup_Permutation; auto. intros x. rewrite IG, IG0.
          destruct (g_dec (w_geqb W) (wo_geqb W WOK) x g) as [->|N].
          - rewrite Eg, B1. easy.
          - now rewrite B1' by easy. }
        apply Permutation_length in P. rewrite P. lia.
  Qed.

  Theorem remove_dense : forall p ls v ops c os h, constructed W p ls v -> ok ls ->
    typed_ops wt ls ops -> exec W (start v) ops = Done (c, os) -> storage_of v = KDense ->
    (h < length (issued ops os))%nat -> exec W c [OpRemove h] = Done (c, [OutRemoved None]).
  Proof.
    intros p ls v ops c os h C OK T E KD Hh.
    destruct (reached p ls v ops c os C OK T E) as (a & R & RL & K & Wt & Cd & Gr). rewrite <- Gr in Hh.
    pose proof (nth_ids (w_bd W) (w_hash W) ok valid c a h RL) as H1.
    unfold exec. cbn [vec_run vec_step]. destruct (nth_error (cl_ids c) h) as [id|].
    - unfold vec_remove_metric. unfold storage_of in K, KD. rewrite KD in K.
      destruct (mv_metrics (cl_vec c)); [|easy]. cbn [obind]. now destruct c.
    - apply nth_error_None in H1. lia.
  Qed.

  (** C15 *)
  Theorem cardinality_truthful : forall p ls v ops c os, constructed W p ls v -> ok ls ->
    typed_ops wt ls ops -> exec W (start v) ops = Done (c, os) ->
    exists l, exec W c [OpCollect; OpCardinality] =
        Done (c, [OutSamples l; OutCardinality (N.of_nat (length l)) (lg_cardinality L ls)]) /\
      NoDup (map fst l) /\
      (forall n, lg_cardinality L ls = Some n -> N.of_nat (length l) <= n).
  Proof.
    intros p ls v ops c os C OK T E.
    destruct (reached p ls v ops c os C OK T E) as (a & R & RL & K & Wt & Cd & Gr).
    destruct (exec_refines [OpCollect; OpCardinality] c a RL) as (c' & os' & a' & E' & S & _).
    { apply typed_none. repeat constructor. }
    assert (c' = c).
    { unfold exec in E'. cbn [vec_run vec_step] in E'.
      destruct (vec_samples L M (w_iter W) (cl_vec c)) as [l|]; [|easy]. cbn [obind] in E'.
      destruct (vec_get_cardinality L M (cl_vec c)) as [lo up]. cbn [obind] in E'. congruence. }
    subst c'. rewrite E'. clear E'. inversion S as [|? ? o1 a1 ? os1 ? S1 R1]; subst. clear S. inversion S1; subst; try easy.
    inversion R1 as [|? ? o2 a2 ? os2 ? S2 R2]; subst. clear R1. inversion S2; subst; try easy.
    inversion R2; subst. exists l. rewrite Cd in *.
    assert (LEN : length gs = length l).
    { rewrite <- (map_length fst l). apply Permutation_length, NoDup_Permutation; auto.
      intros g. rewrite in_map_iff. match goal with H : forall x, In x gs <-> _ |- _ => rewrite H end. split.
      - intros HG. match type of HG with a_map ?x _ <> _ => destruct (a_map x g) as [m|] eqn:Eg; [|easy] end. exists (g, m). split; [easy|]. now apply H0.
      - intros ([g' m] & <- & I). apply H0 in I. cbn [fst]. now rewrite I. }
    rewrite LEN in *. auto.
  Qed.

  (** C16 *)
  Theorem init_all_fills : forall p ls v ops c os n, constructed W p ls v -> ok ls ->
    typed_ops wt ls ops -> exec W (start v) ops = Done (c, os) -> storage_of v = KDense ->
    lg_cardinality L ls = Some n ->
    exists c' l l', exec W c [OpCollect; OpInitAll; OpCollect; OpCardinality] =
        Done (c', [OutSamples l; OutUnit; OutSamples l'; OutCardinality n (Some n)]) /\
      NoDup (map fst l') /\ N.of_nat (length l') = n /\
      (forall g m, In (g, m) l -> In (g, m) l') /\
      (forall g, known wt (mv_set (cl_vec c)) g -> ~ In g (map fst l) -> In (g, w_default W) l') /\
      (forall g m, In (g, m) l' -> In (g, m) l \/ (m = w_default W /\ known wt (mv_set (cl_vec c)) g)).
  Proof.
    intros p ls v ops c os n C OK T E KD Hn.
    destruct (reached p ls v ops c os C OK T E) as (a & R & RL & K & Wt & Cd & Gr).
    destruct (exec_refines [OpCollect; OpInitAll; OpCollect; OpCardinality] c a RL) as (c' & os' & a' & E' & S & RL' & _).
    { apply typed_none. repeat constructor. }
    rewrite K, KD in S. rewrite E'.
    assert (NN : forall lo up os0, os' = os0 ++ [OutCardinality lo up] -> lo = n).
    { intros lo up os0 ->. unfold exec in E'. cbn [vec_run vec_step] in E'.
      destruct (vec_samples L M (w_iter W) (cl_vec c)) as [l1|]; [|easy]. cbn [obind] in E'.
      destruct (vec_samples L M (w_iter W) _) as [l2|]; [|easy]. cbn [obind with_vec cl_vec] in E'.
      unfold vec_init_all_dense in E'. unfold storage_of in K, KD. rewrite KD in K.
      pose proof (rel_inner _ _ _ _ _ _ RL) as INV. pose proof (rel_set _ _ _ _ _ _ RL) as ES.
      destruct (mv_metrics (cl_vec c)) as [cells|s] eqn:EM; [|easy]. cbn [inner_inv] in INV.
      unfold vec_get_cardinality in E'. cbn [mv_metrics obind] in E'.
      assert (X : forall A (x y z : A) (w t : A) os0, [x; y; z; w] = os0 ++ [t] -> w = t).
      { intros A x y z w t os1 HX. change [x; y; z; w] with ([x; y; z] ++ [w]) in HX.
        now apply app_inj_tail in HX as [_ ?]. }
      injection E' as _ HX. apply X in HX. injection HX as <- _.
      rewrite ES, INV in Cd. rewrite Hn in Cd. injection Cd as <-. clear.
      induction cells as [|x cells IH]; [easy|]. cbn [map filter nlen]. destruct x; cbn [nlen]; now rewrite IH. }
    pose proof (rel_set _ _ _ _ _ _ RL) as ES. rewrite <- ES.
    clear E' E. inversion S as [|? ? o1 a1 ? os1 ? S1 R1]; subst. clear S. inversion S1; subst; try easy.
    inversion R1 as [|? ? o2 a2 ? os2 ? S2 R2]; subst. clear R1. inversion S2; subst; try easy.
    inversion R2 as [|? ? o3 a3 ? os3 ? S3 R3]; subst. clear R2. inversion S3; subst; try easy.
    inversion R3 as [|? ? o4 a4 ? os4 ? S4 R4]; subst. clear R3. inversion S4; subst; try easy.
    inversion R4; subst. clear R4. cbn [a_groups a_map a_set] in *.
    match goal with H : forall g m, In (g, m) l <-> _ |- _ => rename H into IL end.
    match goal with H : forall g m, In (g, m) l0 <-> _ |- _ => rename H into IL0 end.
    assert (NE : N.of_nat (length gs) = n) by (eapply (NN _ _ [_; _; _]); reflexivity).
    rewrite Cd, Hn in *.
    assert (LEN : length gs = length l0).
    { rewrite <- (map_length fst l0). apply Permutation_length, NoDup_Permutation; auto.
      intros g. rewrite in_map_iff. match goal with H : forall x, In x gs <-> _ |- _ => rewrite H end. split.
      - intros Hg. destruct (mp' g) as [m|] eqn:Eg; [|easy]. exists (g, m). split; [easy|]. now apply IL0.
      - intros ([g' m] & <- & I). apply IL0 in I. cbn [fst]. now rewrite I. }
    match goal with H : forall g m, a_map a1 g = Some m -> _ |- _ => rename H into M1 end.
    match goal with H : forall g, a_map a1 g = None -> known _ _ _ -> _ |- _ => rename H into M2 end.
    match goal with H : forall g, a_map a1 g = None -> ~ known _ _ _ -> _ |- _ => rename H into M3 end.
    exists c', l, l0. rewrite NE. split; [easy|]. split; [easy|]. split; [congruence|]. split; [|split].
    - intros g m I. apply IL0. apply M1. now apply IL.
    - intros g Kg NI. apply IL0. destruct (a_map a1 g) as [m|] eqn:Eg; [|now apply M2].
      exfalso. apply NI. apply in_map_iff. exists (g, m). split; [easy|]. now apply IL.
    - intros g m I. apply IL0 in I. destruct (a_map a1 g) as [m'|] eqn:Eg.
      + left. apply IL. rewrite (M1 _ _ Eg) in I. congruence.
      + right. assert (NNK : ~ ~ known wt (a_set a1) g).
        { intros NK. rewrite (M3 _ Eg NK) in I. easy. }
        pose proof (rel_dom _ _ _ _ _ _ RL' g m I) as (u & Vu & Du). cbn [a_set] in Vu, Du.
        pose proof (rel_ok _ _ _ _ _ _ RL') as OK'. rewrite <- (rel_set _ _ _ _ _ _ RL') in OK'. cbn [a_set] in OK'.
        destruct (law_valid _ _ _ _ LAW _ u OK' Vu) as (g' & Wg & Dg & Eg').
        assert (g' = g) by congruence. subst g'.
        assert (KN : known wt (a_set a1) g) by (split; eauto). split; [|easy].
        rewrite (M2 _ Eg KN) in I. congruence.
  Qed.

  Theorem init_all_sparse : forall v ids, storage_of v = KSparse ->
    exec W {| cl_vec := v; cl_ids := ids |} [OpInitAll] = Done ({| cl_vec := v; cl_ids := ids |}, [OutUnit]).
  Proof.
    intros v ids K. unfold exec. cbn [vec_run vec_step]. unfold vec_init_all_dense, storage_of in *.
    cbn [cl_vec]. destruct (mv_metrics v); [easy|]. reflexivity.
  Qed.

  (** C17 *)
  Theorem collects_live : forall p ls v ops c os, constructed W p ls v -> ok ls ->
    typed_ops wt ls ops -> exec W (start v) ops = Done (c, os) ->
    exists l, vec_samples L M (w_iter W) (cl_vec c) = Done l /\ NoDup (map fst l) /\
      (~ In OpInitAll ops ->
       forall g, In g (map fst l) <-> live_after (storage_of v) [] (fun _ => False) ops os g) /\
      (forall h g (read : M -> N), nth_error (issued ops os) h = Some g ->
         exists c', exec W c [OpAccess h (fun m => (m, read m))] =
           Done (c', [OutValue (read (match find (fun p => w_geqb W (fst p) g) l with
                                      | Some p => snd p | None => w_default W end))])).
  Proof.
    intros p ls v ops c os C OK T E.
    destruct (reached p ls v ops c os C OK T E) as (a & R & RL & K & Wt & Cd & Gr).
    destruct (exec_refines [OpCollect] c a RL) as (c' & os' & a' & E' & S & _).
    { apply typed_none. repeat constructor. }
    inversion S as [|? ? o1 a1 ? os1 ? S1 R1]; subst. inversion S1; subst; try easy. inversion R1; subst.
    exists l. unfold exec in E'. cbn [vec_run vec_step] in E'.
    destruct (vec_samples L M (w_iter W) (cl_vec c)) as [l'|]; [|easy]. cbn [obind] in E'.
    injection E' as _ ->. split; [easy|]. split; [easy|]. split.
    - intros NI g. pose proof (run_live _ _ _ (wo_geqb W WOK) _ ops _ _ _ (fun _ => False) R NI) as RLV.
      rewrite <- RLV; [|intros; cbn [a_map empty_astate]; easy]. rewrite in_map_iff. split.
      + intros ([g' m] & <- & I). apply H0 in I. cbn [fst]. congruence.
      + intros H'. destruct (a_map a' g) as [m|] eqn:Eg; [|easy]. exists (g, m). split; [easy|]. now apply H0.
    - intros h g read Hh. rewrite <- Gr in Hh.
      destruct (exec_refines [OpAccess h (fun m => (m, read m))] c a' RL) as (c2 & os2 & a2 & E2 & S2 & _).
      { apply typed_none. repeat constructor. }
      exists c2. rewrite E2. inversion S2 as [|? ? o3 a3 ? os3 ? S3 R3]; subst. inversion R3; subst.
      inversion S3; subst; [|congruence]. do 4 f_equal.
      match goal with HX : (_, _) = (_, _) |- _ => injection HX as _ <- end.
      assert (g0 = g) by congruence. subst g0. f_equal. unfold current.
      pose proof (glookup_In (w_geqb W) (wo_geqb W WOK) l g) as GL. unfold glookup in GL.
      destruct (a_map a' g) as [m|] eqn:Eg.
      + apply H0 in Eg. apply GL in Eg; [|easy]. destruct (find _ l) as [q|]; [|easy].
        cbn [option_map] in Eg. congruence.
      + destruct (find _ l) as [q|]; [|easy]. cbn [option_map] in GL.
        assert (X : a_map a' g = Some (snd q)) by (apply H0, GL; auto). congruence.
  Qed.

  (** Dense collections come in increasing position order. *)
  Theorem dense_order : forall p ls v ops c os, constructed W p ls v -> ok ls ->
    typed_ops wt ls ops -> exec W (start v) ops = Done (c, os) -> storage_of v = KDense ->
    exists l is, vec_samples L M (w_iter W) (cl_vec c) = Done l /\
      StronglySorted N.lt is /\
      Forall2 (fun i q => lg_decode_dense L (mv_set (cl_vec c)) i = Done (fst q)) is l.
  Proof.
    intros p ls v ops c os C OK T E KD.
    destruct (collects_live p ls v ops c os C OK T E) as (l & El & _). exists l.
    destruct (reached p ls v ops c os C OK T E) as (a & R & RL & K & _).
    rewrite KD in K. unfold storage_of in K. rewrite El.
    assert (X : exists is, StronglySorted N.lt is /\ Forall (N.le 0) is /\
      Forall2 (fun i q => lg_decode_dense L (mv_set (cl_vec c)) i = Done (fst q)) is l).
    { unfold vec_samples in El. destruct (mv_metrics (cl_vec c)) as [cells|]; [|easy]. clear -El.
      revert l El. generalize 0. induction cells as [|x cells IH]; intros base l El; cbn [dense_samples] in El.
      - injection El as <-. exists []. repeat constructor.
      - destruct x as [m|].
        + destruct (lg_decode_dense L (mv_set (cl_vec c)) base) as [g|] eqn:Eg; [|easy]. cbn [obind] in El.
          destruct (dense_samples L M _ (N.succ base) cells) as [r|] eqn:Er; [|easy]. injection El as <-.
          destruct (IH _ _ Er) as (is & SS & B & F). exists (base :: is). split; [|split].
          * constructor; [easy|]. eapply Forall_impl; [|exact B]. intros; cbn beta in *; lia.
          * constructor; [lia|]. eapply Forall_impl; [|exact B]. intros; cbn beta in *; lia.
          * constructor; easy.
        + destruct (IH _ _ El) as (is & SS & B & F). exists is. split; [easy|]. split; [|easy].
          eapply Forall_impl; [|exact B]. intros; cbn beta in *; lia. }
    destruct X as (is & SS & _ & F). exists is. easy.
  Qed.
End Top.

(** C10 *)
Theorem storage_irrelevant : forall {L M ok wt valid}, lawful L ok wt valid ->
  forall (W1 W2 : world L M), world_ok W1 -> world_ok W2 -> w_default W1 = w_default W2 ->
  forall p1 p2 ls v1 v2 ops1 ops2 c1 c2 os1 os2,
    constructed W1 p1 ls v1 -> constructed W2 p2 ls v2 -> ok ls ->
    typed_ops wt ls ops1 -> Forall2 same_op ops1 ops2 ->
    Forall (fun op => plain_op op \/ (storage_of v1 = storage_of v2 /\ op <> OpInitAll)) ops1 ->
    exec W1 (start v1) ops1 = Done (c1, os1) -> exec W2 (start v2) ops2 = Done (c2, os2) ->
    Forall2 same_out os1 os2.
Proof.
  intros L M ok wt valid LAW W1 W2 O1 O2 ED p1 p2 ls v1 v2 ops1 ops2 c1 c2 os1 os2 C1 C2 OK T1 F P E1 E2.
  assert (T2 : typed_ops wt ls ops2).
  { intros g I. apply T1. clear -F I. induction F as [|x y l1 l2 S F IH]; [easy|].
    destruct I as [->|I]; [|right; auto]. left. now inversion S. }
  set (W2' := {| w_bd := w_bd W2; w_default := w_default W2; w_hash := w_hash W2; w_visits := w_visits W2;
     w_grows := w_grows W2; w_iter := w_iter W2; w_geqb := w_geqb W1 |}).
  assert (O2' : world_ok W2') by (constructor; [apply O2|apply O2|apply O1]).
  destruct (refinement LAW W1 O1 p1 ls v1 C1 OK ops1 T1) as (c1' & os1' & a1 & E1' & R1).
  destruct (refinement LAW W2' O2' p2 ls v2 C2 OK ops2 T2) as (c2' & os2' & a2 & E2' & R2).
  rewrite E1 in E1'. injection E1' as <- <-.
  assert (X : exec W2' (start v2) ops2 = exec W2 (start v2) ops2) by reflexivity.
  rewrite X, E2 in E2'. injection E2' as <- <-. cbn [w_default w_geqb W2'] in R2. rewrite <- ED in R2.
  eapply (run_det _ _ _ (wo_geqb W1 O1)); eauto. unfold aequiv. auto.
Qed.

(** C11 *)
Theorem storage_choice : forall {L M} bd p ls, 1 <= p -> p * 4 <= 2 ^ 63 ->
  (exists v, vec_new bd L M p ls = Done v /\ mv_set v = ls /\
     (storage_of v = KDense <-> exists c, lg_cardinality L ls = Some c /\ c <= 1024) /\
     (forall cells, mv_metrics v = Dense cells -> lg_cardinality L ls = Some (N.of_nat (length cells)))) /\
  (vec_new_dense L M ls = Panic <-> lg_cardinality L ls = None) /\
  (forall v, vec_new_dense L M ls = Done v -> exists cells,
     mv_metrics v = Dense cells /\ lg_cardinality L ls = Some (N.of_nat (length cells))) /\
  (exists v, vec_new_sparse bd L M p ls = Done v /\ storage_of v = KSparse).
Proof.
  intros L M bd p ls P1 P2.
  assert (SP : exists s, sharded_new bd L M p = Done s).
  { unfold sharded_new. destruct (shard_in_bounds bd 64 p (or_intror eq_refl) P1 P2) as (n & E & _).
    rewrite E. cbn [obind]. eauto. }
  destruct SP as [s Es]. unfold vec_new, vec_new_dense, vec_new_sparse. rewrite Es. cbn [obind].
  assert (LEN : forall c, N.of_nat (length (new_dense M c)) = c).
  { intros c. unfold new_dense. rewrite repeat_length. lia. }
  split; [|split; [|split]].
  - destruct (lg_cardinality L ls) as [c|].
    + change DEFAULT_MAX_DENSE with 1024. destruct (N.leb_spec c 1024).
      * eexists. split; [reflexivity|]. split; [easy|]. split.
        -- split; [eauto|easy].
        -- intros cells HX. cbn [mv_metrics] in HX. injection HX as <-. now rewrite LEN.
      * eexists. split; [reflexivity|]. split; [easy|]. split; [|easy].
        split; [easy|]. intros (c' & HX & HY). injection HX as <-. lia.
    + eexists. split; [reflexivity|]. split; [easy|]. split; [|easy]. split; [easy|]. now intros (c' & HX & _).
  - now destruct (lg_cardinality L ls).
  - intros v. destruct (lg_cardinality L ls) as [c|]; [|easy]. intros HX. injection HX as <-.
    exists (new_dense M c). now rewrite LEN.
  - eexists. split; reflexivity.
Qed.

Theorem spec_deterministic : forall (L : lgset) (M : Type) (d : M) geqb wt,
  (forall a b : lg_group L, geqb a b = true <-> a = b) ->
  forall k ops a os1 os2 a1 a2, ~ In OpInitAll ops ->
  spec_run d geqb wt k a ops os1 a1 -> spec_run d geqb wt k a ops os2 a2 ->
  Forall2 same_out os1 os2 /\ (forall g, a_map a1 g = a_map a2 g).
Proof.
  intros L M d geqb wt GE k ops a os1 os2 a1 a2 NI R1 R2.
  destruct (run_det d geqb wt GE k k ops ops a a os1 os2 a1 a2) as [A (_ & B & _)]; auto.
  - unfold aequiv. auto.
  - clear. induction ops; constructor; auto. constructor.
  - apply Forall_forall. intros op I. right. split; [easy|]. intros ->. easy.
Qed.

(* ------------------------------------------------------------------ *)
(** ** The examples *)

Lemma group_val_eqb_spec : forall a b, group_val_eqb a b = true <-> a = b.
Proof.
  induction a as [|[n x] a IH]; intros [|[m y] b]; cbn [group_val_eqb]; try easy.
  rewrite !andb_true_iff, !beqb_spec, IH. split; [now intros [[-> ->] ->]|]. intros E. now injection E as -> -> ->.
Qed.

Lemma ex_world_ok : world_ok ex_world.
Proof.
  constructor.
  - intros h. apply N.eqb_refl.
  - intros t. symmetry. apply Permutation_rev.
  - exact group_val_eqb_spec.
Qed.

Lemma ex_constructed : forall (v : metric_vec (derived_lgset Debug) N) ls,
  vec_new Debug (derived_lgset Debug) N 3 ls = Done v \/
  vec_new_sparse Debug (derived_lgset Debug) N 3 ls = Done v -> constructed ex_world 3 ls v.
Proof.
  intros v ls H. split; [vm_compute; discriminate|]. split; [vm_compute; discriminate|].
  destruct H; [now left|right; now right].
Qed.

Ltac vm_refl := match goal with |- ?a = ?b => exact (@eq_refl _ b <: a = b) end.

Lemma ex_program_runs : exists c,
  constructed ex_world 3 ex_set ex_vec /\ sound_set ex_set /\
  @typed_ops (derived_lgset Debug) N well_shaped ex_set ex_program /\
  exec ex_world (start ex_vec) ex_program = Done (c,
    [ OutLookup (Some []); OutLookup (Some [false]); OutLookup None; OutLookup (Some [true; false]);
      OutValue 0; OutValue 0; OutValue 3; OutCardinality 2 None; OutRemoved (Some 4);
      ex_samples [(ex_group 80 120 98, 8)] ]).
Proof.
  exists (fst (ex_end (exec ex_world (start ex_vec) ex_program))).
  split; [apply ex_constructed; left; vm_refl|].
  split; [split; [apply LabelProofs.wf_group_check; reflexivity|split; reflexivity]|].
  split; [|vm_refl].
  intros g H. unfold ex_program, ex_lookup in H.
  repeat (destruct H as [H|H]; [first [discriminate H|injection H as <-; reflexivity]|]). destruct H.
Qed.

Lemma ex_fixed_runs : exists c1 c2 l,
  constructed ex_world 3 ex_fixed_set ex_dense_vec /\ constructed ex_world 3 ex_fixed_set ex_sparse_vec /\
  storage_of ex_dense_vec = KDense /\ storage_of ex_sparse_vec = KSparse /\ Forall plain_op ex_fixed_program /\
  exec ex_world (start ex_dense_vec) ex_fixed_program = Done (c1, l) /\
  exec ex_world (start ex_sparse_vec) ex_fixed_program = Done (c2, l) /\
  nth_error l 4 = Some (OutValue 3).
Proof.
  exists (fst (ex_end (exec ex_world (start ex_dense_vec) ex_fixed_program))),
         (fst (ex_end (exec ex_world (start ex_sparse_vec) ex_fixed_program))),
         (snd (ex_end (exec ex_world (start ex_sparse_vec) ex_fixed_program))).
  split; [apply ex_constructed; left; vm_refl|].
  split; [apply ex_constructed; right; vm_refl|].
  split; [vm_refl|]. split; [vm_refl|]. split; [repeat constructor|].
  split; [vm_refl|]. split; vm_refl.
Qed.

Lemma ex_fixed_init : exists c l, constructed ex_world 3 ex_fixed_set ex_dense_vec /\
  exec ex_world (start ex_dense_vec) (ex_fixed_program ++ [OpInitAll; OpCollect]) = Done (c, l) /\
  nth_error l 8 = Some (ex_samples
    [ ([([1], [71]); ([3], [97])], 0); ([([1], [71]); ([3], [98])], 0);
      ([([1], [80]); ([3], [97])], 0); ([([1], [80]); ([3], [98])], 4);
      ([([1], [68]); ([3], [97])], 3); ([([1], [68]); ([3], [98])], 0) ]).
Proof.
  exists (fst (ex_end (exec ex_world (start ex_dense_vec) (ex_fixed_program ++ [OpInitAll; OpCollect])))),
         (snd (ex_end (exec ex_world (start ex_dense_vec) (ex_fixed_program ++ [OpInitAll; OpCollect])))).
  split; [apply ex_constructed; left; vm_refl|]. split; vm_refl.
Qed.
