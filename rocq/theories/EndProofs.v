(** Calls on a metric vec and what a scrape reports (C62). *)
From Coq Require Import String List NArith ZArith Bool Lia Permutation.
From Verif Require Import Base BaseFacts Writer NameModel NameSpec LabelModel LabelSpec LabelProofs GroupProofs LawProofs VecModel VecSpec VecProofs VecTheorems
  FloatModel EncoderModel FamilyModel TextModel TextSpec EncoderSpec EncoderProofs TextTheorems TextExampleProofs MetricModel MetricSpec MetricProofs MetricTheorems HistTheorems
  ScrapeSpec ScrapeProofs ScrapeTheorems ScrapeVec CallModel EndSpec.
Import ListNotations.
Local Open Scope N_scope.

Section Calls.
  Context {L : lgset} {M : Type} {ok : lg_state L -> Prop} {wt : lg_state L -> lg_group L -> Prop}
          {valid : lg_state L -> lg_unique L -> Prop}.
  Hypothesis LAW : lawful L ok wt valid.
  Variable W : world L M.
  Hypothesis WOK : world_ok W.

  Definition code (f : M -> outcome M) : M -> M * N := fun m => match f m with Done m' => (m', 0) | Panic => (m, 1) end.

  (** The calls as a client program; ids are numbered from [i] on. *)
  Fixpoint program (i : nat) (calls : list (call L M)) : list (vec_op L M) :=
    match calls with
    | [] => []
    | c :: rest =>
      OpLookup (call_group c)
      :: match c with
         | Update false _ f => OpAccess i (code f)
         | Update true _ f => OpAccessMut i (code f)
         | Delete _ => OpRemove i
         end :: program (S i) rest
    end.

  Definition fine (o : vec_out L M) : Prop :=
    match o with OutLookup None => False | OutValue r => r = 0 | _ => True end.

  Lemma nth_last : forall {A} (l : list A) x, nth_error (l ++ [x]) (length l) = Some x.
  Proof. intros A l x. rewrite nth_error_app2 by lia. now rewrite Nat.sub_diag. Qed.

  Lemma run_program : forall calls v ids v', run_calls W calls v = Done v' ->
    exists c os, exec W {| cl_vec := v; cl_ids := ids |} (program (length ids) calls) = Done (c, os) /\
      cl_vec c = v' /\ Forall fine os.
  Proof.
    unfold exec. induction calls as [|c calls IH]; intros v ids v' R.
    - injection R as <-. eexists _, _. split; [reflexivity|]. split; [reflexivity|constructor].
    - cbn [run_calls] in R. destruct (run_call W c v) as [v1|] eqn:C; [|discriminate]. cbn [obind] in R.
      cbn [program vec_run vec_step cl_vec cl_ids].
      assert (X : exists v0 id, vec_try_with_labels (w_bd W) L M (w_hash W) v (call_group c) = Done (v0, Some id) /\
        match c with
        | Update ex _ f => exists r, r = 0 /\ (if ex then vec_get_metric_mut (w_bd W) L M (w_default W) (w_hash W) (w_visits W) (w_grows W) v0 id (code f)
                       else vec_get_metric (w_bd W) L M (w_default W) (w_hash W) (w_visits W) (w_grows W) v0 id (code f)) = Done (v1, r)
        | Delete _ => exists r, vec_remove_metric (w_bd W) L M (w_visits W) v0 id = Done (v1, r)
        end).
      { destruct c as [ex g f|g]; cbn [run_call call_group] in *; unfold vec_method, vec_delete, vec_with_labels in C;
          destruct (vec_try_with_labels _ _ _ _ v g) as [[v0 [id|]]|]; cbn [obind] in C; try discriminate; exists v0, id; (split; [reflexivity|]).
        - fold (code f) in C. set (Q := if ex then _ else _) in C. change (Q = Q) with (Q = Q) in C.
          destruct Q as [[v2 r]|] eqn:E in C; cbn [obind] in C; [|discriminate]. destruct (N.eqb_spec r 0) as [->|]; [|discriminate]. injection C as <-.
          exists 0. split; [reflexivity|]. exact E.
        - destruct (vec_remove_metric _ _ _ _ v0 id) as [[v2 r]|]; cbn [obind] in C; [|discriminate]. injection C as <-. now exists r. }
      destruct X as (v0 & id & E & X). rewrite E. cbn [obind].
      assert (LI : S (length ids) = length (ids ++ [id])) by (rewrite app_length; cbn; lia).
      destruct (IH v1 (ids ++ [id]) v' R) as (c' & os & E' & V & F). rewrite <- LI in E'.
      destruct c as [[|] g f|g]; cbn [vec_step cl_ids cl_vec] in *; rewrite nth_last.
      + destruct X as (r & R0 & ->). unfold with_vec. cbn [obind cl_ids]. rewrite E'. eexists _, _. split; [reflexivity|].
        split; [exact V|]. repeat constructor; assumption.
      + destruct X as (r & R0 & ->). unfold with_vec. cbn [obind cl_ids]. rewrite E'. eexists _, _. split; [reflexivity|].
        split; [exact V|]. repeat constructor; assumption.
      + destruct X as (r & ->). unfold with_vec. cbn [obind cl_ids]. rewrite E'. eexists _, _. split; [reflexivity|].
        split; [exact V|]. repeat constructor; assumption.
  Qed.

  Notation SRUN := (spec_run (w_default W) (w_geqb W) wt).

  Lemma geqb_false : forall a b, a <> b -> w_geqb W a b = false.
  Proof. intros a b N. destruct (w_geqb W a b) eqn:E; [|reflexivity]. now apply (wo_geqb W WOK) in E. Qed.
  Lemma geqb_true : forall a, w_geqb W a a = true.
  Proof. intros a. now apply (wo_geqb W WOK). Qed.
  Lemma group_dec : forall a b : lg_group L, a = b \/ a <> b.
  Proof. intros a b. destruct (w_geqb W a b) eqn:E; [left; now apply (wo_geqb W WOK)|right; intros ->; now rewrite geqb_true in E]. Qed.

  Lemma program_after : forall k calls a os a', SRUN k a (program (length (a_groups a)) calls) os a' -> Forall fine os ->
    forall g, a_map a' g = fold_left (call_effect (w_geqb W) k (w_default W) g) calls (a_map a g).
  Proof.
    intros k. induction calls as [|c calls IH]; intros a os a' R F g.
    - inversion R; subst. reflexivity.
    - cbn [program] in R. inversion R as [|? ? o1 a1 ? os1 ? S1 R1]; subst. inversion R1 as [|? ? o2 a2 ? os2 ? S2 R2]; subst.
      inversion F as [|? ? F1 F']; subst. inversion F' as [|? ? F2 F3]; subst.
      inversion S1; subst; cbn [fine] in F1; try contradiction.
      set (a1 := {| a_set := s'; a_map := a_map a; a_groups := a_groups a ++ [call_group c] |}) in *.
      assert (LL : S (length (a_groups a)) = length (a_groups a1)) by (cbn [a_groups a1]; rewrite app_length; cbn; lia).
      assert (X : a_groups a2 = a_groups a1 /\ a_map a2 g = call_effect (w_geqb W) k (w_default W) g (a_map a g) c).
      { assert (NT : nth_error (a_groups a1) (length (a_groups a)) = Some (call_group c)) by apply nth_last.
        destruct c as [[|] h f|h]; cbn [call_group] in NT; inversion S2; subst; cbn [a_groups a_map call_effect fine] in *;
          try congruence; (split; [reflexivity|]);
          repeat match goal with H : nth_error (a_groups a1) _ = Some ?x |- _ => rewrite NT in H; injection H as <- end.
        1,2: unfold code, current in *; cbn [a1 a_map] in *;
          match goal with H : bound _ _ _ _ |- _ => destruct H as [B1 B2] end;
          destruct (group_dec h g) as [<-|NE]; [rewrite geqb_true, B1|rewrite (geqb_false _ _ NE); apply B2; congruence];
          destruct (f _) eqn:Ef; [congruence|]; exfalso; congruence.
        all: try reflexivity.
        match goal with H : bound _ _ _ _ |- _ => destruct H as [B1 B2] end. cbn [a1 a_map] in *.
          destruct (group_dec h g) as [<-|NE]; [now rewrite geqb_true, B1|rewrite (geqb_false _ _ NE); apply B2; congruence]. }
      destruct X as [X1 X2]. rewrite LL, <- X1 in R2. cbn [fold_left]. rewrite <- X2. now apply (IH a2 os2).
  Qed.

  Lemma program_lookups : forall calls i g, In (OpLookup g) (program i calls) -> In g (map call_group calls).
  Proof.
    induction calls as [|c calls IH]; intros i g I; [destruct I|]. cbn [program map] in *. destruct I as [E|[E|I]].
    - injection E as <-. now left.
    - destruct c as [[|]|]; discriminate.
    - right. exact (IH _ _ I).
  Qed.

  (** After calls that did not panic the vec collects exactly what they made. *)
  Theorem calls_collected : forall p ls v calls v', constructed W p ls v -> ok ls ->
    Forall (wt ls) (map call_group calls) -> run_calls W calls v = Done v' ->
    exists l, vec_samples L M (w_iter W) v' = Done l /\ NoDup (map fst l) /\
      forall g m, In (g, m) l <-> after (w_geqb W) (storage_of v) (w_default W) calls g = Some m.
  Proof.
    intros p ls v calls v' C OK T R.
    destruct (run_program calls v [] v' R) as (c & os & E & V & F). cbn [length] in E.
    assert (T' : typed_ops wt ls (program 0 calls)).
    { intros g I. apply program_lookups in I. rewrite Forall_forall in T. now apply T. }
    destruct (reached LAW W WOK p ls v (program 0 calls) c os C OK T' E) as (a & S & RL & ST & _).
    pose proof (program_after _ calls (empty_astate ls) os a S F) as A. cbn [empty_astate a_map] in A.
    assert (T2 : typed_ops wt (a_set a) [@OpCollect L M]) by (intros g [I|[]]; discriminate).
    destruct (exec_refines LAW W WOK [OpCollect] c a RL T2) as (c2 & os2 & a2 & E2 & S2 & _).
    unfold exec in E2. cbn [vec_run vec_step] in E2. rewrite V in E2.
    destruct (vec_samples L M (w_iter W) v') as [l|] eqn:VS; cbn [obind] in E2; [|discriminate]. injection E2 as <- <-.
    exists l. split; [reflexivity|]. inversion S2 as [|? ? ? ? ? ? ? S3 _]; subst. inversion S3; subst; try contradiction.
    split; [assumption|]. intros g m. unfold after. rewrite <- A. auto.
  Qed.

  Lemma one_call : forall c v ids c2 os, exec W {| cl_vec := v; cl_ids := ids |} (program (length ids) [c]) = Done (c2, os) ->
    exists o1 o2, os = [o1; o2] /\
      (o1 = OutLookup None -> vec_with_labels (w_bd W) L M (w_hash W) v (call_group c) = Panic) /\
      (fine o1 -> fine o2 -> exists v', run_call W c v = Done v').
  Proof.
    intros c v ids c2 os E. unfold exec in E. cbn [program vec_run vec_step cl_vec cl_ids] in E.
    assert (X : run_call W c v = match vec_try_with_labels (w_bd W) L M (w_hash W) v (call_group c) with
      | Done (v0, Some id) =>
        match c with
        | Update ex _ f =>
          match (if ex then vec_get_metric_mut (w_bd W) L M (w_default W) (w_hash W) (w_visits W) (w_grows W) v0 id (code f)
                 else vec_get_metric (w_bd W) L M (w_default W) (w_hash W) (w_visits W) (w_grows W) v0 id (code f)) with
          | Done (v1, r) => if r =? 0 then Done v1 else Panic
          | Panic => Panic
          end
        | Delete _ => match vec_remove_metric (w_bd W) L M (w_visits W) v0 id with Done (v1, _) => Done v1 | Panic => Panic end
        end
      | _ => Panic
      end).
    { clear. destruct c as [ex g f|g]; cbn [run_call call_group]; unfold vec_method, vec_delete, vec_with_labels;
        destruct (vec_try_with_labels _ _ _ _ v g) as [[v0 [id|]]|]; cbn [obind]; try reflexivity.
      - destruct (vec_remove_metric _ _ _ _ v0 id) as [[v1 r]|]; reflexivity. }
    rewrite X. unfold vec_with_labels. clear X.
    destruct (vec_try_with_labels _ _ _ _ v (call_group c)) as [[v0 [id|]]|]; cbn [obind] in *; [| |discriminate].
    - destruct c as [[|] g f|g]; cbn [vec_step cl_ids cl_vec] in E; rewrite nth_last in E;
        match type of E with
        | context [vec_get_metric_mut ?a ?b ?c ?d ?e ?f ?g v0 id ?h] => destruct (vec_get_metric_mut a b c d e f g v0 id h) as [[v1 r]|]
        | context [vec_get_metric ?a ?b ?c ?d ?e ?f ?g v0 id ?h] => destruct (vec_get_metric a b c d e f g v0 id h) as [[v1 r]|]
        | context [vec_remove_metric ?a ?b ?c ?d v0 id] => destruct (vec_remove_metric a b c d v0 id) as [[v1 r]|]
        end; cbn [obind] in E; try discriminate;
        injection E as <- <-; eexists _, _; (split; [reflexivity|]); (split; [discriminate|]); intros _ Fr; cbn [fine] in Fr; try subst r; eexists; reflexivity.
    - assert (NN : nth_error ids (length ids) = None) by (apply nth_error_None; lia).
      destruct c as [[|] g f|g]; cbn [vec_step with_vec cl_ids cl_vec] in E; rewrite NN in E; cbn [obind] in E; injection E as <- <-;
        eexists _, _; (split; [reflexivity|]); (split; [reflexivity|intros []]).
  Qed.

  (** A call panics only if its group is refused or the guard's method does. *)
  Theorem calls_panic : forall p ls v calls, constructed W p ls v -> ok ls ->
    Forall (wt ls) (map call_group calls) -> run_calls W calls v = Panic ->
    exists pre c post v1, calls = pre ++ c :: post /\ run_calls W pre v = Done v1 /\
      (vec_with_labels (w_bd W) L M (w_hash W) v1 (call_group c) = Panic \/
       exists ex g f, c = Update ex g f /\
         f (match after (w_geqb W) (storage_of v) (w_default W) pre g with Some m => m | None => w_default W end) = Panic).
  Proof.
    intros p ls v calls C OK T R.
    assert (X : exists pre c post v1, calls = pre ++ c :: post /\ run_calls W pre v = Done v1 /\ run_call W c v1 = Panic).
    { clear - R. revert v R. induction calls as [|c calls IH]; intros v R; [discriminate|]. cbn [run_calls] in R.
      destruct (run_call W c v) as [v1|] eqn:E; cbn [obind] in R.
      - destruct (IH v1 R) as (pre & c' & post & v2 & -> & P & Q). exists (c :: pre), c', post, v2. split; [reflexivity|]. cbn [run_calls]. rewrite E. auto.
      - exists [], c, calls, v. auto. }
    destruct X as (pre & c & post & v1 & -> & P & Q). exists pre, c, post, v1. split; [reflexivity|]. split; [exact P|].
    destruct (run_program pre v [] v1 P) as (cl & os & E & V & F). cbn [length] in E.
    rewrite map_app in T. apply Forall_app in T as [T1 T2]. inversion T2 as [|? ? TC _]; subst.
    assert (T' : typed_ops wt ls (program 0 pre)).
    { intros g I. apply program_lookups in I. rewrite Forall_forall in T1. now apply T1. }
    destruct (reached LAW W WOK p ls v (program 0 pre) cl os C OK T' E) as (a & S & RL & ST & Wt & _ & _).
    pose proof (program_after _ pre (empty_astate ls) os a S F) as A. cbn [empty_astate a_map] in A.
    assert (T3 : typed_ops wt (a_set a) (program (length (cl_ids cl)) [c])).
    { intros g I. apply program_lookups in I. destruct I as [<-|[]]. now apply Wt. }
    destruct (exec_refines LAW W WOK _ cl a RL T3) as (c2 & os2 & a2 & E2 & S2 & _). rewrite ST in S2.
    assert (LI : length (cl_ids cl) = length (a_groups a)) by (pose proof (rel_ids _ _ _ _ _ _ RL) as FI; clear - FI; induction FI; cbn; congruence).
    destruct cl as [v1 ids]. cbn [cl_vec cl_ids] in *.
    destruct (one_call c v1 ids c2 os2 E2) as (o1 & o2 & -> & O1 & O2).
    cbn [program] in S2. inversion S2 as [|? ? ? a1 ? ? ? S3 R3]; subst. inversion R3 as [|? ? ? a3 ? ? ? S4 R4]; subst.
    inversion S3; subst; [|left; now apply O1|contradiction].
    right. destruct c as [ex g f|g].
    - exists ex, g, f. split; [reflexivity|]. cbn [call_group] in *. unfold after. rewrite <- A.
      destruct (f match a_map a g with Some m => m | None => w_default W end) as [m'|] eqn:Ef; [exfalso|reflexivity].
      assert (X : fine o2).
      { destruct ex; inversion S4; subst; cbn [fine a_groups a_map] in *; try exact I;
          match goal with H : nth_error (a_groups a ++ [g]) _ = Some ?x |- _ => rewrite LI, nth_last in H; injection H as <- end;
          unfold current, code in *; cbn [a_map] in *; rewrite Ef in *; congruence. }
      destruct (O2 I X) as (v' & X'). congruence.
    - exfalso. assert (X : fine o2) by (inversion S4; subst; exact I). destruct (O2 I X) as (v' & X'). congruence.
  Qed.
End Calls.

Section Scrape.
  Variable heck : rename_all -> bytes -> bytes.
  Variable ryu : f64 -> bytes.

  (** A set that has learned new values shows groups as before. *)
  Lemma set_ext_shown : forall s s' g ls, set_ext s s' -> group_shown heck s' g ls -> group_shown heck s g ls.
  Proof.
    intros s s' g ls X. revert g ls. induction X as [|f f' s s' E X IH]; intros g ls H; inversion H; subst; [constructor| |];
      destruct E as (E1 & E2 & E3 & E4 & _); rewrite E1.
    - apply GS_renamed; [congruence| |now apply IH]. destruct (is_dynamic (f_set f)) eqn:D; [|now rewrite E4 in * by reflexivity].
      destruct (f_set f), (f_set f'); try discriminate. match goal with V : value_shown _ _ _ _ |- _ => inversion V; subst end. constructor.
    - apply GS_named; [congruence| |now apply IH]. destruct (is_dynamic (f_set f)) eqn:D; [|now rewrite E4 in * by reflexivity].
      destruct (f_set f), (f_set f'); try discriminate. match goal with V : value_shown _ _ _ _ |- _ => inversion V; subst end. constructor.
  Qed.

  Theorem scrape_reports : forall bd M (W : world (derived_lgset bd) M), world_ok W -> float_text_ok ryu ->
    forall p s v (calls : list (call (derived_lgset bd) M)) v', constructed W p s v -> sound_set s ->
    Forall (well_shaped s) (map call_group calls) -> run_calls W calls v = Done v' ->
    let result := after (w_geqb W) (storage_of v) (w_default W) calls in
    forall k read, (forall m, metric_kind (read m) = k) -> Forall (fun f => valid_label_name (field_label f)) s ->
    (forall g m, result g = Some m -> metric_in_range (read m)) ->
    forall G nss base pre post w,
    group_events [] G (pre ++ family_events nss base (vec_family (derived_lgset bd) M (w_iter W) (group_visit heck s) k read v') ++ post) ->
    Forall event_ok (pre ++ post) -> Forall valid_metric_name (base :: nss) -> reliable w ->
    exists st out items before lines behind gs,
      collect_group (text_encoder ryu bd) G (text_new w) = (st, ROk) /\ w_out (te_writer st) = w_out w ++ out /\
      parse out = Some items /\ filter meaningful items = before ++ lines ++ behind /\
      NoDup gs /\ (forall g, In g gs <-> result g <> None) /\
      family_lines (full_name nss base []) k
        (fun g part => exists ls m, group_shown heck s g ls /\ result g = Some m /\ metric_lines ryu nss base ls (read m) part) gs lines.
  Proof.
    intros bd M W WOK RY p s v calls v' C OK T R result k read K LV RG G nss base pre post w GE EV NM RW.
    pose proof (derived_lawful_sound bd) as LAW.
    destruct (calls_collected LAW W WOK p s v calls v' C OK T R) as (l & VS & ND & IN). fold result in IN.
    destruct (run_program W calls v [] v' R) as (c & os & E & V & _). cbn [length] in E.
    assert (T' : @typed_ops (derived_lgset bd) M well_shaped s (program 0 calls)).
    { intros g I. apply program_lookups in I. rewrite Forall_forall in T. now apply T. }
    destruct (vec_groups bd M W WOK p s v (program 0 calls) c os C OK T' E) as (l' & VS' & _ & SE & SO & MEM).
    rewrite V in VS', MEM, SE, SO. rewrite VS in VS'. injection VS' as <-.
    assert (SH : forall g m, In (g, m) l -> group_shown heck s g (group_visit heck s g)).
    { intros g m I. rewrite Forall_forall in MEM. apply (set_ext_shown s _ g _ SE).
      rewrite <- (set_ext_visit heck _ _ g SE). apply (visit_exact heck _ g (proj1 SO) (MEM _ I)). reflexivity. }
    unfold vec_family in GE. rewrite VS in GE. cbn [obind family_events] in GE. rewrite map_map in GE.
    assert (EV' : Forall event_ok (pre ++ (EvType nss base k :: map (fun q => EvSample nss base (group_visit heck s (fst q)) (read (snd q))) l) ++ post)).
    { apply Forall_app in EV as [E1 E2]. apply Forall_app. split; [exact E1|]. apply Forall_app. split; [|exact E2].
      constructor; [exact NM|]. apply Forall_forall. intros e I. apply in_map_iff in I. destruct I as ([g m] & <- & I). cbn [event_ok fst snd].
      split; [exact NM|]. split; [|apply (RG g), IN, I].
      unfold labels_valid, group_visit. apply Forall_map. cbn [fst]. exact LV. }
    destruct (text_round_trip ryu bd G _ w RY GE EV' RW) as (st & out & items & E1 & E2 & E3 & (parts & P1 & P2) & _).
    apply Forall2_app_inv_l in P1 as (p1 & p23 & _ & P1 & ->). apply Forall2_app_inv_l in P1 as (p2 & p3 & P1 & _ & ->).
    inversion P1 as [|? i2 ? parts2 EL PS]; subst. cbn [event_lines] in EL. subst i2.
    exists st, out, items, (concat p1), (Type_ (full_name nss base []) (kind_word k) :: concat parts2), (concat p3), (map fst l).
    split; [exact E1|]. split; [exact E2|]. split; [exact E3|].
    split; [rewrite P2, !concat_app; reflexivity|]. split; [exact ND|]. split.
    - intros g. rewrite in_map_iff. split.
      + intros ([g' m] & <- & I). apply IN in I. cbn [fst]. congruence.
      + intros N. destruct (result g) as [m|] eqn:RR; [|contradiction]. exists (g, m). split; [reflexivity|]. now apply IN.
    - exists parts2. split; [reflexivity|].
      assert (X : forall l0 parts0, incl l0 l ->
        Forall2 (event_lines ryu) (map (fun q => EvSample nss base (group_visit heck s (fst q)) (read (snd q))) l0) parts0 ->
        Forall2 (fun g part => exists ls m, group_shown heck s g ls /\ result g = Some m /\ metric_lines ryu nss base ls (read m) part) (map fst l0) parts0).
      { clear - IN SH. induction l0 as [|[g m] l0 IH]; intros parts0 SUB PS; inversion PS; subst; cbn [map fst]; constructor.
        - exists (group_visit heck s g), m. split; [apply (SH g m), SUB; now left|]. split; [apply IN, SUB; now left|assumption].
        - apply IH; [intros q I; apply SUB; now right|assumption]. }
      exact (X l parts2 (incl_refl l) PS).
  Qed.
End Scrape.
