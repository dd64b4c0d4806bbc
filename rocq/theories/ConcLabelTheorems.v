(** Lookups by several threads. *)
From Coq Require Import List NArith ZArith Bool Arith Lia.
From Verif Require Import Base BaseFacts LabelModel LabelSpec LabelProofs GroupProofs LawProofs
  ConcModel ConcSpec ConcProofs ConcLabelModel ConcLabelSpec ConcLabelProofs.
Import ListNotations.

Lemma label_lookups : forall bd fields loc accepts m0 prog s i g r,
  sound_set fields -> (forall l, NoDup (m0 l)) -> lookups_shaped fields prog ->
  let c := run (label_machine bd fields loc accepts) prog s (start_config m0) in
  let now := current fields loc accepts (c_sh c) in
  In (LEncode g, r) (t_done (c_th c i)) ->
  r = LId None \/
  exists u, r = LId (Some u) /\ group_decode bd now u = Done g /\ group_encode bd now g = Done (now, Some u).
Proof.
  intros bd fields loc accepts m0 prog s i g r SO ND SH c now H.
  pose proof (sound_ok _ SO) as OK.
  destruct (encoded bd fields loc accepts OK m0 ND prog SH s i g r H) as (W & [u|] & -> & K); [|now left].
  right. exists u. split; [reflexivity|].
  pose proof (current_group_ok bd fields loc accepts OK m0 ND prog SH s) as OK'. split.
  - apply (known_decode bd fields loc accepts); [apply OK'|exact W|exact K].
  - apply (known_encode bd fields loc accepts); [exact OK'|exact K].
Qed.

Lemma label_unique : forall bd fields loc accepts m0 prog s,
  sound_set fields -> (forall l, NoDup (m0 l)) -> lookups_shaped fields prog ->
  let c := run (label_machine bd fields loc accepts) prog s (start_config m0) in
  forall i j g1 g2 u1 u2,
    In (LEncode g1, LId (Some u1)) (t_done (c_th c i)) -> In (LEncode g2, LId (Some u2)) (t_done (c_th c j)) ->
    (u1 = u2 <-> g1 = g2).
Proof.
  intros bd fields loc accepts m0 prog s SO ND SH c i j g1 g2 u1 u2 H1 H2.
  destruct (label_lookups bd fields loc accepts m0 prog s i g1 _ SO ND SH H1) as [|(v1 & E1 & D1 & C1)]; [discriminate|].
  destruct (label_lookups bd fields loc accepts m0 prog s j g2 _ SO ND SH H2) as [|(v2 & E2 & D2 & C2)]; [discriminate|].
  injection E1 as <-. injection E2 as <-. split; intros ->; congruence.
Qed.

Lemma label_decodes : forall bd fields loc accepts m0 prog s1 s2,
  sound_set fields -> (forall l, NoDup (m0 l)) -> lookups_shaped fields prog ->
  let c1 := run (label_machine bd fields loc accepts) prog s1 (start_config m0) in
  let c2 := run (label_machine bd fields loc accepts) prog (s1 ++ s2) (start_config m0) in
  forall i g u, In (LEncode g, LId (Some u)) (t_done (c_th c1 i)) ->
  forall j, t_cur (c_th c1 j) = None ->
  exists later, t_done (c_th c2 j) = t_done (c_th c1 j) ++ later /\
    forall r, In (LDecode u, r) later -> r = LGroup g.
Proof.
  intros bd fields loc accepts m0 prog s1 s2 SO ND SH c1 c2 i g u H j IDLE.
  pose proof (sound_ok _ SO) as OK.
  destruct (encoded bd fields loc accepts OK m0 ND prog SH s1 i g _ H) as (W & o & E & K).
  injection E as <-.
  destruct (decodes bd fields loc accepts OK m0 ND prog SH g u W s1 K j IDLE s2) as (_ & (rest & D & F) & _).
  exists rest. split; [exact D|]. intros r Hr. rewrite Forall_forall in F. exact (F _ Hr eq_refl).
Qed.

Lemma label_rejection : forall bd fields loc accepts m0 prog s i g,
  sound_set fields -> (forall l, NoDup (m0 l)) -> lookups_shaped fields prog ->
  In (LEncode g, LId None) (t_done (c_th (run (label_machine bd fields loc accepts) prog s (start_config m0)) i)) ->
  exists s1 s2 f v, s = s1 ++ s2 /\
    In f (current fields loc accepts (c_sh (run (label_machine bd fields loc accepts) prog s1 (start_config m0)))) /\
    field_value g (f_name f) v /\ refuses f v.
Proof.
  intros bd fields loc accepts m0 prog s i g SO ND SH H. pose proof (sound_ok _ SO) as OK.
  destruct (encoded bd fields loc accepts OK m0 ND prog SH s i g _ H) as (W & o & E & K).
  injection E as <-. exact K.
Qed.

Lemma label_fixed_rejection : forall bd fields loc accepts m0 prog s i g r f v,
  sound_set fields -> (forall l, NoDup (m0 l)) -> lookups_shaped fields prog ->
  In f fields -> is_dynamic (f_set f) = false -> field_value g (f_name f) v -> refuses f v ->
  In (LEncode g, r) (t_done (c_th (run (label_machine bd fields loc accepts) prog s (start_config m0)) i)) ->
  r = LId None.
Proof.
  intros bd fields loc accepts m0 prog s i g r f v SO ND SH Hf Df Hv [NI _] H. pose proof (sound_ok _ SO) as OK.
  destruct (encoded bd fields loc accepts OK m0 ND prog SH s i g _ H) as (W & [u|] & -> & K); [|reflexivity].
  exfalso. destruct K as (ds & D & _). apply (field_value_get fields) in Hv; [|apply OK|exact W|exact Hf]. subst v.
  apply NI. assert (In f (fixed fields)) as IN by (apply In_fixed; auto). clear - D IN.
  induction D as [|f' fs d ds Hd Hds IH]; [easy|]. destruct IN as [->|IN]; [|auto]. eapply nnth_In; eauto.
Qed.

(** Without others in between: the sequential functions. *)
Section Alone.
  Variable bd : build.
  Variable fields : group_set.
  Variable loc : bytes -> nat.
  Variable accepts : nat -> list bytes -> bytes -> bool.
  Notation M := (label_machine bd fields loc accepts).
  Notation cur := (current fields loc accepts).
  Hypothesis NDF : NoDup (map f_name fields).
  Hypothesis INJ : forall f f', In f fields -> In f' fields -> is_dynamic (f_set f) = true -> is_dynamic (f_set f') = true ->
    loc (f_name f) = loc (f_name f') -> f_name f = f_name f'.

  Lemma update_current : forall m f elems, In f fields -> is_dynamic (f_set f) = true ->
    update_set (f_name f) (SInterner (accepts (loc (f_name f))) elems) (cur m) = cur (upd m (loc (f_name f)) elems).
  Proof.
    intros m f elems Hf Df. unfold update_set, current. rewrite map_map. apply map_ext_in. intros f' Hf'.
    destruct (is_dynamic (f_set f')) eqn:D'; cbn [f_name f_rename].
    - destruct (beqb (f_name f') (f_name f)) eqn:E.
      + apply beqb_spec in E. rewrite E, upd_same. reflexivity.
      + rewrite upd_other; [reflexivity|]. intro L. assert (f_name f' = f_name f) as X by now apply INJ.
        rewrite X, beqb_refl in E. discriminate.
    - destruct (beqb (f_name f') (f_name f)) eqn:E; [|reflexivity]. exfalso. apply beqb_spec in E.
      assert (f' = f) by (eapply field_by_name; eauto). congruence.
  Qed.

  (** Turns of thread [i] alone lead from [c] to shared state [sh] and thread state [t]. *)
  Definition leads (prog : program label_op label_res) (i : nat) (c : config interners label_op label_res label_mic)
      (sh : interners) (t : thread label_op label_res label_mic) : Prop :=
    exists s, Forall (fun ic => fst ic = i) s /\ c_sh (run M prog s c) = sh /\ c_th (run M prog s c) i = t.

  Lemma leads_step : forall prog i c op mic sh' nxt sh t, t_cur (c_th c i) = Some (op, mic) ->
    label_step bd fields loc accepts i 0 mic (c_sh c) = Some (sh', nxt) ->
    (forall c', c_sh c' = sh' ->
       c_th c' i = match nxt with
                   | inl mic' => {| t_cur := Some (op, mic'); t_done := t_done (c_th c i) |}
                   | inr r => {| t_cur := None; t_done := t_done (c_th c i) ++ [(op, r)] |}
                   end -> leads prog i c' sh t) ->
    leads prog i c sh t.
  Proof.
    intros prog i c op mic sh' nxt sh t CUR ST H.
    assert (E : c_sh (step M prog (i, 0) c) = sh' /\
      c_th (step M prog (i, 0) c) i = match nxt with
                   | inl mic' => {| t_cur := Some (op, mic'); t_done := t_done (c_th c i) |}
                   | inr r => {| t_cur := None; t_done := t_done (c_th c i) ++ [(op, r)] |}
                   end).
    { unfold step. rewrite CUR. change (m_step M i 0 mic (c_sh c)) with (label_step bd fields loc accepts i 0 mic (c_sh c)).
      rewrite ST. destruct nxt; cbn [c_sh c_th]; now rewrite upd_same. }
    destruct (H _ (proj1 E) (proj2 E)) as (s & F & E1 & E2). exists ((i, 0) :: s).
    split; [constructor; [reflexivity|exact F]|]. split; assumption.
  Qed.

  Lemma leads_here : forall prog i c, leads prog i c (c_sh c) (c_th c i).
  Proof. intros prog i c. exists []. split; [constructor|split; reflexivity]. Qed.

  Lemma leads_now : forall prog i c sh t, c_sh c = sh -> c_th c i = t -> leads prog i c sh t.
  Proof. intros prog i c sh t <- <-. apply leads_here. Qed.

  Lemma leads_begin : forall prog i c op sh t, t_cur (c_th c i) = None -> prog i (t_done (c_th c i)) = Some op ->
    (forall c', c_sh c' = c_sh c -> c_th c' i = {| t_cur := Some (op, label_begin op); t_done := t_done (c_th c i) |} ->
       leads prog i c' sh t) ->
    leads prog i c sh t.
  Proof.
    intros prog i c op sh t CUR PR H.
    assert (E : c_sh (step M prog (i, 0) c) = c_sh c /\
      c_th (step M prog (i, 0) c) i = {| t_cur := Some (op, label_begin op); t_done := t_done (c_th c i) |}).
    { unfold step. rewrite CUR, PR. cbn [c_sh c_th]. now rewrite upd_same. }
    destruct (H _ (proj1 E) (proj2 E)) as (s & F & E1 & E2). exists ((i, 0) :: s).
    split; [constructor; [reflexivity|exact F]|]. split; assumption.
  Qed.

  Lemma dynamics_names : NoDup (map f_name (dynamics fields)).
  Proof.
    rewrite dynamics_spec. clear INJ. induction fields as [|f l IH]; [constructor|].
    cbn in NDF. inversion NDF as [|? ? N1 N2]; subst. cbn. destruct (is_dyn f); [|auto].
    cbn. constructor; [|auto]. intro I. apply N1. apply in_map_iff in I as (x & <- & Hx).
    apply filter_In in Hx as [Hx _]. now apply in_map.
  Qed.

  (** The dynamic fields one after the other. *)
  Fixpoint intern_all (ds : list field) (g : group_val) (m : interners) : interners * option (list N) :=
    match ds with
    | [] => (m, Some [])
    | f :: rest =>
      let (m1, r) := intern accepts (loc (f_name f)) (get_field g f) m in
      match r with
      | None => (m1, None)
      | Some k => let (m2, r') := intern_all rest g m1 in (m2, option_map (cons k) r')
      end
    end.

  Lemma encode_alone_dynamic : forall prog i g ds index acc c,
    t_cur (c_th c i) = Some (LEncode g, JDynamic index ds g acc) ->
    leads prog i c (fst (intern_all ds g (c_sh c))) {| t_cur := None; t_done := t_done (c_th c i) ++
        [(LEncode g, LId (option_map (fun is => (index, acc ++ is)) (snd (intern_all ds g (c_sh c)))))] |}.
  Proof.
    intros prog i g. induction ds as [|f rest IH]; intros index acc c CUR.
    - eapply leads_step; [exact CUR|reflexivity|]. cbn [intern_all fst snd option_map]. rewrite app_nil_r.
      intros c' E1 E2. apply leads_now; assumption.
    - cbn [intern_all]. destruct (intern accepts (loc (f_name f)) (get_field g f) (c_sh c)) as [m1 r] eqn:EI.
      destruct r as [k|]; (eapply leads_step; [exact CUR|unfold label_step; rewrite EI; reflexivity|]); cbn beta iota.
      + intros c' E1 E2. specialize (IH index (acc ++ [k]) c'). rewrite E2, E1 in IH. specialize (IH eq_refl).
        cbn [t_done] in IH. destruct (intern_all rest g m1) as [m2 [is|]]; cbn [fst snd option_map] in *;
          rewrite <- ?app_assoc in IH; exact IH.
      + cbn [fst snd option_map]. intros c' E1 E2. apply leads_now; assumption.
  Qed.

  Lemma intern_all_dynamic : forall g ds m, (exists pre, dynamics fields = pre ++ ds) ->
    encode_dynamic (map (inst loc accepts m) ds) g (cur m) = (cur (fst (intern_all ds g m)), snd (intern_all ds g m)).
  Proof.
    intros g. induction ds as [|f rest IH]; intros m (pre & P); [reflexivity|].
    assert (Hf : In f fields /\ is_dynamic (f_set f) = true) by (apply In_dynamics; rewrite P; apply in_or_app; right; now left).
    cbn [map encode_dynamic intern_all].
    change (get_field g (inst loc accepts m f)) with (get_field g f). cbn [inst f_set f_name]. unfold intern.
    destruct (set_encode (SInterner (accepts (loc (f_name f))) (m (loc (f_name f)))) (get_field g f)) as [s' r] eqn:SE.
    assert (exists elems, s' = SInterner (accepts (loc (f_name f))) elems) as [elems ->].
    { cbn in SE. destruct (nfind (beqb (get_field g f)) (m (loc (f_name f)))); [injection SE as <- _; eauto|].
      destruct (accepts (loc (f_name f)) (m (loc (f_name f))) (get_field g f)); injection SE as <- _; eauto. }
    rewrite (update_current m f elems) by apply Hf. destruct r as [k|]; [|reflexivity].
    assert (SAME : map (inst loc accepts m) rest = map (inst loc accepts (upd m (loc (f_name f)) elems)) rest).
    { apply map_ext_in. intros f' Hf'. unfold inst. rewrite upd_other; [reflexivity|]. intro L.
      assert (In f' fields /\ is_dynamic (f_set f') = true) as [F1 F2]
        by (apply In_dynamics; rewrite P; apply in_or_app; right; now right).
      assert (N : f_name f' = f_name f) by (apply INJ; tauto).
      pose proof dynamics_names as DN. rewrite P, map_app in DN. cbn in DN. apply NoDup_remove_2 in DN.
      apply DN, in_or_app. right. rewrite <- N. now apply in_map. }
    rewrite SAME, IH by (exists (pre ++ [f]); now rewrite <- app_assoc).
    destruct (intern_all rest g (upd m (loc (f_name f)) elems)) as [m2 r2]. reflexivity.
  Qed.

  Lemma encode_alone : forall prog c i g, t_cur (c_th c i) = None -> prog i (t_done (c_th c i)) = Some (LEncode g) ->
    exists s, Forall (fun ic => fst ic = i) s /\
      let c' := run M prog s c in
      exists r, c_th c' i = {| t_cur := None; t_done := t_done (c_th c i) ++ [(LEncode g, r)] |} /\
        match group_encode bd (cur (c_sh c)) g with
        | Done (after, o) => after = cur (c_sh c') /\ r = LId o
        | Panic => r = LPanic
        end.
  Proof.
    intros prog c i g CUR PR.
    enough (X : exists sh r, leads prog i c sh {| t_cur := None; t_done := t_done (c_th c i) ++ [(LEncode g, r)] |} /\
      match group_encode bd (cur (c_sh c)) g with Done (after, o) => after = cur sh /\ r = LId o | Panic => r = LPanic end).
    { destruct X as (sh & r & (s & F & E1 & E2) & X). exists s. split; [exact F|]. exists r. split; [exact E2|]. now rewrite E1. }
    unfold group_encode. rewrite current_fixed, current_dynamics.
    destruct (encode_fixed bd (fixed fields) g 0 1) as [[index|]|] eqn:EF; cbn [obind].
    - rewrite intern_all_dynamic by now exists []. eexists _, _. split; [|split; reflexivity].
      eapply leads_begin; [exact CUR|exact PR|]. intros c1 S1 T1.
      eapply leads_step; [rewrite T1; reflexivity|unfold label_step, label_begin; rewrite EF; reflexivity|].
      cbn beta iota. intros c2 S2 T2. rewrite T1 in T2. cbn [t_done] in T2. rewrite <- S1, <- S2.
      pose proof (encode_alone_dynamic prog i g (dynamics fields) index [] c2) as L. rewrite T2 in L.
      exact (L eq_refl).
    - exists (c_sh c), (LId None). split; [|split; reflexivity].
      eapply leads_begin; [exact CUR|exact PR|]. intros c1 S1 T1.
      eapply leads_step; [rewrite T1; reflexivity|unfold label_step, label_begin; rewrite EF; reflexivity|].
      cbn beta iota. intros c2 S2 T2. rewrite T1 in T2. cbn [t_done] in T2. apply leads_now; [now rewrite S2|exact T2].
    - exists (c_sh c), LPanic. split; [|reflexivity].
      eapply leads_begin; [exact CUR|exact PR|]. intros c1 S1 T1.
      eapply leads_step; [rewrite T1; reflexivity|unfold label_step, label_begin; rewrite EF; reflexivity|].
      cbn beta iota. intros c2 S2 T2. rewrite T1 in T2. cbn [t_done] in T2. apply leads_now; [now rewrite S2|exact T2].
  Qed.

  Lemma decode_alone_dynamic : forall prog i u fv ds is acc c,
    t_cur (c_th c i) = Some (LDecode u, JResolve fv ds is acc) ->
    leads prog i c (c_sh c) {| t_cur := None; t_done := t_done (c_th c i) ++
        [(LDecode u, match decode_dynamic (map (inst loc accepts (c_sh c)) ds) is with
                     | Done vs => LGroup (map (fun f => (f_name f, get_field (fv ++ acc ++ vs) f)) fields)
                     | Panic => LPanic end)] |}.
  Proof.
    intros prog i u fv. induction ds as [|f rest IH]; intros is acc c CUR.
    - eapply leads_step; [exact CUR|destruct is; reflexivity|]. cbn [map decode_dynamic]. rewrite app_nil_r.
      intros c' E1 E2. apply leads_now; assumption.
    - destruct is as [|k is].
      + eapply leads_step; [exact CUR|reflexivity|]. intros c' E1 E2. apply leads_now; assumption.
      + cbn [map decode_dynamic]. cbn [inst f_set f_name].
        change (set_decode (SInterner (accepts (loc (f_name f))) (c_sh c (loc (f_name f)))) k) with
          (resolve accepts (loc (f_name f)) k (c_sh c)).
        destruct (resolve accepts (loc (f_name f)) k (c_sh c)) as [v|] eqn:RE; cbn [obind];
          (eapply leads_step; [exact CUR|unfold label_step; rewrite RE; reflexivity|]).
        * intros c' E1 E2. specialize (IH is (acc ++ [(f_name f, v)]) c'). rewrite E2, E1 in IH. specialize (IH eq_refl).
          cbn [t_done] in IH. destruct (decode_dynamic (map (inst loc accepts (c_sh c)) rest) is) as [vs|]; cbn [obind];
          rewrite <- ?app_assoc in IH; exact IH.
        * intros c' E1 E2. apply leads_now; assumption.
  Qed.

  Lemma decode_alone : forall prog c i u, t_cur (c_th c i) = None -> prog i (t_done (c_th c i)) = Some (LDecode u) ->
    exists s, Forall (fun ic => fst ic = i) s /\
      let c' := run M prog s c in
      c_sh c' = c_sh c /\
      c_th c' i = {| t_cur := None; t_done := t_done (c_th c i) ++
        [(LDecode u, match group_decode bd (cur (c_sh c)) u with Done g => LGroup g | Panic => LPanic end)] |}.
  Proof.
    intros prog c i [index is] CUR PR.
    enough (X : leads prog i c (c_sh c) {| t_cur := None; t_done := t_done (c_th c i) ++ [(LDecode (index, is),
      match group_decode bd (cur (c_sh c)) (index, is) with Done g => LGroup g | Panic => LPanic end)] |}) by exact X.
    unfold group_decode. rewrite current_fixed, current_dynamics.
    eapply leads_begin; [exact CUR|exact PR|]. intros c1 S1 T1.
    destruct (decode_fixed (fixed fields) index) as [[rem fv]|] eqn:DF; cbn [obind fst snd].
    2:{ eapply leads_step; [rewrite T1; reflexivity|unfold label_begin, label_step; cbn [fst snd]; rewrite DF; reflexivity|]. intros c2 S2 T2. rewrite T1 in T2. cbn [t_done] in T2. apply leads_now; [now rewrite S2|exact T2]. }
    destruct (debug_assert bd (rem =? 0)%N) as [[]|] eqn:DA; cbn [obind].
    2:{ eapply leads_step; [rewrite T1; reflexivity|unfold label_begin, label_step; cbn [fst snd]; rewrite DF; cbn [obind fst snd]; rewrite DA; reflexivity|]. intros c2 S2 T2. rewrite T1 in T2. cbn [t_done] in T2. apply leads_now; [now rewrite S2|exact T2]. }
    eapply leads_step; [rewrite T1; reflexivity|unfold label_begin, label_step; cbn [fst snd]; rewrite DF; cbn [obind fst snd]; rewrite DA; reflexivity|].
    cbn beta iota. intros c2 S2 T2. rewrite T1 in T2. cbn [t_done] in T2.
    pose proof (decode_alone_dynamic prog i (index, is) fv (dynamics fields) is [] c2) as L. rewrite T2, S2, S1 in L.
    specialize (L eq_refl). cbn [t_done app] in L.
    destruct (decode_dynamic (map (inst loc accepts (c_sh c)) (dynamics fields)) is) as [vs|]; cbn [obind]; [|exact L].
    replace (map (fun f => (f_name f, get_field (fv ++ vs) f)) (cur (c_sh c)))
      with (map (fun f => (f_name f, get_field (fv ++ vs) f)) fields); [exact L|].
    unfold current. rewrite map_map. apply map_ext. intros f. now destruct (is_dynamic (f_set f)).
  Qed.
End Alone.
