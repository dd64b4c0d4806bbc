(** Lookups by several threads: the invariant. *)
From Coq Require Import List NArith ZArith Bool Arith Lia.
From Verif Require Import Base BaseFacts LabelModel LabelSpec LabelProofs GroupProofs LawProofs
  ConcModel ConcSpec ConcProofs ConcLabelModel ConcLabelSpec.
Import ListNotations.

Lemma run_app : forall Sh Op Res Mic (M : machine Sh Op Res Mic) prog s s' c,
  run M prog (s ++ s') c = run M prog s' (run M prog s c).
Proof. induction s as [|ic s IH]; intros s' c; cbn; [reflexivity|apply IH]. Qed.

Section Labels.
  Variable bd : build.
  Variable fields : group_set.
  Variable loc : bytes -> nat.
  Variable accepts : nat -> list bytes -> bytes -> bool.
  Notation M := (label_machine bd fields loc accepts).
  Notation cur := (current fields loc accepts).

  Definition inst (m : interners) (f : field) : field :=
    {| f_name := f_name f; f_rename := f_rename f;
       f_set := SInterner (accepts (loc (f_name f))) (m (loc (f_name f))) |}.

  Lemma current_dynamics : forall m, dynamics (cur m) = map (inst m) (dynamics fields).
  Proof.
    intros m. rewrite !dynamics_spec. unfold current. induction fields as [|f l IH]; [reflexivity|].
    cbn. unfold is_dyn at 1. destruct (is_dynamic (f_set f)) eqn:D; cbn; rewrite ?D; cbn.
    - unfold is_dyn at 2. rewrite D. cbn. now rewrite IH.
    - unfold is_dyn at 2. rewrite D. exact IH.
  Qed.

  Lemma current_fixed : forall m, fixed (cur m) = fixed fields.
  Proof.
    intros m. rewrite !fixed_spec. f_equal. unfold current. induction fields as [|f l IH]; [reflexivity|].
    cbn. unfold is_fixed at 1, is_dyn. destruct (is_dynamic (f_set f)) eqn:D; cbn; rewrite ?D; cbn.
    - unfold is_fixed at 2, is_dyn. rewrite D. exact IH.
    - unfold is_fixed at 2, is_dyn. rewrite D. cbn. now rewrite IH.
  Qed.

  Lemma current_names : forall m, map f_name (cur m) = map f_name fields.
  Proof.
    intros m. unfold current. rewrite map_map. apply map_ext. intros f. now destruct (is_dynamic (f_set f)).
  Qed.

  Lemma current_shaped : forall m g, well_shaped (cur m) g <-> well_shaped fields g.
  Proof. intros m g. unfold well_shaped. now rewrite current_names. Qed.

  Lemma current_ok : forall m, group_ok fields -> (forall l, NoDup (m l)) -> group_ok (cur m).
  Proof.
    intros m [[W1 W2] P] ND. split; [split|].
    - now rewrite current_names.
    - unfold current. apply Forall_map. apply Forall_forall. intros f Hf.
      rewrite Forall_forall in W2. destruct (is_dynamic (f_set f)); [apply ND|now apply W2].
    - now rewrite current_fixed.
  Qed.

  (** Interners only grow. *)
  Definition grown (m m' : interners) : Prop := forall l, exists t, m' l = m l ++ t.
  Lemma grown_refl : forall m, grown m m.
  Proof. intros m l. exists []. now rewrite app_nil_r. Qed.
  Lemma grown_trans : forall a b c, grown a b -> grown b c -> grown a c.
  Proof.
    intros a b c H1 H2 l. destruct (H1 l) as [t1 E1], (H2 l) as [t2 E2]. exists (t1 ++ t2).
    now rewrite E2, E1, app_assoc.
  Qed.

  Lemma digits_grown : forall m m' g fs is, grown m m' -> digits g (map (inst m) fs) is -> digits g (map (inst m') fs) is.
  Proof.
    intros m m' g fs is G. revert is. induction fs as [|f fs IH]; intros is H; inversion H; subst; [constructor|].
    cbn [map]. constructor; [|auto]. cbn [inst f_set elements] in *.
    destruct (G (loc (f_name f))) as [t E]. rewrite E, nnth_app1; [exact H2|]. eapply nnth_Some_lt; eauto.
  Qed.

  Lemma intern_facts : forall l v m, exists m' r, intern accepts l v m = (m', r) /\ grown m m' /\
    ((forall l, NoDup (m l)) -> forall l, NoDup (m' l)) /\
    (forall k, r = Some k -> nnth (m' l) k = Some v) /\
    (r = None -> ~ In v (m l) /\ accepts l (m l) v = false).
  Proof.
    intros l v m. unfold intern.
    destruct (set_encode_dynamic (SInterner (accepts l) (m l)) v eq_refl) as (s' & r & E & D & ND & (t & T) & S & N & _).
    rewrite E. destruct s' as [?|?|a elems]; try discriminate. cbn [elements] in *. exists (upd m l elems), r.
    split; [reflexivity|]. split; [|split; [|split]].
    - intros l'. destruct (Nat.eq_dec l' l) as [->|NE]; [rewrite upd_same; eauto|].
      rewrite upd_other by exact NE. exists []. now rewrite app_nil_r.
    - intros H l'. destruct (Nat.eq_dec l' l) as [->|NE]; [rewrite upd_same; auto|]. now rewrite upd_other.
    - intros k Hk. rewrite upd_same. auto.
    - intros H. apply N in H. exact H.
  Qed.

  (** [u] is the id of [g]. *)
  Definition known (m : interners) (g : group_val) (u : unique) : Prop :=
    exists ds, digits g (fixed fields) ds /\ digits g (map (inst m) (dynamics fields)) (snd u) /\
      fst u = value (fixed fields) ds.

  Lemma known_grown : forall m m' g u, grown m m' -> known m g u -> known m' g u.
  Proof. intros m m' g u G (ds & D1 & D2 & E). exists ds. split; [exact D1|]. split; [eapply digits_grown; eauto|exact E]. Qed.

  Lemma known_decode : forall m g u, wf_group_set (cur m) -> well_shaped fields g -> known m g u ->
    group_decode bd (cur m) u = Done g.
  Proof.
    intros m g [i is] WF W (ds & D1 & D2 & E). cbn in *. subst i. rewrite <- (current_fixed m).
    apply group_decode_digits; [exact WF|now apply current_shaped|now rewrite current_fixed|now rewrite current_dynamics].
  Qed.

  Lemma known_encode : forall m g u, group_ok (cur m) -> known m g u -> group_encode bd (cur m) g = Done (cur m, Some u).
  Proof.
    intros m g [i is] OK (ds & D1 & D2 & E). cbn in *. subst i. rewrite <- (current_fixed m).
    apply group_encode_digits; [exact OK|now rewrite current_fixed|now rewrite current_dynamics].
  Qed.

  Hypothesis OK : group_ok fields.
  Variable m0 : interners.
  Hypothesis ND0 : forall l, NoDup (m0 l).
  Variable prog : program label_op label_res.
  Hypothesis SH : lookups_shaped fields prog.

  Notation cfg s := (run M prog s (start_config m0)).

  (** At some moment of the schedule some field refused its value. *)
  Definition refused (s : schedule) (g : group_val) : Prop :=
    exists s1 s2 f v, s = s1 ++ s2 /\ In f (cur (c_sh (cfg s1))) /\ field_value g (f_name f) v /\ refuses f v.

  Lemma refused_more : forall s s' g, refused s g -> refused (s ++ s') g.
  Proof. intros s s' g (s1 & s2 & f & v & -> & H). exists s1, (s2 ++ s'), f, v. now rewrite app_assoc. Qed.

  Definition result_ok (s : schedule) (m : interners) (d : label_op * label_res) : Prop :=
    match fst d with
    | LEncode g => well_shaped fields g /\ exists o, snd d = LId o /\
        match o with Some u => known m g u | None => refused s g end
    | _ => True
    end.

  Definition call_ok (m : interners) (op : label_op) (mic : label_mic) : Prop :=
    match op with
    | LEncode g => well_shaped fields g /\
      match mic with
      | JFixed g' => g' = g
      | JDynamic index ds g' acc => g' = g /\ exists dd pre, digits g (fixed fields) dd /\
          index = value (fixed fields) dd /\ dynamics fields = pre ++ ds /\ digits g (map (inst m) pre) acc
      | _ => False
      end
    | _ => True
    end.

  Record thread_ok (s : schedule) (m : interners) (t : thread label_op label_res label_mic) : Prop := {
    to_done : Forall (result_ok s m) (t_done t);
    to_cur : match t_cur t with Some (op, mic) => call_ok m op mic | None => True end
  }.

  Lemma result_more : forall s s' m m' d, grown m m' -> result_ok s m d -> result_ok (s ++ s') m' d.
  Proof.
    intros s s' m m' [op r] G. unfold result_ok. destruct op; [|auto..]. cbn [fst snd]. intros (W & o & E & H).
    split; [exact W|]. exists o. split; [exact E|]. destruct o; [eapply known_grown; eauto|now apply refused_more].
  Qed.

  Lemma call_more : forall m m' op mic, grown m m' -> call_ok m op mic -> call_ok m' op mic.
  Proof.
    intros m m' op mic G. unfold call_ok. destruct op; [|auto..]. destruct mic; auto.
    intros (W & -> & dd & pre & D1 & E & P & D2). split; [exact W|]. split; [reflexivity|]. exists dd, pre.
    eauto using digits_grown.
  Qed.

  Lemma thread_more : forall s s' m m' t, grown m m' -> thread_ok s m t -> thread_ok (s ++ s') m' t.
  Proof.
    intros s s' m m' t G [H1 H2]. split.
    - eapply Forall_impl; [|exact H1]. intros d. now apply result_more.
    - destruct (t_cur t) as [[op mic]|]; [|exact I]. eapply call_more; eauto.
  Qed.

  Lemma current_In : forall m f, In f (dynamics fields) -> In (inst m f) (cur m).
  Proof. intros m f H. apply In_dynamics in H as [H D]. unfold current. apply in_map_iff. exists f. now rewrite D. Qed.

  (** One step of a lookup. *)
  Lemma encode_step : forall s g mic i ch sh' nxt, let m := c_sh (cfg s) in
    (forall l, NoDup (m l)) -> call_ok m (LEncode g) mic -> label_step bd fields loc accepts i ch mic m = Some (sh', nxt) ->
    (forall l, NoDup (sh' l)) /\ grown m sh' /\
    match nxt with
    | inl mic' => call_ok sh' (LEncode g) mic'
    | inr r => result_ok s sh' (LEncode g, r)
    end.
  Proof.
    intros s g mic i ch sh' nxt m ND [W C] E. destruct OK as [WF PF].
    destruct mic as [g'|index ds g' acc|u|fv ds is acc|l v]; try contradiction; cbn [label_step] in E; injection E as E.
    - subst g'.
      destruct (existsb (fun f => negb (existsb (beqb (get_field g f)) (elements (f_set f)))) (fixed fields)) eqn:X.
      + apply existsb_exists in X as (f & Hf & Hno). rewrite negb_true_iff in Hno.
        assert (NI : ~ In (get_field g f) (elements (f_set f))).
        { intro I. apply not_true_iff_false in Hno. apply Hno, existsb_exists.
          exists (get_field g f). split; [easy|apply beqb_refl]. }
        rewrite encode_fixed_none in E; [|now apply wf_fixed|eauto|lia|exact PF].
        injection E as <- <-. split; [exact ND|]. split; [apply grown_refl|].
        split; [exact W|]. exists None. split; [reflexivity|]. apply In_fixed in Hf as [Hf Df].
        exists s, [], f, (get_field g f). split; [now rewrite app_nil_r|]. split; [|split].
        * unfold current. apply in_map_iff. exists f. now rewrite Df.
        * apply (field_value_get fields); auto.
        * split; [exact NI|]. now destruct (f_set f).
      + assert (ALL : forall f, In f (fixed fields) -> In (get_field g f) (elements (f_set f))).
        { intros f Hf. destruct (existsb (beqb (get_field g f)) (elements (f_set f))) eqn:Y.
          - apply existsb_exists in Y as (v & Hv & Ev). apply beqb_spec in Ev. now subst.
          - exfalso. apply not_true_iff_false in X. apply X, existsb_exists. exists f. now rewrite Y. }
        destruct (digits_exist _ _ ALL) as [dd Hdd].
        rewrite (encode_fixed_ok bd g _ _ Hdd) in E; [|now apply wf_fixed|lia|exact PF].
        injection E as <- <-. split; [exact ND|]. split; [apply grown_refl|].
        split; [exact W|]. split; [reflexivity|]. exists dd, []. split; [exact Hdd|]. split; [cbn; now destruct (value (fixed fields) dd)|].
        split; [reflexivity|constructor].
    - destruct C as (-> & dd & pre & D1 & Ei & P & D2). destruct ds as [|f rest].
      + injection E as <- <-. split; [exact ND|]. split; [apply grown_refl|].
        split; [exact W|]. eexists. split; [reflexivity|]. exists dd. split; [exact D1|].
        rewrite app_nil_r in P. rewrite P. split; [exact D2|exact Ei].
      + destruct (intern_facts (loc (f_name f)) (get_field g f) m) as (m' & r & EI & G & N & S & R).
        rewrite EI in E. assert (Hf : In f (dynamics fields)) by (rewrite P; apply in_or_app; right; now left).
        destruct r as [k|]; injection E as <- <-; (split; [auto|]); (split; [exact G|]).
        * split; [exact W|]. split; [reflexivity|]. exists dd, (pre ++ [f]). split; [exact D1|].
          split; [exact Ei|]. split; [now rewrite <- app_assoc|]. rewrite map_app. apply digits_app.
          -- eapply digits_grown; eauto.
          -- constructor; [|constructor]. cbn [inst f_set elements]. rewrite (S k eq_refl). reflexivity.
        * split; [exact W|]. exists None. split; [reflexivity|]. destruct (R eq_refl) as [R1 R2].
          exists s, [], (inst m f), (get_field g f). split; [now rewrite app_nil_r|].
          split; [now apply current_In|]. split.
          -- cbn [inst f_name]. apply (field_value_get fields); auto. now apply In_dynamics in Hf.
          -- split; [exact R1|exact R2].
  Qed.

  Lemma any_step : forall mic i ch m sh' nxt, (forall l, NoDup (m l)) ->
    label_step bd fields loc accepts i ch mic m = Some (sh', nxt) -> (forall l, NoDup (sh' l)) /\ grown m sh'.
  Proof.
    intros mic i ch m sh' nxt ND E. destruct mic as [g|index ds g acc|u|fv ds is acc|l v]; cbn [label_step] in E; injection E as E.
    - destruct (encode_fixed bd (fixed fields) g 0 1) as [[?|]|]; injection E as <- _; (split; [exact ND|apply grown_refl]).
    - destruct ds as [|f rest]; [injection E as <- _; split; [exact ND|apply grown_refl]|].
      destruct (intern_facts (loc (f_name f)) (get_field g f) m) as (m' & r & EI & G & N & _).
      rewrite EI in E. destruct r; injection E as <- _; auto.
    - match type of E with match ?x with _ => _ end = _ => destruct x end; injection E as <- _; (split; [exact ND|apply grown_refl]).
    - destruct ds as [|f rest]; [injection E as <- _; split; [exact ND|apply grown_refl]|].
      destruct is as [|k is]; [injection E as <- _; split; [exact ND|apply grown_refl]|].
      match type of E with match ?x with _ => _ end = _ => destruct x end; injection E as <- _; (split; [exact ND|apply grown_refl]).
    - destruct (intern_facts l v m) as (m' & r & EI & G & N & _). rewrite EI in E. injection E as <- _. auto.
  Qed.

  Record conc_ok (s : schedule) : Prop := {
    co_nodup : forall l, NoDup (c_sh (cfg s) l);
    co_threads : forall i, thread_ok s (c_sh (cfg s)) (c_th (cfg s) i)
  }.

  Lemma step_grown : forall ic (c : config interners label_op label_res label_mic), (forall l, NoDup (c_sh c l)) -> grown (c_sh c) (c_sh (step M prog ic c)).
  Proof.
    intros [i ch] c ND. unfold step. destruct (t_cur (c_th c i)) as [[op mic]|].
    - destruct (m_step M i ch mic (c_sh c)) as [[sh' [mic'|r]]|] eqn:MS; try apply grown_refl;
        exact (proj2 (any_step mic i ch (c_sh c) sh' _ ND MS)).
    - destruct (prog i (t_done (c_th c i))); apply grown_refl.
  Qed.

  Lemma conc_step : forall s ic, conc_ok s -> conc_ok (s ++ [ic]).
  Proof.
    intros s [i ch] [ND TH]. assert (RA : cfg (s ++ [(i, ch)]) = step M prog (i, ch) (cfg s)) by (rewrite run_app; reflexivity).
    unfold step in RA. destruct (t_cur (c_th (cfg s) i)) as [[op mic]|] eqn:CUR.
    - destruct (m_step M i ch mic (c_sh (cfg s))) as [[sh' nxt]|] eqn:MS.
      + destruct (any_step mic i ch (c_sh (cfg s)) sh' nxt ND MS) as [ND' G].
        pose proof (to_cur _ _ _ (TH i)) as C. rewrite CUR in C.
        assert (X : match nxt with inl mic' => call_ok sh' op mic' | inr r => result_ok s sh' (op, r) end).
        { destruct op as [g| |]; [|destruct nxt; exact I..].
          now destruct (encode_step s g mic i ch sh' nxt ND C MS) as (_ & _ & H). }
        destruct nxt as [mic'|r]; (split; [intros l; rewrite RA; apply ND'|]); intros j; rewrite RA; cbn [c_sh c_th];
          (destruct (Nat.eq_dec j i) as [->|NE]; [rewrite upd_same|rewrite upd_other by exact NE; now apply thread_more with (m := c_sh (cfg s))]).
        * split; cbn [t_done t_cur]; [|exact X]. eapply Forall_impl; [|apply (to_done _ _ _ (TH i))].
          intros d. now apply result_more.
        * split; cbn [t_done t_cur]; [|exact I]. apply Forall_app. split.
          -- eapply Forall_impl; [|apply (to_done _ _ _ (TH i))]. intros d. now apply result_more.
          -- constructor; [|constructor]. apply result_more with (m := sh'); [apply grown_refl|exact X].
      + split; [intros l; rewrite RA; apply ND|]. intros j. rewrite RA. apply thread_more with (m := c_sh (cfg s)); [apply grown_refl|apply TH].
    - destruct (prog i (t_done (c_th (cfg s) i))) as [op|] eqn:PR.
      + split; [intros l; rewrite RA; apply ND|]. intros j. rewrite RA. cbn [c_sh c_th].
        assert (T : forall j, thread_ok (s ++ [(i, ch)]) (c_sh (cfg s)) (c_th (cfg s) j))
          by (intros j'; apply thread_more with (m := c_sh (cfg s)); [apply grown_refl|apply TH]).
        destruct (Nat.eq_dec j i) as [->|NE]; [rewrite upd_same|now rewrite upd_other].
        split; cbn [t_done t_cur]; [apply (to_done _ _ _ (T i))|]. destruct op as [g| |]; [|exact I..].
        split; [eapply SH; exact PR|reflexivity].
      + split; [intros l; rewrite RA; apply ND|]. intros j. rewrite RA. apply thread_more with (m := c_sh (cfg s)); [apply grown_refl|apply TH].
  Qed.

  Lemma conc_all : forall s, conc_ok s.
  Proof.
    induction s as [|ic s IH] using rev_ind; [|now apply conc_step].
    split; [exact ND0|]. intros i. split; cbn; [constructor|exact I].
  Qed.

  Lemma current_group_ok : forall s, group_ok (cur (c_sh (cfg s))).
  Proof. intros s. apply current_ok; [exact OK|apply (co_nodup _ (conc_all s))]. Qed.

  Lemma encoded : forall s i g r, In (LEncode g, r) (t_done (c_th (cfg s) i)) ->
    well_shaped fields g /\ exists o, r = LId o /\
      match o with Some u => known (c_sh (cfg s)) g u | None => refused s g end.
  Proof.
    intros s i g r H. pose proof (to_done _ _ _ (co_threads _ (conc_all s) i)) as F.
    rewrite Forall_forall in F. apply (F _ H).
  Qed.

  (** Finding back what was encoded. *)
  Section Decode.
    Variable g : group_val.
    Variable u : unique.
    Hypothesis W : well_shaped fields g.

    Definition found (d : label_op * label_res) : Prop := fst d = LDecode u -> snd d = LGroup g.
    Definition finding (m : interners) (op : label_op) (mic : label_mic) : Prop :=
      op = LDecode u ->
      match mic with
      | JDecode u' => u' = u
      | JResolve fv ds is acc => fv = map (fun f => (f_name f, get_field g f)) (fixed fields) /\
          digits g (map (inst m) ds) is /\
          exists pre, dynamics fields = pre ++ ds /\ acc = map (fun f => (f_name f, get_field g f)) pre
      | _ => False
      end.

    Lemma finding_grown : forall m m' op mic, grown m m' -> finding m op mic -> finding m' op mic.
    Proof.
      intros m m' op mic G F E. specialize (F E). destruct mic; auto. destruct F as (F1 & F2 & F3).
      split; [exact F1|]. split; [eapply digits_grown; eauto|exact F3].
    Qed.

    Lemma finding_step : forall m mic i ch sh' nxt op, known m g u -> finding m op mic ->
      label_step bd fields loc accepts i ch mic m = Some (sh', nxt) ->
      match nxt with inl mic' => finding m op mic' | inr r => found (op, r) end.
    Proof.
      intros m mic i ch sh' nxt op (dd & D1 & D2 & E) F ST.
      destruct nxt as [mic'|r]; intros EO; [|cbn [fst] in EO]; specialize (F EO);
        (destruct mic as [g'|index ds g' acc|u'|fv ds is acc|l v]; try contradiction; cbn [label_step] in ST; injection ST as ST).
      - subst u'. replace (fst u) with (value (fixed fields) dd + prod (fixed fields) * 0)%N in ST by lia.
        rewrite (decode_fixed_value g _ _ D1) in ST by apply fixed_Forall. cbn [obind fst snd] in ST.
        replace (debug_assert bd (0 =? 0)%N) with (Done tt) in ST by now destruct bd. cbn [obind] in ST.
        injection ST as _ <-. split; [reflexivity|]. split; [exact D2|]. now exists [].
      - destruct F as (-> & F2 & pre & P & ->). destruct ds as [|f rest]; [discriminate|].
        destruct is as [|k is]; [discriminate|]. inversion F2 as [|? ? ? ? Hk Hr]; subst.
        unfold resolve in ST. rewrite set_decode_elements in ST. cbn [inst f_set elements] in *.
        rewrite Hk in ST. injection ST as _ <-. split; [reflexivity|]. split; [exact Hr|].
        exists (pre ++ [f]). split; [now rewrite <- app_assoc|]. now rewrite map_app.
      - subst u'. replace (fst u) with (value (fixed fields) dd + prod (fixed fields) * 0)%N in ST by lia.
        rewrite (decode_fixed_value g _ _ D1) in ST by apply fixed_Forall. cbn [obind fst snd] in ST.
        replace (debug_assert bd (0 =? 0)%N) with (Done tt) in ST by now destruct bd. cbn [obind] in ST.
        discriminate.
      - destruct F as (-> & F2 & pre & P & ->). destruct ds as [|f rest].
        + injection ST as _ <-. cbn [snd]. f_equal. rewrite app_nil_r in P. subst pre.
          rewrite <- map_app. apply reassemble; [apply OK|exact W| |]; intros f Hf; now apply In_all_fields.
        + destruct is as [|k is]; [inversion F2|]. inversion F2 as [|? ? ? ? Hk Hr]; subst.
          unfold resolve in ST. rewrite set_decode_elements in ST. cbn [inst f_set elements] in *.
          rewrite Hk in ST. discriminate.
    Qed.

    Variable s1 : schedule.
    Hypothesis KN : known (c_sh (cfg s1)) g u.
    Variable j : nat.
    Hypothesis IDLE : t_cur (c_th (cfg s1) j) = None.

    Lemma decodes : forall s2, let c2 := cfg (s1 ++ s2) in
      grown (c_sh (cfg s1)) (c_sh c2) /\
      (exists rest, t_done (c_th c2 j) = t_done (c_th (cfg s1) j) ++ rest /\ Forall found rest) /\
      match t_cur (c_th c2 j) with Some (op, mic) => finding (c_sh c2) op mic | None => True end.
    Proof.
      induction s2 as [|[i ch] s2 (G & (rest & D & F) & C)] using rev_ind; cbn zeta in *.
      - rewrite app_nil_r. split; [apply grown_refl|]. split; [exists []; now rewrite app_nil_r|]. now rewrite IDLE.
      - rewrite app_assoc. set (s := s1 ++ s2) in *.
        assert (RA : cfg (s ++ [(i, ch)]) = step M prog (i, ch) (cfg s)) by (rewrite run_app; reflexivity).
        pose proof (co_nodup _ (conc_all s)) as ND.
        assert (KN' : known (c_sh (cfg s)) g u) by (eapply known_grown; eauto).
        unfold step in RA. destruct (t_cur (c_th (cfg s) i)) as [[op mic]|] eqn:CUR.
        + destruct (m_step M i ch mic (c_sh (cfg s))) as [[sh' nxt]|] eqn:MS.
          * destruct (any_step mic i ch (c_sh (cfg s)) sh' nxt ND MS) as [_ G'].
            destruct (Nat.eq_dec j i) as [->|NE].
            -- rewrite CUR in C. pose proof (finding_step _ mic i ch sh' nxt op KN' C MS) as X.
               destruct nxt as [mic'|r]; rewrite RA; cbn [c_sh c_th]; rewrite upd_same; cbn [t_done t_cur];
                 (split; [eapply grown_trans; eauto|]).
               ++ split; [eauto|]. eapply finding_grown; eauto.
               ++ split; [|exact I]. exists (rest ++ [(op, r)]). rewrite D, app_assoc. split; [reflexivity|].
                  apply Forall_app. split; [exact F|]. constructor; [exact X|constructor].
            -- destruct nxt as [mic'|r]; rewrite RA; cbn [c_sh c_th]; rewrite upd_other by exact NE;
                 (split; [eapply grown_trans; eauto|]); (split; [eauto|]);
                 (destruct (t_cur (c_th (cfg s) j)) as [[op2 mic2]|]; [|exact I]); eapply finding_grown; eauto.
          * rewrite RA. split; [exact G|]. split; [eauto|exact C].
        + destruct (prog i (t_done (c_th (cfg s) i))) as [op|] eqn:PR; rewrite RA; cbn [c_sh c_th];
            (split; [exact G|]); [|split; [eauto|exact C]].
          destruct (Nat.eq_dec j i) as [->|NE]; [rewrite upd_same|rewrite upd_other by exact NE; split; [eauto|exact C]].
          cbn [t_done t_cur]. split; [eauto|]. intros ->. cbn. reflexivity.
    Qed.
  End Decode.
End Labels.
