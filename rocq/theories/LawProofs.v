(** Consequences of the label-group contract, and its instances. *)
From Coq Require Import List NArith ZArith Bool Lia ZifyBool ZifyN ZifyNat Permutation.
From Verif Require Import Base BaseFacts LabelModel LabelSpec LabelProofs GroupProofs.
Import ListNotations.
Local Open Scope N_scope.

(* ------------------------------------------------------------------ *)
(** ** Histories *)

Section History.
  Context {L : lgset} {ok : lg_state L -> Prop} {wt : lg_state L -> lg_group L -> Prop}
          {valid : lg_state L -> lg_unique L -> Prop}.
  Hypothesis LAW : lawful L ok wt valid.

  Lemma history_facts : forall s h s', history L s h s' -> ok s -> Forall (wt s) (map fst h) ->
    ok s' /\ (forall g, wt s g -> wt s' g) /\
    lg_cardinality L s' = lg_cardinality L s /\
    (forall u, valid s u -> valid s' u /\ lg_decode L s' u = lg_decode L s u) /\
    (forall g u, In (g, Some u) h -> wt s g /\ valid s' u /\ lg_decode L s' u = Done g).
  Proof.
    induction 1 as [s|s g s' r h s'' E _ IH]; intros OK W.
    - split; [easy|]. split; [easy|]. split; [easy|]. split; [easy|]. simpl; tauto.
    - simpl in W. inversion W as [|? ? Wg W']; subst.
      destruct (law_encode _ _ _ _ LAW s g OK Wg) as (s1 & r1 & E1 & OK1 & C1 & W1 & V1 & _).
      rewrite E in E1. injection E1 as <- <-.
      destruct IH as (OK2 & W2 & C2 & V2 & I2); [easy| |].
      { eapply Forall_impl; [|exact W']. auto. }
      split; [easy|]. split; [auto|]. split; [congruence|]. split.
      + intros u Hu. destruct (V1 u Hu) as (Hv & Hd & _). destruct (V2 u Hv) as [? ?]. split; congruence.
      + intros g' u [H|H].
        * injection H as <- ->. split; [easy|].
          destruct (law_encode_some _ _ _ _ LAW s g s' u OK Wg E) as [Hv Hd].
          destruct (V2 u Hv) as [? ?]. split; congruence.
        * split; [|now apply I2]. apply (in_map fst) in H. simpl in H.
          rewrite Forall_forall in W'. auto.
  Qed.

  Lemma history_exists : forall gs s, ok s -> Forall (wt s) gs ->
    exists h s', history L s h s' /\ map fst h = gs.
  Proof.
    induction gs as [|g gs IH]; intros s OK W.
    - exists [], s. split; [constructor|easy].
    - inversion W as [|? ? Wg W']; subst.
      destruct (law_encode _ _ _ _ LAW s g OK Wg) as (s1 & r1 & E1 & OK1 & _ & W1 & _).
      destruct (IH s1 OK1) as (h & s' & H & M).
      { eapply Forall_impl; [|exact W']. auto. }
      exists ((g, r1) :: h), s'. split; [econstructor; eauto|]. simpl. now rewrite M.
  Qed.

  Lemma valid_encode : forall s u g, ok s -> valid s u -> lg_decode L s u = Done g ->
    lg_encode L s g = Done (s, Some u).
  Proof.
    intros s u g OK V D. destruct (law_valid _ _ _ _ LAW s u OK V) as (g' & _ & D' & E).
    rewrite D in D'. injection D' as <-. easy.
  Qed.

  Lemma history_stable : forall s h s', history L s h s' -> ok s -> Forall (wt s) (map fst h) ->
    (forall g u, In (g, Some u) h ->
       lg_decode L s' u = Done g /\ lg_encode L s' g = Done (s', Some u)) /\
    (forall g1 u1 g2 u2, In (g1, Some u1) h -> In (g2, Some u2) h -> (u1 = u2 <-> g1 = g2)).
  Proof.
    intros s h s' H OK W. destruct (history_facts s h s' H OK W) as (OK' & _ & _ & _ & I).
    assert (A : forall g u, In (g, Some u) h ->
       lg_decode L s' u = Done g /\ lg_encode L s' g = Done (s', Some u)).
    { intros g u Hg. destruct (I g u Hg) as (_ & V & D). split; [easy|]. eapply valid_encode; eauto. }
    split; [easy|]. intros g1 u1 g2 u2 H1 H2.
    destruct (A _ _ H1) as [D1 E1], (A _ _ H2) as [D2 E2]. split; intros <-; congruence.
  Qed.
End History.

(* ------------------------------------------------------------------ *)
(** ** Instances *)

Lemma sound_ok : forall s, sound_set s -> group_ok s.
Proof. intros s (WF & P & B). split; [easy|]. now apply fits_prefix. Qed.

Lemma set_ext_sound : forall s s', set_ext s s' -> sound_set s -> sound_set s'.
Proof.
  intros s s' X (WF & P & B). split; [eapply set_ext_wf; eauto|].
  rewrite combinations_prod in *. now rewrite (set_ext_fixed _ _ X).
Qed.

Lemma derived_lawful_sound : forall bd, lawful (derived_lgset bd) sound_set well_shaped group_valid.
Proof.
  intros bd. pose proof (derived_lawful bd) as L. constructor.
  - apply L.
  - intros s g OK W. destruct (law_encode _ _ _ _ L s g (sound_ok s OK) W) as (s' & r & E & _ & R).
    exists s', r. split; [easy|]. split; [|easy].
    destruct (group_encode_spec bd s g (sound_ok s OK)) as (s1 & r1 & E1 & X & _).
    cbn in E. rewrite E in E1. injection E1 as <- <-. eapply set_ext_sound; eauto.
  - intros s g s' u OK. apply L. now apply sound_ok.
  - intros s u OK. apply L. now apply sound_ok.
  - intros s u c OK. apply L. now apply sound_ok.
  - intros s i c OK. apply L. now apply sound_ok.
  - intros s c OK. apply L. now apply sound_ok.
Qed.

Definition static_ok (e : enum_spec) : Prop := wf_enum e /\ enum_cardinality e < W64.
Definition static_wt (e : enum_spec) (v : bytes) : Prop := In v (map v_ident (en_variants e)).
Definition static_valid (e : enum_spec) (u : N) : Prop := u < enum_cardinality e.

Lemma static_lawful : lawful static_lgset static_ok static_wt static_valid.
Proof.
  constructor; cbn [static_lgset lg_state lg_group lg_unique lg_unique_eqb lg_cardinality
                    lg_encode_dense lg_decode_dense lg_encode lg_decode].
  - apply N.eqb_eq.
  - intros e v OK W. exists e, (enum_encode e v). repeat split; try easy; apply OK.
  - intros e v e' u [WF _] W E. injection E as <- E.
    destruct (enum_bijection e WF) as (B1 & _). destruct (B1 v W) as (i & Ei & Li & Di).
    assert (u = i) by congruence. subst. easy.
  - intros e u [WF _] V. destruct (enum_bijection e WF) as (_ & B2 & _).
    destruct (B2 u V) as (v & Hv & D & E). exists v. rewrite E. easy.
  - intros e u c OK V C. injection C as <-. exists u. easy.
  - intros e i c OK C Hi. injection C as <-. exists i. easy.
  - intros e c OK C. injection C as <-. apply OK.
Qed.

(* ------------------------------------------------------------------ *)
(** ** Composition *)

Section Composed.
  Variable bd : build.
  Variables (A B : lgset).
  Variables (okA : lg_state A -> Prop) (wtA : lg_state A -> lg_group A -> Prop)
            (vA : lg_state A -> lg_unique A -> Prop).
  Variables (okB : lg_state B -> Prop) (wtB : lg_state B -> lg_group B -> Prop)
            (vB : lg_state B -> lg_unique B -> Prop).
  Hypothesis LA : lawful A okA wtA vA.
  Hypothesis LB : lawful B okB wtB vB.

  Definition pair_ok (s : lg_state A * lg_state B) : Prop := okA (fst s) /\ okB (snd s).
  Definition pair_wt (s : lg_state A * lg_state B) (g : lg_group A * lg_group B) : Prop :=
    wtA (fst s) (fst g) /\ wtB (snd s) (snd g).
  Definition pair_valid (s : lg_state A * lg_state B) (u : lg_unique A * lg_unique B) : Prop :=
    vA (fst s) (fst u) /\ vB (snd s) (snd u).

  Lemma composed_card_inv : forall s c, composed_cardinality A B s = Some c ->
    exists x y, lg_cardinality A (fst s) = Some x /\ lg_cardinality B (snd s) = Some y /\
                c = x * y /\ x * y < W64.
  Proof.
    intros s c H. unfold composed_cardinality in H.
    destruct (lg_cardinality A (fst s)) as [x|]; [|easy].
    destruct (lg_cardinality B (snd s)) as [y|]; [|easy].
    unfold checked_mul in H. destruct (N.ltb_spec (x * y) W64); [|easy].
    injection H as <-. eauto 6.
  Qed.

  Lemma composed_dense_value : forall s ua ub x y ea eb,
    lg_cardinality A (fst s) = Some x -> lg_cardinality B (snd s) = Some y -> x * y < W64 ->
    lg_encode_dense A (fst s) ua = Done (Some ea) -> ea < x ->
    lg_encode_dense B (snd s) ub = Done (Some eb) -> eb < y ->
    composed_encode_dense bd A B s (ua, ub) = Done (Some (eb + ea * y)).
  Proof.
    intros s ua ub x y ea eb CA CB HB EA La EB Lb. unfold composed_encode_dense. cbn [fst snd].
    rewrite EB. cbn [obind]. rewrite u_mul_small by nia. cbn [obind]. rewrite u_add_small by nia.
    cbn [obind]. rewrite CB. rewrite u_mul_small by nia. cbn [obind]. rewrite EA. cbn [obind].
    rewrite u_mul_small by nia. cbn [obind]. rewrite u_add_small by nia. cbn [obind].
    do 2 f_equal. nia.
  Qed.

  Lemma composed_decode_dense_split : forall s i x y,
    lg_cardinality A (fst s) = Some x -> lg_cardinality B (snd s) = Some y -> i < x * y ->
    composed_decode_dense bd A B s i =
      (let! b := lg_decode_dense B (snd s) (i mod y) in
       let! a := lg_decode_dense A (fst s) (i / y) in Done (a, b)).
  Proof.
    intros s i x y CA CB Hi. unfold composed_decode_dense. rewrite CA, CB. cbn [unwrap obind].
    assert (y <> 0) by nia. assert (x <> 0) by nia.
    assert (i / y < x) by (apply N.div_lt_upper_bound; nia).
    unfold u_div, u_rem.
    destruct (N.eqb_spec y 0); [easy|]. cbn [obind].
    destruct (lg_decode_dense B (snd s) (i mod y)) as [b|]; [|easy]. cbn [obind].
    destruct (N.eqb_spec x 0); [easy|]. cbn [obind].
    rewrite (N.mod_small (i / y) x), (N.div_small (i / y) x) by easy.
    destruct (lg_decode_dense A (fst s) (i / y)) as [a|]; [|easy]. cbn [obind].
    now destruct bd.
  Qed.

  Lemma composed_lawful : lawful (composed_lgset bd A B) pair_ok pair_wt pair_valid.
  Proof.
    constructor; cbn [composed_lgset lg_state lg_group lg_unique lg_unique_eqb lg_cardinality
                      lg_encode_dense lg_decode_dense lg_encode lg_decode].
    - intros [a b] [c d]. unfold composed_unique_eqb. cbn [fst snd].
      rewrite andb_true_iff, (law_eqb _ _ _ _ LA), (law_eqb _ _ _ _ LB).
      split; [intros [-> ->]; easy|intros E; now injection E].
    - intros [sa sb] [ga gb] [OA OB] [WA WB]. cbn [fst snd] in *. unfold composed_encode. cbn [fst snd].
      destruct (law_encode _ _ _ _ LA sa ga OA WA) as (sa' & ra & EA & OA' & CA & WtA & VA & DA).
      destruct (law_encode _ _ _ _ LB sb gb OB WB) as (sb' & rb & EB & OB' & CB & WtB & VB & DB).
      rewrite EA. cbn [obind]. destruct ra as [ua|].
      + rewrite EB. cbn [obind].
        exists (sa', sb'), (match rb with Some ub => Some (ua, ub) | None => None end).
        split; [now destruct rb|]. split; [easy|]. split.
        { unfold composed_cardinality. cbn [fst snd]. now rewrite CA, CB. }
        split; [unfold pair_wt; cbn [fst snd]; intros g [? ?]; split; auto|]. split.
        * intros [ua' ub'] [Va Vb]. cbn [fst snd] in *.
          destruct (VA _ Va) as (? & Dea & Ena), (VB _ Vb) as (? & Deb & Enb).
          split; [easy|]. unfold composed_decode, composed_encode_dense. cbn [fst snd].
          rewrite Dea, Deb, Ena, Enb, CB. easy.
        * intros i c C Hi. apply composed_card_inv in C as (x & y & Cx & Cy & -> & Hb). cbn [fst snd] in *.
          rewrite !(composed_decode_dense_split _ i x y) by (cbn [fst snd]; congruence). cbn [fst snd].
          rewrite (DB (i mod y) y), (DA (i / y) x); auto.
          -- apply N.div_lt_upper_bound; nia.
          -- apply N.mod_lt. nia.
      + exists (sa', sb), None. split; [easy|]. split; [easy|]. split.
        { unfold composed_cardinality. cbn [fst snd]. now rewrite CA. }
        split; [unfold pair_wt; cbn [fst snd]; intros g [? ?]; split; auto|]. split.
        * intros [ua' ub'] [Va Vb]. cbn [fst snd] in *.
          destruct (VA _ Va) as (? & Dea & Ena).
          split; [easy|]. unfold composed_decode, composed_encode_dense. cbn [fst snd].
          rewrite Dea, Ena. easy.
        * intros i c C Hi. apply composed_card_inv in C as (x & y & Cx & Cy & -> & Hb). cbn [fst snd] in *.
          rewrite !(composed_decode_dense_split _ i x y) by (cbn [fst snd]; congruence). cbn [fst snd].
          rewrite (DA (i / y) x); auto. apply N.div_lt_upper_bound; nia.
    - intros [sa sb] [ga gb] s' [ua ub] [OA OB] [WA WB] E. cbn [fst snd] in *.
      unfold composed_encode in E. cbn [fst snd] in E.
      destruct (lg_encode A sa ga) as [[sa' [ua'|]]|] eqn:EA; [| |]; cbn [obind] in E; try easy.
      destruct (lg_encode B sb gb) as [[sb' [ub'|]]|] eqn:EB; cbn [obind] in E; try easy.
      injection E as <- <- <-.
      destruct (law_encode_some _ _ _ _ LA _ _ _ _ OA WA EA) as [Va Da].
      destruct (law_encode_some _ _ _ _ LB _ _ _ _ OB WB EB) as [Vb Db].
      split; [split; easy|]. unfold composed_decode. cbn [fst snd]. rewrite Da, Db. easy.
    - intros [sa sb] [ua ub] [OA OB] [Va Vb]. cbn [fst snd] in *.
      destruct (law_valid _ _ _ _ LA _ _ OA Va) as (ga & WA & DA & EA).
      destruct (law_valid _ _ _ _ LB _ _ OB Vb) as (gb & WB & DB & EB).
      exists (ga, gb). split; [split; easy|]. unfold composed_decode, composed_encode. cbn [fst snd].
      rewrite DA, DB, EA. cbn [obind]. rewrite EB. easy.
    - intros [sa sb] [ua ub] c [OA OB] [Va Vb] C.
      apply composed_card_inv in C as (x & y & Cx & Cy & -> & Hb). cbn [fst snd] in *.
      destruct (law_dense _ _ _ _ LA _ _ _ OA Va Cx) as (ia & Ea & La & Da).
      destruct (law_dense _ _ _ _ LB _ _ _ OB Vb Cy) as (ib & Eb & Lb & Db).
      exists (ib + ia * y). split; [|split].
      + eapply composed_dense_value; eauto.
      + nia.
      + rewrite (composed_decode_dense_split _ _ x y) by (cbn [fst snd]; easy || nia).
        cbn [fst snd]. rewrite N.mod_add, N.div_add, N.mod_small, N.div_small by lia.
        rewrite N.add_0_l. unfold composed_decode. cbn [fst snd]. rewrite Da, Db.
        destruct (lg_decode A sa ua), (lg_decode B sb ub); easy.
    - intros [sa sb] i c [OA OB] C Hi.
      apply composed_card_inv in C as (x & y & Cx & Cy & -> & Hb). cbn [fst snd] in *.
      destruct (law_dense_onto _ _ _ _ LA sa (i / y) x OA Cx) as (ua & Va & Ea);
        [apply N.div_lt_upper_bound; nia|].
      destruct (law_dense_onto _ _ _ _ LB sb (i mod y) y OB Cy) as (ub & Vb & Eb);
        [apply N.mod_lt; nia|].
      exists (ua, ub). split; [split; easy|].
      erewrite composed_dense_value; eauto; cbn [fst snd]; auto.
      + do 2 f_equal. rewrite (N.div_mod i y) at 3 by nia. lia.
      + apply N.div_lt_upper_bound; nia.
      + apply N.mod_lt; nia.
    - intros s c _ C. apply composed_card_inv in C as (x & y & _ & _ & -> & Hb). easy.
  Qed.
End Composed.

(** Any finite nesting of compositions. *)
Inductive composition := CDerived | CStatic | CPair (a b : composition).

Fixpoint lgset_of (bd : build) (t : composition) : lgset :=
  match t with
  | CDerived => derived_lgset bd
  | CStatic => static_lgset
  | CPair a b => composed_lgset bd (lgset_of bd a) (lgset_of bd b)
  end.

Fixpoint tree_ok bd t : lg_state (lgset_of bd t) -> Prop :=
  match t with
  | CDerived => sound_set
  | CStatic => static_ok
  | CPair a b => fun s => tree_ok bd a (fst s) /\ tree_ok bd b (snd s)
  end.

Fixpoint tree_wt bd t : lg_state (lgset_of bd t) -> lg_group (lgset_of bd t) -> Prop :=
  match t with
  | CDerived => well_shaped
  | CStatic => static_wt
  | CPair a b => fun s g => tree_wt bd a (fst s) (fst g) /\ tree_wt bd b (snd s) (snd g)
  end.

Fixpoint tree_valid bd t : lg_state (lgset_of bd t) -> lg_unique (lgset_of bd t) -> Prop :=
  match t with
  | CDerived => group_valid
  | CStatic => static_valid
  | CPair a b => fun s u => tree_valid bd a (fst s) (fst u) /\ tree_valid bd b (snd s) (snd u)
  end.

Lemma tree_lawful : forall bd t, lawful (lgset_of bd t) (tree_ok bd t) (tree_wt bd t) (tree_valid bd t).
Proof.
  intros bd. induction t as [| |a IHa b IHb].
  - apply derived_lawful_sound.
  - apply static_lawful.
  - exact (composed_lawful bd _ _ _ _ _ _ _ _ IHa IHb).
Qed.

(* ------------------------------------------------------------------ *)
(** ** C05 *)

Lemma field_value_get : forall s g f v, wf_group_set s -> well_shaped s g -> In f s ->
  (field_value g (f_name f) v <-> v = get_field g f).
Proof.
  intros s g f v WF W Hf. unfold field_value. split.
  - intros I. symmetry. apply get_field_In; [|easy]. unfold well_shaped in W. rewrite W. apply WF.
  - intros ->. rewrite <- (shaped_eta s g (proj1 WF) W) at 2. apply in_map_iff. now exists f.
Qed.

Lemma refuses_full : forall f v, refuses f v <-> ~ In v (elements (f_set f)) /\ full (f_set f) v.
Proof.
  intros f v. unfold refuses, full. destruct (f_set f); reflexivity.
Qed.

Lemma rejection : forall bd s g, sound_set s -> well_shaped s g ->
  exists s' r, group_encode bd s g = Done (s', r) /\
    (r = None <-> exists f v, In f s /\ field_value g (f_name f) v /\ refuses f v) /\
    ((exists f v, In f s /\ is_dynamic (f_set f) = false /\
                  field_value g (f_name f) v /\ refuses f v) -> s' = s).
Proof.
  intros bd s g OK W. pose proof (proj1 OK) as WF.
  destruct (group_encode_spec bd s g (sound_ok s OK)) as (s' & r & E & X & _ & RN & SAME).
  exists s', r. split; [easy|]. split.
  - rewrite RN. split.
    + intros (f & Hf & H). exists f, (get_field g f). rewrite refuses_full. split; [easy|].
      split; [|easy]. now apply (field_value_get s).
    + intros (f & v & Hf & Hv & H). apply (field_value_get s) in Hv; auto. subst v.
      exists f. rewrite refuses_full in H. easy.
  - intros (f & v & Hf & D & Hv & H). apply SAME. exists f.
    apply (field_value_get s) in Hv; auto. subst v. destruct H as [H _]. easy.
Qed.

(* ------------------------------------------------------------------ *)
(** ** C06 *)

Lemma encode_release : forall s g ds, wf_group_set s -> no_dynamic s -> digits g (fixed s) ds ->
  group_encode Release s g = Done (s, Some (value (fixed s) ds mod W64, [])).
Proof.
  intros s g ds WF ND D. unfold group_encode.
  destruct (encode_fixed_release g _ _ D (wf_fixed s WF) 0 1) as (r & E & Er); [easy|].
  rewrite E. cbn [obind]. apply dynamics_nil in ND. rewrite ND. cbn [encode_dynamic option_map].
  rewrite Er. rewrite N.add_0_l, N.mul_1_l. easy.
Qed.

Lemma encode_fixed_debug_overflow : forall g fs ds, digits g fs ds ->
  Forall (fun f => is_dynamic (f_set f) = false /\ NoDup (elements (f_set f))) fs ->
  forall index mul, mul < W64 -> W64 <= mul * prod fs ->
  encode_fixed Debug fs g index mul = Panic.
Proof.
  induction 1 as [|f fs d ds Hd Hds IH]; intros F index mul Hm Hp; cbn [encode_fixed prod] in *; [lia|].
  inversion F as [|? ? [F1 F2] F']; subst.
  rewrite set_encode_fixed by easy. cbn [snd].
  rewrite (nfind_beqb_NoDup _ _ _ F2 Hd). unfold u_mul, u_add.
  destruct (d * mul <? W64); [|easy]. cbn [obind].
  destruct (index + d * mul <? W64); [|easy]. cbn [obind].
  rewrite field_card_size by easy.
  destruct (N.ltb_spec (mul * size f) W64); [|easy]. cbn [obind].
  apply IH; [easy|easy|lia].
Qed.

Lemma static_member_of_value : forall s n, wf_group_set s -> no_dynamic s -> n < prod (fixed s) ->
  exists g ds, member s g /\ digits g (fixed s) ds /\ value (fixed s) ds = n.
Proof.
  intros s n WF ND Hn. apply dynamics_nil in ND.
  destruct (valid_digits s (n, []) WF) as (g & ds & W & D1 & D2 & E).
  { split; [easy|]. rewrite ND. constructor. }
  exists g, ds. split; [eapply digits_member; eauto|]. split; [easy|]. now symmetry.
Qed.

Lemma collisions_exact : forall s, wf_group_set s -> no_dynamic s ->
  ((forall g1 g2 u, member s g1 -> member s g2 ->
      group_encode Release s g1 = Done (s, Some u) ->
      group_encode Release s g2 = Done (s, Some u) -> g1 = g2)
   <-> combinations s <= W64).
Proof.
  intros s WF ND. rewrite combinations_prod. split.
  - intros INJ. apply N.nlt_ge. intros Hlt.
    destruct (static_member_of_value s 0 WF ND) as (g1 & d1 & M1 & D1 & V1); [lia|].
    destruct (static_member_of_value s W64 WF ND) as (g2 & d2 & M2 & D2 & V2); [lia|].
    assert (g1 = g2).
    { apply (INJ g1 g2 (0, []) M1 M2).
      - now rewrite (encode_release _ _ _ WF ND D1), V1.
      - now rewrite (encode_release _ _ _ WF ND D2), V2. }
    subst g2. assert (d1 = d2); [|subst; rewrite V1 in V2; discriminate].
    eapply digits_fun; [|exact D1|exact D2]. eapply Forall_impl; [|apply (wf_fixed s WF)]. simpl; tauto.
  - intros Hle g1 g2 u M1 M2 E1 E2.
    assert (I : forall f, In f (fixed s) -> In f s) by (intros f Hf; now apply In_fixed in Hf).
    destruct (member_digits s g1 (fixed s) WF M1 I) as (d1 & D1).
    destruct (member_digits s g2 (fixed s) WF M2 I) as (d2 & D2).
    rewrite (encode_release _ _ _ WF ND D1) in E1. rewrite (encode_release _ _ _ WF ND D2) in E2.
    pose proof (value_lt_prod _ _ _ D1). pose proof (value_lt_prod _ _ _ D2).
    rewrite N.mod_small in E1, E2 by lia.
    assert (EV : value (fixed s) d1 = value (fixed s) d2) by congruence.
    assert (D0 : digits g1 (dynamics s) [] /\ digits g2 (dynamics s) []).
    { apply dynamics_nil in ND. rewrite ND. split; constructor. }
    pose proof (group_decode_digits Release s g1 d1 [] WF (member_shaped _ _ M1) D1 (proj1 D0)) as G1.
    pose proof (group_decode_digits Release s g2 d2 [] WF (member_shaped _ _ M2) D2 (proj2 D0)) as G2.
    rewrite EV in G1. congruence.
Qed.

Lemma debug_overflow_panics : forall s g, wf_group_set s -> no_dynamic s -> member s g ->
  W64 <= combinations s -> group_encode Debug s g = Panic.
Proof.
  intros s g WF ND M H. rewrite combinations_prod in H.
  destruct (member_digits s g (fixed s) WF M) as (ds & D).
  { intros f Hf. now apply In_fixed in Hf. }
  unfold group_encode. rewrite (encode_fixed_debug_overflow _ _ _ D (wf_fixed s WF)); [easy|easy|lia].
Qed.

(* ------------------------------------------------------------------ *)
(** ** C07 *)

Lemma value_snoc : forall fs ds f d, length fs = length ds ->
  value (fs ++ [f]) (ds ++ [d]) = value fs ds + prod fs * d.
Proof.
  induction fs as [|x fs IH]; intros [|y ds] f d E; try easy.
  - cbn [app value prod]. lia.
  - cbn [app value prod]. rewrite IH by (simpl in E; lia). lia.
Qed.

Lemma positions_digits : forall s g ps, positions s g ps -> NoDup (map f_name s) ->
  well_shaped s g /\ digits g s ps.
Proof.
  induction 1 as [|f s v g i ps Hi _ IH]; intros ND.
  - split; [easy|constructor].
  - simpl in ND. inversion ND as [|? ? N1 N2]; subst. destruct (IH N2) as [W D]. split.
    + unfold well_shaped in *. simpl. now rewrite W.
    + constructor.
      * rewrite get_field_head. now apply at_position_nnth.
      * eapply digits_ext; [|exact D]. intros f' Hf'. unfold get_field. simpl.
        destruct (beqb (f_name f') (f_name f)) eqn:E; [|easy]. apply beqb_spec in E.
        exfalso. apply N1. rewrite <- E. now apply in_map.
Qed.

Lemma digits_rev : forall g fs ds, digits g fs ds -> digits g (rev fs) (rev ds).
Proof.
  induction 1; simpl; [constructor|]. apply digits_app; [easy|]. constructor; [easy|constructor].
Qed.

Lemma lex_value : forall s g1 g2 p1 p2, digits g1 s p1 -> digits g2 s p2 ->
  (value (rev s) (rev p1) < value (rev s) (rev p2) <-> lex_lt p1 p2).
Proof.
  intros s g1 g2 p1 p2 H. revert p2. induction H as [|f s d ds Hd Hds IH]; intros p2 H2; inversion H2; subst.
  - simpl. lia.
  - simpl rev. pose proof (digits_length _ _ _ Hds). pose proof (digits_length _ _ _ H4).
    rewrite !value_snoc by (rewrite !rev_length; easy).
    pose proof (value_lt_prod _ _ _ (digits_rev _ _ _ Hds)).
    pose proof (value_lt_prod _ _ _ (digits_rev _ _ _ H4)).
    specialize (IH _ H4). cbn [lex_lt]. rewrite <- IH. nia.
Qed.

Lemma no_dynamic_fixed : forall s, no_dynamic s -> fixed s = rev s.
Proof.
  intros s ND. rewrite fixed_spec. f_equal. unfold no_dynamic in ND.
  induction ND as [|f s H _ IH]; simpl; [easy|]. unfold is_fixed at 1. rewrite H. simpl. now rewrite IH.
Qed.

Lemma dense_lexicographic : forall bd s c g1 g2 p1 p2,
  wf_group_set s -> group_cardinality s = Some c ->
  positions s g1 p1 -> positions s g2 p2 ->
  exists i1 i2, group_encode bd s g1 = Done (s, Some (i1, [])) /\
                group_encode bd s g2 = Done (s, Some (i2, [])) /\
                (i1 < i2 <-> lex_lt p1 p2).
Proof.
  intros bd s c g1 g2 p1 p2 WF C P1 P2. apply group_cardinality_Some in C as (ND & PF & ->).
  destruct (positions_digits _ _ _ P1 (proj1 WF)) as [W1 D1].
  destruct (positions_digits _ _ _ P2 (proj1 WF)) as [W2 D2].
  pose proof (no_dynamic_fixed s ND) as E.
  assert (DN : forall g, digits g (dynamics s) []).
  { apply dynamics_nil in ND. rewrite ND. constructor. }
  exists (value (rev s) (rev p1)), (value (rev s) (rev p2)).
  split; [|split]; [rewrite <- E|rewrite <- E|].
  - apply group_encode_digits; auto; [now split|]. rewrite E. now apply digits_rev.
  - apply group_encode_digits; auto; [now split|]. rewrite E. now apply digits_rev.
  - eapply lex_value; eauto.
Qed.
