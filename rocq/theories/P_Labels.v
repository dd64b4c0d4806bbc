(** Properties C01-C08: label sets and label groups. *)
From Coq Require Import List NArith ZArith Bool.
From Verif Require Import Base BaseFacts LabelModel LabelSpec LabelProofs GroupProofs LawProofs DenseFacts.
Import ListNotations.
Local Open Scope N_scope.

(** C01: derived enums. *)
Theorem C01_enum_bijection : forall e, wf_enum e ->
  (forall v, In v (map v_ident (en_variants e)) -> exists i,
     enum_encode e v = Some i /\ i < enum_cardinality e /\ enum_decode e i = Done v) /\
  (forall i, i < enum_cardinality e -> exists v,
     In v (map v_ident (en_variants e)) /\ enum_decode e i = Done v /\ enum_encode e v = Some i) /\
  (forall v w i, enum_encode e v = Some i -> enum_encode e w = Some i -> v = w) /\
  (forall i, enum_cardinality e <= i -> enum_decode e i = Panic).
Proof. exact enum_bijection. Qed.
Print Assumptions C01_enum_bijection.

Example C01_nonvacuous : wf_enum ex_enum /\ enum_encode ex_enum [80] = Some 1.
Proof. split; [apply nodupb_NoDup|]; reflexivity. Qed.

(** C02: fixed sets of strings. *)
Theorem C02_fixed_set_bijection : forall l, NoDup l ->
  (forall v, In v l -> exists i, set_encode (SFixedSet l) v = (SFixedSet l, Some i) /\
     i < N.of_nat (length l) /\ set_decode (SFixedSet l) i = Done v) /\
  (forall v, ~ In v l -> set_encode (SFixedSet l) v = (SFixedSet l, None)) /\
  (forall i, i < N.of_nat (length l) -> exists v, In v l /\
     set_decode (SFixedSet l) i = Done v /\ set_encode (SFixedSet l) v = (SFixedSet l, Some i)) /\
  set_cardinality (SFixedSet l) = Some (N.of_nat (length l)).
Proof. exact fixed_set_bijection. Qed.
Print Assumptions C02_fixed_set_bijection.

Example C02_nonvacuous : NoDup [[97]; [98]; [99; 97]] /\
  set_encode (SFixedSet [[97]; [98]; [99; 97]]) [99; 97] = (SFixedSet [[97]; [98]; [99; 97]], Some 2).
Proof. split; [apply nodupb_NoDup|]; reflexivity. Qed.

(** C03: derived groups without dynamic fields. *)
Theorem C03_group_bijection : forall bd s c, wf_group_set s -> group_cardinality s = Some c ->
  c = combinations s /\
  (forall g, member s g -> exists i,
     group_encode bd s g = Done (s, Some (i, [])) /\ i < c /\ group_decode bd s (i, []) = Done g) /\
  (forall i, i < c -> exists g,
     member s g /\ group_decode bd s (i, []) = Done g /\
     group_encode bd s g = Done (s, Some (i, []))) /\
  (forall g1 g2 u, member s g1 -> member s g2 ->
     group_encode bd s g1 = Done (s, Some u) -> group_encode bd s g2 = Done (s, Some u) -> g1 = g2).
Proof. exact group_bijection. Qed.
Print Assumptions C03_group_bijection.

Example C03_nonvacuous : wf_group_set ex_fixed_set /\ group_cardinality ex_fixed_set = Some 6 /\
  group_encode Debug ex_fixed_set [([1], [68]); ([3], [97])] = Done (ex_fixed_set, Some (4, [])).
Proof.
  split; [|split; reflexivity]. apply wf_group_check. reflexivity.
Qed.

(** The same through the interface by which vecs use label sets. *)
Theorem C03_dense_index : forall bd s c, wf_group_set s -> lg_cardinality (derived_lgset bd) s = Some c ->
  (forall g, member s g -> exists u i, lg_encode (derived_lgset bd) s g = Done (s, Some u) /\
     lg_encode_dense (derived_lgset bd) s u = Done (Some i) /\ i < c /\ lg_decode_dense (derived_lgset bd) s i = Done g) /\
  (forall i, i < c -> exists g u, member s g /\ lg_decode_dense (derived_lgset bd) s i = Done g /\
     lg_encode (derived_lgset bd) s g = Done (s, Some u) /\ lg_encode_dense (derived_lgset bd) s u = Done (Some i)).
Proof. exact dense_index. Qed.
Print Assumptions C03_dense_index.

Example C03_dense_case : wf_group_set ex_fixed_set /\ lg_cardinality (derived_lgset Debug) ex_fixed_set = Some 6 /\
  lg_encode_dense (derived_lgset Debug) ex_fixed_set (4, []) = Done (Some 4) /\
  lg_decode_dense (derived_lgset Debug) ex_fixed_set 4 = Done [([1], [68]); ([3], [97])].
Proof. split; [apply wf_group_check; reflexivity|]. repeat split. Qed.

(** C04: groups with dynamic fields, all histories of encode calls. *)
Theorem C04_dynamic_ids_stable : forall bd s h s', sound_set s ->
  Forall (well_shaped s) (map fst h) ->
  history (derived_lgset bd) s h s' ->
  (forall g u, In (g, Some u) h ->
     group_decode bd s' u = Done g /\ group_encode bd s' g = Done (s', Some u)) /\
  (forall g1 u1 g2 u2, In (g1, Some u1) h -> In (g2, Some u2) h -> (u1 = u2 <-> g1 = g2)).
Proof. exact (fun bd s h s' OK W H => history_stable (derived_lawful_sound bd) s h s' H OK W). Qed.
Print Assumptions C04_dynamic_ids_stable.

(** Such histories exist for every list of groups: encode never panics. *)
Theorem C04_histories_exist : forall bd s gs, sound_set s -> Forall (well_shaped s) gs ->
  exists h s', history (derived_lgset bd) s h s' /\ map fst h = gs.
Proof. exact (fun bd s gs => history_exists (derived_lawful_sound bd) gs s). Qed.
Print Assumptions C04_histories_exist.

Example C04_nonvacuous : sound_set ex_set /\
  exists s', history (derived_lgset Debug) ex_set
    [([([1], [80]); ([2], [120]); ([3], [98])], Some (3, [0]));
     ([([1], [80]); ([2], [121]); ([3], [97])], Some (2, [1]));
     ([([1], [80]); ([2], [122]); ([3], [97])], None);
     ([([1], [80]); ([2], [120]); ([3], [98])], Some (3, [0]))] s'.
Proof.
  split; [split; [apply wf_group_check; reflexivity|split; reflexivity]|].
  eexists. repeat (eapply hist_cons; [reflexivity|]). apply hist_nil.
Qed.

(** C05: rejection. *)
Theorem C05_rejected_iff_unknown : forall bd s g, sound_set s -> well_shaped s g ->
  exists s' r, group_encode bd s g = Done (s', r) /\
    (r = None <-> exists f v, In f s /\ field_value g (f_name f) v /\ refuses f v) /\
    ((exists f v, In f s /\ is_dynamic (f_set f) = false /\
                  field_value g (f_name f) v /\ refuses f v) -> s' = s).
Proof. exact rejection. Qed.
Print Assumptions C05_rejected_iff_unknown.

(** A fixed field rejects: the interner (field [2]) has not learned [120]. *)
Example C05_nonvacuous : well_shaped ex_set [([1], [80]); ([2], [120]); ([3], [99])] /\
  group_encode Debug ex_set [([1], [80]); ([2], [120]); ([3], [99])] = Done (ex_set, None).
Proof. split; reflexivity. Qed.

(** C06: distinct groups have distinct ids - false in release builds. *)
Theorem C06_distinct_ids_refuted : exists s g1 g2 u,
  wf_group_set s /\ member s g1 /\ member s g2 /\ g1 <> g2 /\
  group_encode Release s g1 = Done (s, Some u) /\ group_encode Release s g2 = Done (s, Some u).
Proof.
  exists ex_wide, ex_wide_low, ex_wide_high, (0, []). split; [apply wf_group_check; vm_compute; reflexivity|].
  split; [apply member_check; vm_compute; reflexivity|]. split; [apply member_check; vm_compute; reflexivity|].
  split; [discriminate|]. split; vm_compute; reflexivity.
Qed.
Print Assumptions C06_distinct_ids_refuted.

(** Exactly how far the claim holds in release builds ... *)
Theorem C06_collision_free_iff : forall s, wf_group_set s -> no_dynamic s ->
  ((forall g1 g2 u, member s g1 -> member s g2 ->
      group_encode Release s g1 = Done (s, Some u) ->
      group_encode Release s g2 = Done (s, Some u) -> g1 = g2)
   <-> combinations s <= W64).
Proof. exact collisions_exact. Qed.
Print Assumptions C06_collision_free_iff.

(** ... and debug builds panic instead. *)
Theorem C06_debug_panics : forall s g, wf_group_set s -> no_dynamic s -> member s g ->
  W64 <= combinations s -> group_encode Debug s g = Panic.
Proof. exact debug_overflow_panics. Qed.
Print Assumptions C06_debug_panics.

Example C06_nonvacuous : no_dynamic ex_wide /\ W64 < combinations ex_wide /\ member ex_wide ex_wide_high.
Proof. split; [repeat constructor|]. split; [vm_compute; reflexivity|apply member_check; vm_compute; reflexivity]. Qed.

(** C07: dense order. *)
Theorem C07_dense_lexicographic : forall bd s c g1 g2 p1 p2,
  wf_group_set s -> group_cardinality s = Some c ->
  positions s g1 p1 -> positions s g2 p2 ->
  exists i1 i2, group_encode bd s g1 = Done (s, Some (i1, [])) /\
                group_encode bd s g2 = Done (s, Some (i2, [])) /\
                (i1 < i2 <-> lex_lt p1 p2).
Proof. exact dense_lexicographic. Qed.
Print Assumptions C07_dense_lexicographic.

Example C07_nonvacuous :
  positions ex_fixed_set [([1], [71]); ([3], [98])] [0; 1] /\
  positions ex_fixed_set [([1], [80]); ([3], [97])] [1; 0] /\ lex_lt [0; 1] [1; 0].
Proof. split; [|split]; [| |left; reflexivity]; repeat (constructor; try reflexivity). Qed.

(** C08: composition preserves the contract [lawful] of label-group sets. *)
Theorem C08_composed_lawful : forall bd A B okA wtA vA okB wtB vB,
  lawful A okA wtA vA -> lawful B okB wtB vB ->
  lawful (composed_lgset bd A B)
    (fun s => okA (fst s) /\ okB (snd s))
    (fun s g => wtA (fst s) (fst g) /\ wtB (snd s) (snd g))
    (fun s u => vA (fst s) (fst u) /\ vB (snd s) (snd u)).
Proof. exact composed_lawful. Qed.
Print Assumptions C08_composed_lawful.

(** Every finite nesting of derived sets and enum sets satisfies it. *)
Theorem C08_nested_compositions_lawful : forall bd t,
  lawful (lgset_of bd t) (tree_ok bd t) (tree_wt bd t) (tree_valid bd t).
Proof. exact tree_lawful. Qed.
Print Assumptions C08_nested_compositions_lawful.

Example C08_nonvacuous :
  let t := CPair (CPair CDerived CStatic) CDerived in
  let s := ((ex_fixed_set, ex_enum), ex_fixed_set) in
  tree_ok Debug t s /\ lg_cardinality (lgset_of Debug t) s = Some 108 /\
  lg_encode_dense (lgset_of Debug t) s (((4, []), 1), (5, [])) = Done (Some 83).
Proof.
  simpl. split; [|split; reflexivity].
  assert (sound_set ex_fixed_set).
  { split; [apply wf_group_check; reflexivity|split; reflexivity]. }
  repeat split; try apply H. apply nodupb_NoDup; reflexivity.
Qed.
