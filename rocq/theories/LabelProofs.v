(** Proofs about label encodings. *)
From Coq Require Import List NArith ZArith Bool Lia ZifyBool ZifyN ZifyNat Permutation.
From Verif Require Import Base BaseFacts LabelModel LabelSpec.
Import ListNotations.
Local Open Scope N_scope.

(* ------------------------------------------------------------------ *)
(** ** Single sets *)

Lemma nfind_map : forall {A} (p : A -> bytes) x l,
  nfind (fun a => beqb x (p a)) l = nfind (beqb x) (map p l).
Proof.
  induction l as [|a l IH]; simpl; [easy|]. destruct (beqb x (p a)); [easy|]. now rewrite IH.
Qed.

Lemma nnth_map : forall {A B} (p : A -> B) l i, nnth (map p l) i = option_map p (nnth l i).
Proof.
  induction l as [|a l IH]; simpl; intros i; [easy|]. destruct (i =? 0); [easy|apply IH].
Qed.

Lemma enum_encode_elements : forall e v, enum_encode e v = nfind (beqb v) (elements (SStatic e)).
Proof. intros. unfold enum_encode. now rewrite nfind_map. Qed.

Lemma enum_decode_elements : forall e i,
  enum_decode e i = match nnth (elements (SStatic e)) i with Some v => Done v | None => Panic end.
Proof.
  intros. unfold enum_decode. simpl. rewrite nnth_map. now destruct (nnth (en_variants e) i).
Qed.

Lemma set_decode_elements : forall s i,
  set_decode s i = match nnth (elements s) i with Some v => Done v | None => Panic end.
Proof. intros [e|l|c l] i; [apply enum_decode_elements|easy|easy]. Qed.

Lemma set_encode_fixed : forall s v, is_dynamic s = false ->
  set_encode s v = (s, nfind (beqb v) (elements s)).
Proof.
  intros [e|l|c l] v H; [|easy|easy]. unfold set_encode. now rewrite enum_encode_elements.
Qed.

Lemma set_cardinality_fixed : forall s, is_dynamic s = false ->
  set_cardinality s = Some (nlen (elements s)).
Proof.
  intros [e|l|c l] H; [|easy|easy]. simpl. unfold enum_cardinality. now rewrite nlen_map.
Qed.

Lemma at_position_nnth : forall s i v, at_position s i v <-> nnth (elements s) i = Some v.
Proof. intros. unfold at_position. now rewrite nnth_nth_error. Qed.

(** C01 *)
Lemma enum_bijection : forall e, wf_enum e ->
  (forall v, In v (map v_ident (en_variants e)) -> exists i,
     enum_encode e v = Some i /\ i < enum_cardinality e /\ enum_decode e i = Done v) /\
  (forall i, i < enum_cardinality e -> exists v,
     In v (map v_ident (en_variants e)) /\ enum_decode e i = Done v /\ enum_encode e v = Some i) /\
  (forall v w i, enum_encode e v = Some i -> enum_encode e w = Some i -> v = w) /\
  (forall i, enum_cardinality e <= i -> enum_decode e i = Panic).
Proof.
  intros e WF. unfold wf_enum in WF.
  assert (CL : enum_cardinality e = nlen (elements (SStatic e))).
  { unfold enum_cardinality. simpl. now rewrite nlen_map. }
  repeat split.
  - intros v Hv. change (In v (elements (SStatic e))) in Hv.
    apply In_nnth in Hv as [i Hi]. exists i. rewrite enum_encode_elements, enum_decode_elements, Hi.
    split; [|split; [|easy]].
    + apply nfind_beqb_NoDup; easy.
    + rewrite CL. eapply nnth_Some_lt; eauto.
  - intros i Hi. rewrite CL in Hi. apply nnth_lt_Some in Hi as [v Hv]. exists v.
    rewrite enum_decode_elements, Hv, enum_encode_elements. split; [|split; [easy|]].
    + apply nnth_In in Hv. easy.
    + apply nfind_beqb_NoDup; easy.
  - intros v w i. rewrite !enum_encode_elements. intros Hv Hw.
    apply nfind_beqb in Hv, Hw. congruence.
  - intros i Hi. rewrite enum_decode_elements. rewrite CL in Hi.
    apply nnth_None in Hi. now rewrite Hi.
Qed.

(** C02 *)
Lemma fixed_set_bijection : forall l, NoDup l ->
  (forall v, In v l -> exists i, set_encode (SFixedSet l) v = (SFixedSet l, Some i) /\
     i < N.of_nat (length l) /\ set_decode (SFixedSet l) i = Done v) /\
  (forall v, ~ In v l -> set_encode (SFixedSet l) v = (SFixedSet l, None)) /\
  (forall i, i < N.of_nat (length l) -> exists v, In v l /\
     set_decode (SFixedSet l) i = Done v /\ set_encode (SFixedSet l) v = (SFixedSet l, Some i)) /\
  set_cardinality (SFixedSet l) = Some (N.of_nat (length l)).
Proof.
  intros l ND. simpl. repeat split.
  - intros v Hv. apply In_nnth in Hv as [i Hi]. exists i.
    rewrite (nfind_beqb_NoDup l v i ND Hi), Hi. split; [easy|]. split; [|easy].
    rewrite <- nlen_length. eapply nnth_Some_lt; eauto.
  - intros v Hv. apply nfind_beqb_None in Hv. now rewrite Hv.
  - intros i Hi. rewrite <- nlen_length in Hi. apply nnth_lt_Some in Hi as [v Hv].
    exists v. rewrite Hv, (nfind_beqb_NoDup l v i ND Hv). split; [|easy]. eapply nnth_In; eauto.
  - now rewrite nlen_length.
Qed.

(* ------------------------------------------------------------------ *)
(** ** Sorting and splitting fields *)

Definition is_fixed (f : field) : bool := negb (is_dynamic (f_set f)).
Definition is_dyn (f : field) : bool := is_dynamic (f_set f).

Lemma insert_dyn : forall f l, is_dyn f = true -> insert_by_key f l = f :: l.
Proof.
  intros f [|g l] H; simpl; [easy|]. unfold key_of at 1. unfold is_dyn in H. rewrite H.
  now rewrite (proj2 (N.leb_le _ _) (N.le_0_l _)).
Qed.

Lemma insert_fixed : forall f l d x, is_fixed f = true -> l = d ++ x ->
  Forall (fun g => is_dyn g = true) d -> Forall (fun g => is_fixed g = true) x ->
  insert_by_key f l = d ++ f :: x.
Proof.
  intros f l d. revert l. induction d as [|g d IH]; intros l x Hf -> Hd Hx; simpl.
  - destruct x as [|h x]; [easy|]. simpl. inversion Hx; subst.
    unfold key_of, is_fixed in *. rewrite negb_true_iff in *.
    now rewrite Hf, H1.
  - inversion Hd as [|? ? Hg Hd']; subst. specialize (IH _ _ Hf eq_refl Hd' Hx). rewrite IH.
    unfold key_of. unfold is_fixed, is_dyn in *. rewrite negb_true_iff in Hf.
    now rewrite Hf, Hg.
Qed.

Lemma Forall_filter : forall {A} (p : A -> bool) l, Forall (fun x => p x = true) (filter p l).
Proof. intros. apply Forall_forall. intros x Hx. now apply filter_In in Hx. Qed.

Lemma sort_by_key_spec : forall l, sort_by_key l = filter is_dyn l ++ filter is_fixed l.
Proof.
  induction l as [|f l IH]; simpl; [easy|]. rewrite IH.
  destruct (is_dyn f) eqn:E.
  - rewrite insert_dyn by easy. unfold is_fixed, is_dyn in *. rewrite E. easy.
  - assert (is_fixed f = true) as F by (unfold is_fixed, is_dyn in *; now rewrite E).
    rewrite F. erewrite insert_fixed; eauto using Forall_filter.
Qed.

Lemma split_dynamic_app : forall d x,
  Forall (fun g => is_dyn g = true) d -> Forall (fun g => is_fixed g = true) x ->
  split_dynamic (d ++ x) = (d, x).
Proof.
  induction d as [|g d IH]; intros x Hd Hx; simpl.
  - destruct x as [|h x]; [easy|]. inversion Hx; subst. unfold is_fixed in *.
    rewrite negb_true_iff in *. simpl. now rewrite H1.
  - inversion Hd; subst. unfold is_dyn in H1. rewrite H1. now rewrite IH.
Qed.

Lemma split_sorted : forall l, split_dynamic (sort_by_key l) = (filter is_dyn l, filter is_fixed l).
Proof. intros. rewrite sort_by_key_spec. apply split_dynamic_app; apply Forall_filter. Qed.

Lemma dynamics_spec : forall s, dynamics s = filter is_dyn s.
Proof. intros. unfold dynamics. now rewrite split_sorted. Qed.

Lemma fixed_spec : forall s, fixed s = rev (filter is_fixed s).
Proof. intros. unfold fixed. now rewrite split_sorted. Qed.

Lemma fixed_Forall : forall s, Forall (fun f => is_dynamic (f_set f) = false) (fixed s).
Proof.
  intros. rewrite fixed_spec. apply Forall_rev. apply Forall_forall. intros f Hf.
  apply filter_In in Hf as [_ Hf]. unfold is_fixed in Hf. now apply negb_true_iff in Hf.
Qed.

Lemma In_fixed : forall s f, In f (fixed s) <-> In f s /\ is_dynamic (f_set f) = false.
Proof.
  intros. rewrite fixed_spec, <- in_rev, filter_In. unfold is_fixed. now rewrite negb_true_iff.
Qed.

Lemma In_dynamics : forall s f, In f (dynamics s) <-> In f s /\ is_dynamic (f_set f) = true.
Proof. intros. now rewrite dynamics_spec, filter_In. Qed.

(* ------------------------------------------------------------------ *)
(** ** Mixed radix *)

Definition size (f : field) : N := nlen (elements (f_set f)).

Fixpoint prod (fs : list field) : N :=
  match fs with [] => 1 | f :: r => size f * prod r end.

(** Little-endian value of digits. *)
Fixpoint value (fs : list field) (ds : list N) : N :=
  match fs, ds with
  | f :: r, d :: ds' => d + size f * value r ds'
  | _, _ => 0
  end.

Inductive digits (g : group_val) : list field -> list N -> Prop :=
| dig_nil : digits g [] []
| dig_cons : forall f fs d ds,
    nnth (elements (f_set f)) d = Some (get_field g f) ->
    digits g fs ds -> digits g (f :: fs) (d :: ds).

Lemma field_card_size : forall f, is_dynamic (f_set f) = false -> field_card f = size f.
Proof. intros f H. unfold field_card. now rewrite set_cardinality_fixed. Qed.

Lemma value_lt_prod : forall g fs ds, digits g fs ds -> value fs ds < prod fs.
Proof.
  induction 1; simpl; [lia|]. apply nnth_Some_lt in H. fold (size f) in H. nia.
Qed.

Lemma digits_exist : forall g fs, (forall f, In f fs -> In (get_field g f) (elements (f_set f))) ->
  exists ds, digits g fs ds.
Proof.
  induction fs as [|f fs IH]; intros H; [exists []; constructor|].
  destruct IH as [ds Hds]; [firstorder|].
  destruct (In_nnth _ _ (H f (or_introl eq_refl))) as [d Hd].
  exists (d :: ds). now constructor.
Qed.

Lemma digits_In : forall g fs ds, digits g fs ds ->
  forall f, In f fs -> In (get_field g f) (elements (f_set f)).
Proof.
  induction 1; intros f' Hf'; [easy|]. destruct Hf' as [<-|Hf']; [|auto]. eapply nnth_In; eauto.
Qed.

Lemma prod_pos_digits : forall g fs ds, digits g fs ds -> 0 < prod fs.
Proof. intros. apply value_lt_prod in H. lia. Qed.

(** All partial products of the encoding loop fit in a usize. *)
Fixpoint prefix_fit (mul : N) (fs : list field) : Prop :=
  mul < W64 /\ match fs with [] => True | f :: r => prefix_fit (mul * size f) r end.

Lemma prefix_fit_lt : forall mul fs, prefix_fit mul fs -> mul < W64.
Proof. intros mul [|f fs]; simpl; tauto. Qed.

Lemma prefix_fit_prod : forall fs mul, prefix_fit mul fs -> mul * prod fs < W64.
Proof.
  induction fs as [|f fs IH]; simpl; intros mul [H1 H2]; [lia|].
  apply IH in H2. lia.
Qed.

Lemma prod_prefix_fit : forall fs mul, 0 < prod fs -> mul * prod fs < W64 -> prefix_fit mul fs.
Proof.
  induction fs as [|f fs IH]; cbn [prod prefix_fit]; intros mul H1 H2; [lia|].
  assert (0 < prod fs /\ 0 < size f) as [P1 P2] by nia. split.
  - assert (mul * 1 <= mul * (size f * prod fs)) by (apply N.mul_le_mono_l; nia). lia.
  - apply IH; [easy|]. lia.
Qed.

(** The encoding loop, when nothing overflows. *)
Lemma encode_fixed_ok : forall bd g fs ds, digits g fs ds ->
  Forall (fun f => is_dynamic (f_set f) = false /\ NoDup (elements (f_set f))) fs ->
  forall index mul, index < mul -> prefix_fit mul fs ->
  encode_fixed bd fs g index mul = Done (Some (index + mul * value fs ds)).
Proof.
  induction 1 as [|f fs d ds Hd Hds IH]; intros F index mul Hi Hm; cbn [encode_fixed value].
  - f_equal. f_equal. lia.
  - inversion F as [|? ? [F1 F2] F']; subst.
    rewrite set_encode_fixed by easy. cbn [snd].
    rewrite (nfind_beqb_NoDup _ _ _ F2 Hd).
    pose proof (nnth_Some_lt _ _ _ Hd) as Hlt. fold (size f) in Hlt.
    cbn [prefix_fit] in Hm. destruct Hm as [Hm1 Hm2]. pose proof (prefix_fit_lt _ _ Hm2).
    assert (d * mul + mul <= mul * size f) by nia.
    rewrite u_mul_small by lia. cbn [obind].
    rewrite u_add_small by lia. cbn [obind].
    rewrite field_card_size by easy.
    rewrite u_mul_small by lia. cbn [obind].
    rewrite IH; [|easy|nia|easy].
    f_equal. f_equal. nia.
Qed.

(** The loop in release builds, unconditionally: the value modulo 2^64. *)
Lemma encode_fixed_release : forall g fs ds, digits g fs ds ->
  Forall (fun f => is_dynamic (f_set f) = false /\ NoDup (elements (f_set f))) fs ->
  forall index mul, index < W64 ->
  exists r, encode_fixed Release fs g index mul = Done (Some r) /\
            r = (index + mul * value fs ds) mod W64.
Proof.
  induction 1 as [|f fs d ds Hd Hds IH]; intros F index mul Hi; cbn [encode_fixed value].
  - exists index. split; [easy|]. rewrite N.mul_0_r, N.add_0_r. now rewrite N.mod_small.
  - inversion F as [|? ? [F1 F2] F']; subst.
    rewrite set_encode_fixed by easy. cbn [snd].
    rewrite (nfind_beqb_NoDup _ _ _ F2 Hd). cbn [u_mul u_add obind].
    rewrite field_card_size by easy.
    destruct (IH F' ((index + (d * mul) mod W64) mod W64) ((mul * size f) mod W64)) as (r & E & Er).
    { apply N.mod_lt. easy. }
    exists r. split; [exact E|]. rewrite Er.
    assert (NZ : W64 <> 0) by easy.
    rewrite <- (N.add_mod_idemp_l _ _ _ NZ). rewrite N.mod_mod by easy.
    rewrite N.add_mod_idemp_l by easy.
    rewrite <- (N.add_mod_idemp_r _ (_ * value fs ds) _ NZ), N.mul_mod_idemp_l, N.add_mod_idemp_r by easy.
    rewrite <- N.add_assoc. rewrite <- (N.add_mod_idemp_r index _ _ NZ).
    rewrite N.add_mod_idemp_l by easy. rewrite N.add_mod_idemp_r by easy.
    f_equal. nia.
Qed.

(** A value outside a fixed set stops the loop (no overflow case). *)
Lemma encode_fixed_none : forall bd g fs,
  Forall (fun f => is_dynamic (f_set f) = false /\ NoDup (elements (f_set f))) fs ->
  (exists f, In f fs /\ ~ In (get_field g f) (elements (f_set f))) ->
  forall index mul, index < mul -> prefix_fit mul fs ->
  encode_fixed bd fs g index mul = Done None.
Proof.
  induction fs as [|f fs IH]; intros F (f' & Hin & Hno) index mul Hi Hm; [easy|].
  inversion F as [|? ? [F1 F2] F']; subst. cbn [encode_fixed].
  rewrite set_encode_fixed by easy. cbn [snd].
  destruct (nfind (beqb (get_field g f)) (elements (f_set f))) as [d|] eqn:E; [|easy].
  destruct Hin as [<-|Hin]; [apply nfind_beqb, nnth_In in E; easy|].
  apply nfind_beqb, nnth_Some_lt in E. fold (size f) in E.
  cbn [prefix_fit] in Hm. destruct Hm as [Hm1 Hm2]. pose proof (prefix_fit_lt _ _ Hm2).
  assert (d * mul + mul <= mul * size f) by nia.
  rewrite u_mul_small by lia. cbn [obind].
  rewrite u_add_small by lia. cbn [obind].
  rewrite field_card_size by easy.
  rewrite u_mul_small by lia. cbn [obind].
  apply IH; [easy|eauto|nia|easy].
Qed.

(** Decoding. *)
Lemma decode_fixed_value : forall g fs ds, digits g fs ds ->
  Forall (fun f => is_dynamic (f_set f) = false) fs ->
  forall rest, decode_fixed fs (value fs ds + prod fs * rest)
             = Done (rest, map (fun f => (f_name f, get_field g f)) fs).
Proof.
  induction 1 as [|f fs d ds Hd Hds IH]; intros F rest; cbn [decode_fixed value prod map].
  - f_equal. f_equal. lia.
  - inversion F; subst. rewrite field_card_size by easy.
    pose proof (nnth_Some_lt _ _ _ Hd) as Hlt. fold (size f) in Hlt.
    unfold u_div, u_rem. destruct (N.eqb_spec (size f) 0); [lia|]. cbn [obind].
    replace (d + size f * value fs ds + size f * prod fs * rest)
      with (d + (value fs ds + prod fs * rest) * size f) by lia.
    rewrite N.div_add, N.mod_add, N.div_small, N.mod_small by lia.
    rewrite set_decode_elements, Hd. cbn [obind]. rewrite N.add_0_l.
    rewrite IH by easy. reflexivity.
Qed.

(** Every number below the product is the value of some digits. *)
Fixpoint to_digits (fs : list field) (n : N) : list N :=
  match fs with
  | [] => []
  | f :: r => n mod size f :: to_digits r (n / size f)
  end.

Lemma to_digits_value : forall fs n, n < prod fs -> value fs (to_digits fs n) = n.
Proof.
  induction fs as [|f fs IH]; intros n H; cbn [to_digits value prod] in *; [lia|].
  assert (size f <> 0) by nia.
  rewrite IH.
  - rewrite (N.div_mod n (size f)) at 3 by easy. lia.
  - apply N.div_lt_upper_bound; easy.
Qed.

Lemma to_digits_lt : forall fs n, n < prod fs ->
  Forall2 (fun f d => d < size f) fs (to_digits fs n).
Proof.
  induction fs as [|f fs IH]; intros n H; cbn [to_digits prod] in *; constructor.
  - apply N.mod_lt. nia.
  - apply IH. assert (size f <> 0) by nia. apply N.div_lt_upper_bound; easy.
Qed.

(** Decoding any number below the product: the values at its digits. *)
Lemma decode_fixed_total : forall fs n, n < prod fs ->
  Forall (fun f => is_dynamic (f_set f) = false) fs ->
  exists vs, decode_fixed fs n = Done (0, vs) /\
    Forall2 (fun f p => fst p = f_name f /\ In (snd p) (elements (f_set f))) fs vs.
Proof.
  induction fs as [|f fs IH]; intros n H F; cbn [decode_fixed prod] in *.
  - assert (n = 0) as -> by lia. exists []. auto.
  - inversion F; subst. rewrite field_card_size by easy.
    assert (NZ : size f <> 0) by nia.
    unfold u_div, u_rem. destruct (N.eqb_spec (size f) 0); [lia|]. cbn [obind].
    rewrite set_decode_elements.
    destruct (nnth_lt_Some (elements (f_set f)) (n mod size f)) as [v Hv]; [now apply N.mod_lt|].
    rewrite Hv. cbn [obind].
    destruct (IH (n / size f)) as (vs & E & Fv); [apply N.div_lt_upper_bound; easy|easy|].
    rewrite E. cbn [obind]. exists ((f_name f, v) :: vs). split; [easy|].
    constructor; [split; [easy|eapply nnth_In; eauto]|easy].
Qed.

(* ------------------------------------------------------------------ *)
(** ** Assembling groups *)

Lemma get_field_head : forall f v g, get_field ((f_name f, v) :: g) f = v.
Proof. intros. unfold get_field. simpl. now rewrite beqb_refl. Qed.

Lemma get_field_In : forall g f v, NoDup (map fst g) -> In (f_name f, v) g -> get_field g f = v.
Proof. intros g f v ND H. unfold get_field. now rewrite (assoc_In_NoDup _ _ _ ND H). Qed.

(** A well-shaped group is determined by its field values. *)
Lemma shaped_eta : forall s g, NoDup (map f_name s) -> well_shaped s g ->
  map (fun f => (f_name f, get_field g f)) s = g.
Proof.
  unfold well_shaped. intros s g ND W.
  assert (NDg : NoDup (map fst g)) by now rewrite W.
  assert (G : forall s1 g1, map fst g1 = map f_name s1 -> (forall p, In p g1 -> In p g) ->
            map (fun f => (f_name f, get_field g f)) s1 = g1).
  { induction s1 as [|f s1 IH]; intros [|[k v] g1] E I; simpl in *; try easy.
    injection E as E1 E2. subst k. f_equal.
    - f_equal. apply get_field_In; auto.
    - apply IH; auto. }
  apply G; auto.
Qed.

Lemma member_shaped : forall s g, member s g -> well_shaped s g.
Proof.
  unfold member, well_shaped. induction 1 as [|f p s g [H1 H2] _ IH]; simpl; [easy|]. now rewrite H1, IH.
Qed.

Lemma member_get : forall s g, NoDup (map f_name s) -> member s g ->
  forall f, In f s -> In (get_field g f) (elements (f_set f)).
Proof.
  intros s g ND M f Hf. pose proof (member_shaped s g M) as W.
  assert (NDg : NoDup (map fst g)) by (rewrite W; easy).
  unfold member in M. assert (G : exists v, In (f_name f, v) g /\ In v (elements (f_set f))).
  { clear ND W NDg. induction M as [|f' [k v] s g [H1 H2] _ IH]; [easy|].
    destruct Hf as [->|Hf].
    - simpl in *. subst. eauto.
    - destruct (IH Hf) as (w & ? & ?). simpl. eauto. }
  destruct G as (v & H1 & H2). now rewrite (get_field_In _ _ _ NDg H1).
Qed.

Lemma get_member : forall s g, NoDup (map f_name s) -> well_shaped s g ->
  (forall f, In f s -> In (get_field g f) (elements (f_set f))) -> member s g.
Proof.
  intros s g ND W H. rewrite <- (shaped_eta s g ND W). unfold member. clear W.
  assert (G : forall s1, (forall f, In f s1 -> In f s) ->
     Forall2 (fun f p => fst p = f_name f /\ In (snd p) (elements (f_set f))) s1
       (map (fun f => (f_name f, get_field g f)) s1)).
  { induction s1 as [|f s1 IH]; intros I; simpl; constructor.
    - simpl. split; [easy|]. apply H, I. now left.
    - apply IH. intros; apply I. now right. }
  apply G. auto.
Qed.

(** Reassembling from the per-field results. *)
Lemma reassemble : forall s g (L : list field),
  NoDup (map f_name s) -> well_shaped s g ->
  (forall f, In f s -> In f L) -> (forall f, In f L -> In f s) ->
  map (fun f => (f_name f, get_field (map (fun f => (f_name f, get_field g f)) L) f)) s = g.
Proof.
  intros s g L ND W H1 H2.
  transitivity (map (fun f => (f_name f, get_field g f)) s); [|now apply shaped_eta].
  apply map_ext_in. intros f Hf. f_equal.
  unfold get_field at 1.
  destruct (assoc (f_name f) (map (fun f0 => (f_name f0, get_field g f0)) L)) as [v|] eqn:E.
  - apply assoc_Some_In in E. apply in_map_iff in E as (f' & E & Hf').
    injection E as E1 E2. subst v. apply H2 in Hf'.
    assert (f' = f); [|now subst].
    { clear - ND Hf Hf' E1. induction s as [|x s IH]; [easy|]. simpl in ND. inversion ND; subst.
      destruct Hf as [->|Hf], Hf' as [->|Hf']; auto.
      - exfalso. apply H1. rewrite <- E1. now apply in_map.
      - exfalso. apply H1. rewrite E1. now apply in_map. }
  - exfalso. apply assoc_None in E. apply E. rewrite map_map. simpl.
    apply in_map with (f := f_name). auto.
Qed.

Lemma field_by_name : forall s (f f' : field), NoDup (map f_name s) -> In f s -> In f' s ->
  f_name f = f_name f' -> f = f'.
Proof.
  induction s as [|x s IH]; intros f f' ND Hf Hf' E; [easy|]. simpl in ND. inversion ND; subst.
  destruct Hf as [->|Hf], Hf' as [->|Hf']; auto.
  - exfalso. apply H1. rewrite E. now apply in_map.
  - exfalso. apply H1. rewrite <- E. now apply in_map.
Qed.

(** Deciding well-formedness, for examples. *)
Lemma wf_group_check : forall s,
  nodupb (map f_name s) && forallb (fun f => nodupb (elements (f_set f))) s = true -> wf_group_set s.
Proof.
  intros s H. apply andb_true_iff in H as [H1 H2]. split; [now apply nodupb_NoDup|].
  apply Forall_forall. intros f Hf. rewrite forallb_forall in H2. now apply nodupb_NoDup, H2.
Qed.

Fixpoint memberb (s : group_set) (g : group_val) : bool :=
  match s, g with
  | [], [] => true
  | f :: s', p :: g' => beqb (fst p) (f_name f) && existsb (beqb (snd p)) (elements (f_set f)) && memberb s' g'
  | _, _ => false
  end.

Lemma member_check : forall s g, memberb s g = true -> member s g.
Proof.
  induction s as [|f s IH]; intros [|p g] H; simpl in H; try easy; [constructor|].
  apply andb_true_iff in H as [H H3]. apply andb_true_iff in H as [H1 H2].
  constructor; [|now apply IH]. split; [now apply beqb_spec|].
  apply existsb_exists in H2 as (x & Hx & E). apply beqb_spec in E. now subst.
Qed.
