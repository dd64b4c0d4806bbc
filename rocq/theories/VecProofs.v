(** The metric vec refines the finite map of [VecSpec]. *)
From Coq Require Import List NArith ZArith Bool Lia ZifyBool ZifyN ZifyNat Permutation.
From Verif Require Import Base BaseFacts LabelModel LabelSpec LawProofs VecModel VecSpec ShardProofs.
Import ListNotations.
Local Open Scope N_scope.

(* ------------------------------------------------------------------ *)
(** ** Lists *)

Lemma nnth_list_set_same : forall {A} (l : list A) i x, i < nlen l ->
  nnth (list_set l (N.to_nat i) x) i = Some x.
Proof.
  intros A l i x H. rewrite nnth_nth_error. rewrite nlen_length in H.
  assert (N.to_nat i < length l)%nat as H' by lia. clear H. revert H'.
  generalize (N.to_nat i). induction l as [|y l IH]; intros n H; simpl in *; [lia|].
  destruct n as [|n]; simpl; [easy|]. apply IH. lia.
Qed.

Lemma nnth_list_set_other : forall {A} (l : list A) i j x, i <> j ->
  nnth (list_set l (N.to_nat i) x) j = nnth l j.
Proof.
  intros A l i j x H. rewrite !nnth_nth_error.
  assert (N.to_nat i <> N.to_nat j) as H' by lia. clear H. revert H'.
  generalize (N.to_nat i) (N.to_nat j). induction l as [|y l IH]; intros n m H; simpl; [now destruct n|].
  destruct n as [|n], m as [|m]; simpl; try easy. apply IH. lia.
Qed.

Lemma length_list_set : forall {A} (l : list A) i x, length (list_set l i x) = length l.
Proof. induction l as [|y l IH]; intros [|i] x; simpl; auto. Qed.

Lemma nlen_list_set : forall {A} (l : list A) i x, nlen (list_set l i x) = nlen l.
Proof. intros. now rewrite !nlen_length, length_list_set. Qed.

Lemma nnth_map' : forall {A B} (p : A -> B) l i, nnth (map p l) i = option_map p (nnth l i).
Proof.
  induction l as [|a l IH]; simpl; intros i; [easy|]. destruct (i =? 0); [easy|apply IH].
Qed.

Lemma nnth_repeat : forall {A} (x : A) n i, nnth (repeat x n) i = if i <? N.of_nat n then Some x else None.
Proof.
  intros A x n. induction n as [|n IH]; intros i; cbn [repeat nnth].
  - now destruct (N.ltb_spec i (N.of_nat 0)); [lia|].
  - destruct (N.eqb_spec i 0).
    + subst. now destruct (N.ltb_spec 0 (N.of_nat (S n))); [|lia].
    + rewrite IH. destruct (N.ltb_spec (N.pred i) (N.of_nat n)), (N.ltb_spec i (N.of_nat (S n))); easy || lia.
Qed.

Section Proofs.
  Variable bd : build.
  Context {L : lgset} {M : Type}.
  Variable mdefault : M.
  Variable hash_one : lg_unique L -> N.
  Variable visits : N -> N -> bool.
  Variable grows : table L M -> bool.
  Variable iter_order : table L M -> table L M.
  Variable geqb : lg_group L -> lg_group L -> bool.
  Variables (ok : lg_state L -> Prop) (wt : lg_state L -> lg_group L -> Prop)
            (valid : lg_state L -> lg_unique L -> Prop).
  Hypothesis LAW : lawful L ok wt valid.
  Hypothesis geqb_spec : forall a b, geqb a b = true <-> a = b.
  Hypothesis visits_refl : forall h, visits h h = true.
  Hypothesis iter_perm : forall t, Permutation (iter_order t) t.

  Let U := lg_unique L.
  Let G := lg_group L.
  Let ueqb := lg_unique_eqb L.

  Lemma ueqb_refl : forall u, ueqb u u = true.
  Proof. intros. now apply (law_eqb _ _ _ _ LAW). Qed.

  Lemma ueqb_neq : forall u v, u <> v -> ueqb u v = false.
  Proof.
    intros u v H. destruct (ueqb u v) eqn:E; [|easy]. apply (law_eqb _ _ _ _ LAW) in E. easy.
  Qed.

  Lemma u_dec : forall u v : U, {u = v} + {u <> v}.
  Proof.
    intros u v. destruct (ueqb u v) eqn:E.
    - left. now apply (law_eqb _ _ _ _ LAW).
    - right. intros ->. rewrite ueqb_refl in E. easy.
  Qed.

  (** *** Consequences of the laws *)

  Lemma decode_inj : forall s u v g, ok s -> valid s u -> valid s v ->
    lg_decode L s u = Done g -> lg_decode L s v = Done g -> u = v.
  Proof.
    intros s u v g OK Vu Vv Du Dv.
    pose proof (valid_encode LAW s u g OK Vu Du). pose proof (valid_encode LAW s v g OK Vv Dv). congruence.
  Qed.

  Lemma dense_inj : forall s u v i c, ok s -> valid s u -> valid s v -> lg_cardinality L s = Some c ->
    lg_encode_dense L s u = Done (Some i) -> lg_encode_dense L s v = Done (Some i) -> u = v.
  Proof.
    intros s u v i c OK Vu Vv C Eu Ev.
    destruct (law_dense _ _ _ _ LAW s u c OK Vu C) as (i1 & E1 & _ & D1).
    destruct (law_dense _ _ _ _ LAW s v c OK Vv C) as (i2 & E2 & _ & D2).
    assert (i1 = i) by congruence. assert (i2 = i) by congruence. subst.
    destruct (law_valid _ _ _ _ LAW s u OK Vu) as (g & _ & Dg & _).
    apply (decode_inj s u v g); auto. congruence.
  Qed.

  Lemma valid_decode : forall s u, ok s -> valid s u -> exists g, wt s g /\ lg_decode L s u = Done g.
  Proof. intros s u OK V. destruct (law_valid _ _ _ _ LAW s u OK V) as (g & W & D & _). eauto. Qed.

  (** *** Hash tables as association lists *)

  Definition good_entry (e : entry L M) : Prop := entry_hash e = hash_one (entry_key e).
  Definition tget (u : U) (t : table L M) : option M :=
    option_map entry_val (find (fun e => ueqb (entry_key e) u) t).

  Lemma hit_good : forall u e, good_entry e -> hit L M visits (hash_one u) u e = ueqb (entry_key e) u.
  Proof.
    intros u e H. unfold hit. fold ueqb. destruct (ueqb (entry_key e) u) eqn:E.
    - apply (law_eqb _ _ _ _ LAW) in E. rewrite H, E, visits_refl. easy.
    - apply andb_false_r.
  Qed.

  Lemma find_good : forall u t, Forall good_entry t ->
    ht_find L M visits (hash_one u) u t = tget u t.
  Proof.
    intros u t F. unfold ht_find, tget. f_equal. induction F as [|e t He _ IH]; [easy|].
    cbn [find]. rewrite hit_good by easy. now rewrite IH.
  Qed.

  Lemma tget_In : forall u t m, NoDup (map entry_key t) ->
    (tget u t = Some m <-> exists h, In (h, (u, m)) t).
  Proof.
    intros u t m ND. unfold tget. induction t as [|[h [k v]] t IH]; cbn [find].
    - split; [easy|]. now intros [h []].
    - simpl in ND. inversion ND as [|? ? N1 N2]; subst. cbn [entry_key fst snd].
      destruct (u_dec k u) as [->|NE].
      + rewrite ueqb_refl. cbn [option_map entry_val snd]. split.
        * intros E. injection E as ->. exists h. now left.
        * intros [h' [E|I]]; [congruence|]. exfalso. apply N1.
          exact (in_map entry_key _ _ I).
      + rewrite ueqb_neq by easy. rewrite (IH N2). split.
        * intros [h' I]. exists h'. now right.
        * intros [h' [E|I]]; [congruence|eauto].
  Qed.

  Lemma tget_None : forall u t, tget u t = None <-> ~ In u (map entry_key t).
  Proof.
    intros u t. unfold tget. induction t as [|e t IH]; cbn [find]; [simpl; tauto|].
    destruct (u_dec (entry_key e) u) as [E|NE].
    - rewrite <- E, ueqb_refl. simpl. split; [easy|]. intros H. exfalso. apply H. now left.
    - rewrite ueqb_neq by easy. rewrite IH. simpl. tauto.
  Qed.

  Lemma store_keys : forall h u m t, map entry_key (ht_store L M visits h u m t) = map entry_key t.
  Proof.
    induction t as [|e t IH]; cbn [ht_store map]; [easy|].
    destruct (hit L M visits h u e); cbn [map]; [easy|]. now rewrite IH.
  Qed.

  Lemma store_good : forall h u m t, Forall good_entry t -> Forall good_entry (ht_store L M visits h u m t).
  Proof.
    induction 1 as [|e t He F IH]; cbn [ht_store]; [constructor|].
    destruct (hit L M visits h u e); constructor; auto.
  Qed.

  Lemma store_get : forall u v m t, Forall good_entry t ->
    tget v (ht_store L M visits (hash_one u) u m t) =
    if ueqb v u then match tget u t with Some _ => Some m | None => None end else tget v t.
  Proof.
    intros u v m t F. unfold tget. induction F as [|e t He F' IH]; cbn [ht_store find].
    - now destruct (ueqb v u).
    - rewrite hit_good by easy. destruct (u_dec (entry_key e) u) as [E|NE].
      + rewrite E, ueqb_refl. cbn [find entry_key fst snd]. fold (entry_key e). rewrite E.
        destruct (u_dec v u) as [->|NV].
        * rewrite !ueqb_refl. easy.
        * rewrite (ueqb_neq v u) by easy. rewrite !(ueqb_neq u v) by congruence. easy.
      + rewrite (ueqb_neq _ _ NE). cbn [find]. destruct (u_dec (entry_key e) v) as [E|NV].
        * rewrite E, ueqb_refl. rewrite (ueqb_neq v u) by congruence. easy.
        * rewrite (ueqb_neq _ _ NV). apply IH.
  Qed.

  Lemma remove_In : forall h u t e, In e (ht_remove L M visits h u t) -> In e t.
  Proof.
    induction t as [|x t IH]; cbn [ht_remove]; intros e H; [easy|].
    destruct (hit L M visits h u x); [now right|]. destruct H as [->|H]; [now left|right; auto].
  Qed.

  Lemma remove_NoDup : forall h u t, NoDup (map entry_key t) ->
    NoDup (map entry_key (ht_remove L M visits h u t)).
  Proof.
    induction t as [|x t IH]; cbn [ht_remove]; intros H; [easy|]. simpl in H. inversion H as [|? ? N1 N2]; subst.
    destruct (hit L M visits h u x); [easy|]. simpl. constructor; [|auto].
    intro I. apply N1. apply in_map_iff in I as (y & E & Hy). rewrite <- E. apply in_map.
    eapply remove_In; eauto.
  Qed.

  Lemma remove_get : forall u v t, Forall good_entry t -> NoDup (map entry_key t) ->
    tget v (ht_remove L M visits (hash_one u) u t) = if ueqb v u then None else tget v t.
  Proof.
    intros u v t F. induction F as [|e t He F' IH]; intros ND; cbn [ht_remove].
    - now destruct (ueqb v u).
    - rewrite hit_good by easy. simpl in ND. inversion ND as [|? ? N1 N2]; subst.
      destruct (u_dec (entry_key e) u) as [E|NE].
      + rewrite E, ueqb_refl. destruct (u_dec v u) as [->|NV].
        * rewrite ueqb_refl. apply tget_None. rewrite E in N1; exact N1.
        * rewrite (ueqb_neq v u) by easy. unfold tget. cbn [find]. rewrite E.
          rewrite (ueqb_neq u v) by congruence. easy.
      + rewrite (ueqb_neq _ _ NE). unfold tget. cbn [find].
        destruct (u_dec (entry_key e) v) as [E|NV].
        * rewrite E, ueqb_refl. rewrite (ueqb_neq v u) by congruence. easy.
        * rewrite (ueqb_neq _ _ NV). apply IH. easy.
  Qed.

  Lemma rehash_good : forall t : table L M, Forall good_entry t ->
    map (fun e => (hash_one (entry_key e), snd e)) t = t.
  Proof.
    induction 1 as [|e t He _ IH]; simpl; [easy|]. rewrite IH. unfold good_entry in He.
    rewrite <- He. now destruct e.
  Qed.

  Lemma insert_eq : forall h u m t, Forall good_entry t ->
    ht_insert_unique L M hash_one grows h u m t = t ++ [(h, (u, m))].
  Proof.
    intros h u m t F. unfold ht_insert_unique. destruct (grows t); [|easy]. now rewrite rehash_good.
  Qed.

  Lemma insert_get : forall u v m t, tget u t = None ->
    tget v (t ++ [(hash_one u, (u, m))]) = if ueqb v u then Some m else tget v t.
  Proof.
    intros u v m t. unfold tget. induction t as [|e t IH]; cbn [app find]; intros H.
    - cbn [entry_key fst snd]. destruct (u_dec v u) as [->|NV].
      + now rewrite ueqb_refl.
      + rewrite (ueqb_neq v u), (ueqb_neq u v) by congruence. easy.
    - destruct (ueqb (entry_key e) u) eqn:E; [easy|]. destruct (ueqb (entry_key e) v) eqn:E'.
      + apply (law_eqb _ _ _ _ LAW) in E'. rewrite <- E'. now rewrite E.
      + apply IH. easy.
  Qed.

  (** *** Invariants and the meaning of a vec *)

  Notation sindex s u := (shard_index bd 64 (hash_one u) (sm_shift s)).

  (** The metric stored for an id. *)
  Definition slot (v : metric_vec L M) (u : U) : option M :=
    match mv_metrics v with
    | Dense cells =>
      match lg_encode_dense L (mv_set v) u with
      | Done (Some i) => match nnth cells i with Some c => c | None => None end
      | _ => None
      end
    | Sparse s =>
      match sindex s u with
      | Done i => match nnth (sm_shards s) i with Some t => tget u t | None => None end
      | Panic => None
      end
    end.

  Definition table_inv (ls : lg_state L) (s : sharded L M) (i : N) (t : table L M) : Prop :=
    Forall good_entry t /\ NoDup (map entry_key t) /\
    forall e, In e t -> valid ls (entry_key e) /\ sindex s (entry_key e) = Done i.

  Definition inner_inv (ls : lg_state L) (m : vec_inner L M) : Prop :=
    match m with
    | Dense cells => lg_cardinality L ls = Some (nlen cells)
    | Sparse s =>
      (forall h, exists i, shard_index bd 64 h (sm_shift s) = Done i /\ i < nlen (sm_shards s)) /\
      (forall i t, nnth (sm_shards s) i = Some t -> table_inv ls s i t)
    end.

  Definition id_ok (v : metric_vec L M) (id : label_id L) (g : G) : Prop :=
    valid (mv_set v) (li_id id) /\ lg_decode L (mv_set v) (li_id id) = Done g /\
    match mv_metrics v with
    | Dense _ => lg_encode_dense L (mv_set v) (li_id id) = Done (Some (li_hash id))
    | Sparse _ => li_hash id = hash_one (li_id id)
    end.

  Record rel (c : client L M) (a : astate) : Prop := {
    rel_ok : ok (mv_set (cl_vec c));
    rel_set : a_set a = mv_set (cl_vec c);
    rel_inner : inner_inv (mv_set (cl_vec c)) (mv_metrics (cl_vec c));
    rel_slot : forall u g, valid (a_set a) u -> lg_decode L (a_set a) u = Done g ->
                 a_map a g = slot (cl_vec c) u;
    rel_dom : forall g m, a_map a g = Some m ->
                 exists u, valid (a_set a) u /\ lg_decode L (a_set a) u = Done g;
    rel_ids : Forall2 (id_ok (cl_vec c)) (cl_ids c) (a_groups a) }.

  Definition kind_of (v : metric_vec L M) : storage :=
    match mv_metrics v with Dense _ => KDense | Sparse _ => KSparse end.

  (** *** Samples *)

  Lemma slot_dense_index : forall v cells u i, mv_metrics v = Dense cells ->
    lg_encode_dense L (mv_set v) u = Done (Some i) ->
    slot v u = match nnth cells i with Some c => c | None => None end.
  Proof. intros v cells u i E D. unfold slot. now rewrite E, D. Qed.

  Lemma dense_samples_spec : forall ls c, ok ls -> lg_cardinality L ls = Some c ->
    forall cells (base : N), base + nlen cells = c ->
    exists l, dense_samples L M ls base cells = Done l /\
      (forall g m, In (g, m) l <-> exists u i, valid ls u /\ lg_decode L ls u = Done g /\
          lg_encode_dense L ls u = Done (Some (base + i)) /\ nnth cells i = Some (Some m)) /\
      NoDup (map fst l) /\
      nlen l = nlen (filter (fun x => match x with Some _ => true | None => false end) cells).
  Proof.
    intros ls c OK C. induction cells as [|cell cells IH]; intros base Hb; cbn [dense_samples].
    - exists []. split; [easy|]. split; [|split; [constructor|easy]].
      intros g m. split; [easy|]. now intros (u & i & _ & _ & _ & H).
    - cbn [nlen] in Hb. destruct (IH (N.succ base)) as (l & E & I & ND & LEN); [lia|].
      assert (SH : forall g m, In (g, m) l <-> exists u i, valid ls u /\ lg_decode L ls u = Done g /\
          lg_encode_dense L ls u = Done (Some (base + i)) /\ i <> 0 /\ nnth (cell :: cells) i = Some (Some m)).
      { intros g m. rewrite I. split.
        - intros (u & i & H1 & H2 & H3 & H4). exists u, (N.succ i).
          repeat split; auto; [|lia|].
          + rewrite H3. do 2 f_equal. lia.
          + cbn [nnth]. destruct (N.eqb_spec (N.succ i) 0); [lia|]. now rewrite N.pred_succ.
        - intros (u & i & H1 & H2 & H3 & H4 & H5). exists u, (N.pred i).
          repeat split; auto.
          + rewrite H3. do 2 f_equal. lia.
          + cbn [nnth] in H5. destruct (N.eqb_spec i 0); [lia|]. easy. }
      destruct cell as [m0|].
      + destruct (law_dense_onto _ _ _ _ LAW ls base c OK C) as (u0 & V0 & E0); [lia|].
        destruct (law_dense _ _ _ _ LAW ls u0 c OK V0 C) as (i0 & E0' & _ & D0).
        assert (i0 = base) by congruence. subst i0.
        destruct (valid_decode ls u0 OK V0) as (g0 & _ & G0). rewrite D0, G0. cbn [obind].
        rewrite E. cbn [obind]. exists ((g0, m0) :: l). split; [easy|]. split; [|split].
        * intros g m. split.
          -- intros [H|H].
             ++ injection H as <- <-. exists u0, 0. rewrite N.add_0_r. easy.
             ++ apply SH in H as (u & i & H1 & H2 & H3 & _ & H5). exists u, i. easy.
          -- intros (u & i & H1 & H2 & H3 & H4). destruct (N.eq_dec i 0) as [->|NZ].
             ++ left. rewrite N.add_0_r in H3.
                assert (u = u0) by (eapply dense_inj; eauto). subst u. cbn [nnth N.eqb] in H4. congruence.
             ++ right. apply SH. eauto 8.
        * simpl. constructor; [|easy]. intros H. apply in_map_iff in H as ([g m] & Eg & H).
          cbn [fst] in Eg. subst g. apply SH in H as (u & i & H1 & H2 & H3 & NZ & _).
          assert (u = u0) by (eapply decode_inj; eauto). subst u.
          assert (base + i = base) by congruence. lia.
        * cbn [nlen filter]. now rewrite LEN.
      + rewrite E. exists l. split; [easy|]. split; [|split; [easy|cbn [filter]; easy]].
        intros g m. rewrite SH. split.
        * intros (u & i & H1 & H2 & H3 & _ & H5). eauto 6.
        * intros (u & i & H1 & H2 & H3 & H4). exists u, i. repeat split; auto.
          intros ->. cbn in H4. easy.
  Qed.

  Lemma table_samples_spec : forall ls t, ok ls ->
    (forall e, In e t -> valid ls (entry_key e)) -> NoDup (map entry_key t) ->
    exists l, table_samples L M ls t = Done l /\
      (forall g m, In (g, m) l <-> exists h u, In (h, (u, m)) t /\ lg_decode L ls u = Done g) /\
      NoDup (map fst l) /\ nlen l = nlen t.
  Proof.
    intros ls t OK. induction t as [|[h0 [u0 m0]] t IH]; intros V ND; cbn [table_samples].
    - exists []. split; [easy|]. split; [|split; [constructor|easy]].
      intros g m. split; [easy|]. now intros (h & u & [] & _).
    - simpl in ND. inversion ND as [|? ? N1 N2]; subst.
      destruct IH as (l & E & I & NDl & LEN); [intros; apply V; now right|easy|].
      pose proof (V _ (or_introl eq_refl)) as V0. cbn [entry_key fst snd] in *.
      destruct (valid_decode ls u0 OK V0) as (g0 & _ & G0). rewrite G0. cbn [obind]. rewrite E. cbn [obind].
      exists ((g0, m0) :: l). split; [easy|]. split; [|split].
      + intros g m. split.
        * intros [H|H].
          -- injection H as <- <-. exists h0, u0. split; [now left|easy].
          -- apply I in H as (h & u & H1 & H2). exists h, u. split; [now right|easy].
        * intros (h & u & [H|H] & D).
          -- left. congruence.
          -- right. apply I. eauto.
      + simpl. constructor; [|easy]. intros H. apply in_map_iff in H as ([g m] & Eg & H).
        cbn [fst] in Eg. subst g. apply I in H as (h & u & H1 & H2).
        assert (u = u0).
        { eapply decode_inj; eauto. apply (V (h, (u, m))). now right. }
        subst u. apply N1. exact (in_map entry_key _ _ H1).
      + cbn [nlen]. now rewrite LEN.
  Qed.

  Lemma shards_samples_spec : forall ls (idx : U -> N) ts base, ok ls ->
    (forall i t, nnth ts i = Some t -> NoDup (map entry_key t) /\
        forall e, In e t -> valid ls (entry_key e) /\ idx (entry_key e) = base + i) ->
    exists l, shards_samples L M iter_order ls ts = Done l /\
      (forall g m, In (g, m) l <-> exists i t h u, nnth ts i = Some t /\ In (h, (u, m)) t /\ lg_decode L ls u = Done g) /\
      NoDup (map fst l) /\ nlen l = fold_right (fun t acc => nlen t + acc) 0 ts.
  Proof.
    intros ls idx ts. induction ts as [|t ts IH]; intros base OK H; cbn [shards_samples].
    - exists []. split; [easy|]. split; [|split; [constructor|easy]].
      intros g m. split; [easy|]. now intros (i & t & h & u & H1 & _).
    - destruct (H 0 t eq_refl) as [ND0 V0].
      destruct (table_samples_spec ls (iter_order t) OK) as (a & Ea & Ia & NDa & La).
      { intros e He. apply V0. eapply Permutation_in; [apply iter_perm|easy]. }
      { eapply Permutation_NoDup; [apply Permutation_map; symmetry; apply iter_perm|easy]. }
      rewrite Ea. cbn [obind].
      destruct (IH (N.succ base) OK) as (b & Eb & Ib & NDb & Lb).
      { intros i t' Ht. specialize (H (N.succ i) t'). cbn [nnth] in H.
        destruct (N.eqb_spec (N.succ i) 0); [lia|]. rewrite N.pred_succ in H. destruct (H Ht) as [A B].
        split; [easy|]. intros e He. destruct (B e He). split; [easy|]. lia. }
      rewrite Eb. cbn [obind]. exists (a ++ b). split; [easy|].
      assert (PI : forall x, In x (iter_order t) <-> In x t).
      { intros x. split; apply Permutation_in; [|symmetry]; apply iter_perm. }
      split; [|split].
      + intros g m. rewrite in_app_iff, Ia, Ib. split.
        * intros [(h & u & H1 & H2)|(i & t' & h & u & H1 & H2 & H3)].
          -- exists 0, t, h, u. rewrite PI in H1. easy.
          -- exists (N.succ i), t', h, u. cbn [nnth]. destruct (N.eqb_spec (N.succ i) 0); [lia|].
             now rewrite N.pred_succ.
        * intros (i & t' & h & u & H1 & H2 & H3). cbn [nnth] in H1. destruct (N.eqb_spec i 0).
          -- left. injection H1 as <-. exists h, u. now rewrite PI.
          -- right. eauto 8.
      + rewrite map_app. apply NoDup_app_disjoint; auto.
        intros g H1 H2. apply in_map_iff in H1 as ([g1 m1] & E1 & H1), H2 as ([g2 m2] & E2 & H2).
        cbn [fst] in *. subst g1 g2. apply Ia in H1 as (h1 & u1 & I1 & D1). apply PI in I1.
        apply Ib in H2 as (i & t' & h2 & u2 & I2 & I3 & D2).
        destruct (V0 _ I1) as [Vu1 X1]. cbn [entry_key fst snd] in *.
        specialize (H (N.succ i) t'). cbn [nnth] in H.
        destruct (N.eqb_spec (N.succ i) 0); [lia|]. rewrite N.pred_succ in H. destruct (H I2) as [_ B].
        destruct (B _ I3) as [Vu2 X2]. cbn [entry_key fst snd] in *.
        assert (u1 = u2) by (eapply decode_inj; eauto). subst u2. lia.
      + rewrite nlen_app, La, Lb. cbn [fold_right]. f_equal.
        rewrite !nlen_length. f_equal. apply Permutation_length, iter_perm.
  Qed.

  Lemma samples_spec : forall v, ok (mv_set v) -> inner_inv (mv_set v) (mv_metrics v) ->
    exists l, vec_samples L M iter_order v = Done l /\
      (forall g m, In (g, m) l <-> exists u, valid (mv_set v) u /\ lg_decode L (mv_set v) u = Done g /\
                                             slot v u = Some m) /\
      NoDup (map fst l) /\ nlen l = fst (vec_get_cardinality L M v).
  Proof.
    intros v OK INV. unfold vec_samples, vec_get_cardinality, slot.
    destruct (mv_metrics v) as [cells|s] eqn:EM; cbn [inner_inv] in INV.
    - destruct (dense_samples_spec (mv_set v) _ OK INV cells 0) as (l & E & I & ND & LEN); [lia|].
      exists l. split; [easy|]. split; [|split; [easy|easy]].
      intros g m. rewrite I. split.
      + intros (u & i & H1 & H2 & H3 & H4). exists u. rewrite H3, N.add_0_l, H4. easy.
      + intros (u & H1 & H2 & H3).
        destruct (law_dense _ _ _ _ LAW (mv_set v) u _ OK H1 INV) as (i & E' & _ & _).
        rewrite E' in H3. exists u, i. rewrite N.add_0_l. repeat split; auto.
        destruct (nnth cells i) as [x|]; [now rewrite H3|easy].
    - destruct INV as [IDX TI].
      destruct (shards_samples_spec (mv_set v)
          (fun u => match sindex s u with Done i => i | Panic => 0 end) (sm_shards s) 0 OK)
        as (l & E & I & ND & LEN).
      { intros i t Ht. destruct (TI i t Ht) as (_ & N1 & B). split; [easy|].
        intros e He. destruct (B e He) as [B1 B2]. split; [easy|]. rewrite B2. lia. }
      exists l. split; [easy|]. split; [|split; [easy|]].
      + intros g m. rewrite I. split.
        * intros (i & t & h & u & H1 & H2 & H3). exists u.
          destruct (TI i t H1) as (_ & N1 & B). destruct (B _ H2) as [B1 B2].
          cbn [entry_key fst snd] in *. rewrite B2. unfold table, entry, U in *. rewrite H1. split; [easy|]. split; [easy|].
          apply tget_In; eauto.
        * intros (u & H1 & H2 & H3). destruct (sindex s u) as [i|]; [|easy].
          destruct (nnth (sm_shards s) i) as [t|] eqn:Ht; [|easy].
          destruct (TI i t Ht) as (_ & N1 & B). apply tget_In in H3 as [h H3]; [|easy]. eauto 8.
      + rewrite LEN. cbn [fst]. unfold sparse_get_cardinality.
        rewrite fold_symmetric_add. lia.
  Qed.

  (** *** Updating one slot *)

  Definition updates (v v' : metric_vec L M) (u0 : U) (x : option M) : Prop :=
    mv_set v' = mv_set v /\ kind_of v' = kind_of v /\ inner_inv (mv_set v') (mv_metrics v') /\
    forall u, valid (mv_set v) u -> slot v' u = if ueqb u u0 then x else slot v u.

  Definition with_shard (v : metric_vec L M) (s : sharded L M) (i : N) (t : table L M) : metric_vec L M :=
    {| mv_metrics := Sparse (set_shard L M s i t); mv_set := mv_set v |}.

  Lemma set_shard_updates : forall v s i t t' u0 x,
    inner_inv (mv_set v) (mv_metrics v) -> mv_metrics v = Sparse s ->
    nnth (sm_shards s) i = Some t -> sindex s u0 = Done i ->
    table_inv (mv_set v) s i t' ->
    (forall u, tget u t' = if ueqb u u0 then x else tget u t) ->
    updates v (with_shard v s i t') u0 x.
  Proof.
    intros v s i t t' u0 x INV EM Ht Hi TI' GET. rewrite EM in INV. destruct INV as [IDX TI].
    assert (Li : i < nlen (sm_shards s)) by (eapply nnth_Some_lt; eauto).
    unfold updates, with_shard, kind_of. cbn [mv_metrics mv_set]. rewrite EM.
    split; [easy|]. split; [easy|]. split.
    - cbn [inner_inv]. split.
      + intros h. destruct (IDX h) as (j & E & B). exists j. cbn [set_shard sm_shards sm_shift].
        rewrite nlen_list_set. easy.
      + intros j tj Hj. unfold table_inv. cbn [set_shard sm_shards sm_shift] in *.
        destruct (N.eq_dec i j) as [<-|NE].
        * rewrite nnth_list_set_same in Hj by easy. injection Hj as <-. exact TI'.
        * rewrite nnth_list_set_other in Hj by easy. exact (TI j tj Hj).
    - intros u Vu. unfold slot. cbn [mv_metrics mv_set set_shard sm_shards sm_shift]. rewrite EM.
      destruct (IDX (hash_one u)) as (j & E & B). rewrite E.
      destruct (N.eq_dec i j) as [<-|NE].
      + rewrite nnth_list_set_same by easy. unfold table, entry, U in *. rewrite Ht. apply GET.
      + rewrite nnth_list_set_other by easy. destruct (u_dec u u0) as [->|NU]; [congruence|].
        now rewrite ueqb_neq.
  Qed.

  Lemma dense_updates : forall v cells u0 i x, ok (mv_set v) ->
    inner_inv (mv_set v) (mv_metrics v) -> mv_metrics v = Dense cells ->
    valid (mv_set v) u0 -> lg_encode_dense L (mv_set v) u0 = Done (Some i) ->
    updates v {| mv_metrics := Dense (list_set cells (N.to_nat i) x); mv_set := mv_set v |} u0 x.
  Proof.
    intros v cells u0 i x OK INV EM V0 E0. rewrite EM in INV. cbn [inner_inv] in INV.
    unfold updates, kind_of. cbn [mv_metrics mv_set]. rewrite EM.
    split; [easy|]. split; [easy|]. split; [cbn [inner_inv]; now rewrite nlen_list_set|].
    destruct (law_dense _ _ _ _ LAW _ u0 _ OK V0 INV) as (i' & E' & Li & _).
    assert (i' = i) by congruence. subst i'.
    intros u Vu. unfold slot. cbn [mv_metrics mv_set]. rewrite EM.
    destruct (law_dense _ _ _ _ LAW _ u _ OK Vu INV) as (j & Ej & Lj & _). rewrite Ej.
    destruct (u_dec u u0) as [->|NU].
    - rewrite ueqb_refl. assert (j = i) by congruence. subst j. now rewrite nnth_list_set_same.
    - rewrite ueqb_neq by easy. rewrite nnth_list_set_other; [easy|].
      intros ->. apply NU. eapply dense_inj; eauto.
  Qed.

  Definition val (o : option M) : M := match o with Some m => m | None => mdefault end.

  Lemma shard_of : forall ls s id, inner_inv ls (Sparse s) -> li_hash id = hash_one (li_id id) ->
    exists i t, shard_index bd 64 (li_hash id) (sm_shift s) = Done i /\
      nnth (sm_shards s) i = Some t /\ table_inv ls s i t.
  Proof.
    intros ls s id [IDX TI] H. destruct (IDX (li_hash id)) as (i & E & B).
    destruct (nnth_lt_Some _ _ B) as [t Ht]. exists i, t. auto.
  Qed.

  Lemma store_inv : forall ls s i t u m, table_inv ls s i t ->
    table_inv ls s i (ht_store L M visits (hash_one u) u m t).
  Proof.
    intros ls s i t u m (F & ND & B). split; [now apply store_good|]. split; [now rewrite store_keys|].
    intros e He. assert (I : In (entry_key e) (map entry_key t)).
    { rewrite <- (store_keys (hash_one u) u m t). now apply in_map. }
    apply in_map_iff in I as (e' & E & I). destruct (B e' I). now rewrite <- E.
  Qed.

  Lemma insert_inv : forall ls s i t u m, table_inv ls s i t -> tget u t = None ->
    valid ls u -> sindex s u = Done i -> table_inv ls s i (t ++ [(hash_one u, (u, m))]).
  Proof.
    intros ls s i t u m (F & ND & B) NONE V E. split; [|split].
    - apply Forall_app. split; [easy|]. now constructor.
    - rewrite map_app. cbn [map]. apply NoDup_app_disjoint; [easy|repeat constructor; easy|].
      intros k H1 [H2|[]]. cbn [entry_key fst snd] in H2. subst k. now apply tget_None in NONE.
    - intros e H. apply in_app_iff in H as [H|[<-|[]]]; [auto|]. cbn [entry_key fst snd]. auto.
  Qed.

  Lemma remove_inv : forall ls s i t u, table_inv ls s i t ->
    table_inv ls s i (ht_remove L M visits (hash_one u) u t).
  Proof.
    intros ls s i t u (F & ND & B). split; [|split].
    - rewrite Forall_forall in *. intros e H. apply F. eapply remove_In; eauto.
    - now apply remove_NoDup.
    - intros e H. apply B. eapply remove_In; eauto.
  Qed.

  Lemma get_spec : forall v id g f m' r, ok (mv_set v) -> inner_inv (mv_set v) (mv_metrics v) ->
    id_ok v id g -> f (val (slot v (li_id id))) = (m', r : N) ->
    exists v', vec_get_metric bd L M mdefault hash_one visits grows v id f = Done (v', r) /\
      updates v v' (li_id id) (Some m').
  Proof.
    intros v id g f m' r OK INV (V & D & K) EF. unfold vec_get_metric.
    destruct (mv_metrics v) as [cells|s] eqn:EM.
    - cbn [inner_inv] in INV.
      destruct (law_dense _ _ _ _ LAW _ _ _ OK V INV) as (i & E & Li & _).
      assert (i = li_hash id) by congruence. subst i.
      rewrite (slot_dense_index v cells _ _ EM E) in EF.
      destruct (nnth_lt_Some _ _ Li) as [c Hc]. rewrite Hc in EF |- *.
      unfold val in EF. rewrite EF. eexists. split; [reflexivity|].
      apply dense_updates; auto. now rewrite EM.
    - destruct (shard_of _ _ _ INV K) as (i & t & E & Ht & TI). pose proof TI as (F & ND & B).
      unfold sparse_get_metric. rewrite E. cbn [obind]. unfold get_shard. rewrite Ht. cbn [obind].
      rewrite K in *. rewrite find_good by easy.
      assert (SL : slot v (li_id id) = tget (li_id id) t).
      { unfold slot. rewrite EM, E. unfold table, entry, U in *. now rewrite Ht. }
      rewrite SL in EF. destruct (tget (li_id id) t) as [m|] eqn:T; cbn [val] in EF.
      + rewrite EF. cbn [obind]. eexists. split; [reflexivity|].
        apply set_shard_updates with (t := t); auto; [now rewrite EM|now apply store_inv|].
        intros u. rewrite store_get by easy. now rewrite T.
      + rewrite insert_eq by easy. pose proof (insert_inv _ s i t (li_id id) mdefault TI T V E) as TI2.
        pose proof TI2 as (F2 & _ & _). rewrite find_good by easy.
        rewrite insert_get by easy. rewrite ueqb_refl. rewrite EF. cbn [obind].
        eexists. split; [reflexivity|].
        apply set_shard_updates with (t := t); auto; [now rewrite EM|now apply store_inv|].
        intros u. rewrite store_get by easy. rewrite !insert_get by easy. rewrite ueqb_refl.
        now destruct (ueqb u (li_id id)).
  Qed.

  Lemma get_mut_spec : forall v id g f m' r, ok (mv_set v) -> inner_inv (mv_set v) (mv_metrics v) ->
    id_ok v id g -> f (val (slot v (li_id id))) = (m', r : N) ->
    exists v', vec_get_metric_mut bd L M mdefault hash_one visits grows v id f = Done (v', r) /\
      updates v v' (li_id id) (Some m').
  Proof.
    intros v id g f m' r OK INV (V & D & K) EF. unfold vec_get_metric_mut.
    destruct (mv_metrics v) as [cells|s] eqn:EM.
    - cbn [inner_inv] in INV.
      destruct (law_dense _ _ _ _ LAW _ _ _ OK V INV) as (i & E & Li & _).
      assert (i = li_hash id) by congruence. subst i.
      rewrite (slot_dense_index v cells _ _ EM E) in EF.
      destruct (nnth_lt_Some _ _ Li) as [c Hc]. rewrite Hc in EF |- *.
      unfold val in EF. assert (EF' : f (match c with None => mdefault | Some m => m end) = (m', r)).
      { destruct c; exact EF. }
      rewrite EF'. eexists. split; [reflexivity|].
      apply dense_updates; auto. now rewrite EM.
    - destruct (shard_of _ _ _ INV K) as (i & t & E & Ht & TI). pose proof TI as (F & ND & B).
      unfold sparse_get_metric_mut. rewrite E. cbn [obind]. unfold get_shard. rewrite Ht. cbn [obind].
      rewrite K in *. rewrite find_good by easy.
      assert (SL : slot v (li_id id) = tget (li_id id) t).
      { unfold slot. rewrite EM, E. unfold table, entry, U in *. now rewrite Ht. }
      rewrite SL in EF. destruct (tget (li_id id) t) as [m|] eqn:T; cbn [val] in EF.
      + rewrite EF. cbn [obind]. eexists. split; [reflexivity|].
        apply set_shard_updates with (t := t); auto; [now rewrite EM|now apply store_inv|].
        intros u. rewrite store_get by easy. now rewrite T.
      + rewrite EF. cbn [obind]. rewrite insert_eq by easy. eexists. split; [reflexivity|].
        apply set_shard_updates with (t := t); auto; [now rewrite EM|now apply insert_inv|].
        intros u. now rewrite insert_get.
  Qed.

  Lemma remove_spec : forall v id g s, ok (mv_set v) -> inner_inv (mv_set v) (mv_metrics v) ->
    id_ok v id g -> mv_metrics v = Sparse s ->
    exists v', vec_remove_metric bd L M visits v id = Done (v', slot v (li_id id)) /\
      updates v v' (li_id id) None.
  Proof.
    intros v id g s OK INV (V & D & K) EM. unfold vec_remove_metric. rewrite EM in *.
    destruct (shard_of _ _ _ INV K) as (i & t & E & Ht & TI). pose proof TI as (F & ND & B).
    unfold sparse_remove_metric. rewrite E. cbn [obind]. unfold get_shard. rewrite Ht. cbn [obind].
    rewrite K in *. rewrite find_good by easy.
    assert (SL : slot v (li_id id) = tget (li_id id) t).
    { unfold slot. rewrite EM, E. unfold table, entry, U in *. now rewrite Ht. }
    rewrite SL. destruct (tget (li_id id) t) as [m|] eqn:T; cbn [obind].
    - eexists. split; [reflexivity|].
      apply set_shard_updates with (t := t); auto; [now rewrite EM|now apply remove_inv|].
      intros u. now rewrite remove_get.
    - eexists. split; [reflexivity|]. split; [easy|]. split; [unfold kind_of; now rewrite EM|].
      cbn [mv_metrics mv_set]. split; [easy|]. intros u Vu.
      destruct (u_dec u (li_id id)) as [->|NU].
      + rewrite ueqb_refl. rewrite <- SL. unfold slot. cbn [mv_metrics mv_set]. now rewrite EM.
      + rewrite ueqb_neq by easy. unfold slot. cbn [mv_metrics mv_set]. now rewrite EM.
  Qed.

  (** *** The simulation *)

  Lemma id_ok_same : forall v v' id g, mv_set v' = mv_set v -> kind_of v' = kind_of v ->
    id_ok v id g -> id_ok v' id g.
  Proof.
    intros v v' id g ES EK (V & D & K). unfold id_ok. rewrite ES. split; [easy|]. split; [easy|].
    unfold kind_of in EK. destruct (mv_metrics v), (mv_metrics v'); easy.
  Qed.

  Definition put (mp : G -> option M) (g : G) (x : option M) : G -> option M :=
    fun g' => if geqb g' g then x else mp g'.

  Lemma geqb_refl : forall g, geqb g g = true.
  Proof. intros. now apply geqb_spec. Qed.

  Lemma geqb_neq : forall g h, g <> h -> geqb g h = false.
  Proof. intros g h H. destruct (geqb g h) eqn:E; [|easy]. now apply geqb_spec in E. Qed.

  Lemma put_bound : forall mp g x, bound mp g x (put mp g x).
  Proof.
    intros. unfold bound, put. rewrite geqb_refl. split; [easy|]. intros g' H. now rewrite geqb_neq.
  Qed.

  Lemma updates_rel : forall c a v' id g x, rel c a -> id_ok (cl_vec c) id g ->
    updates (cl_vec c) v' (li_id id) x ->
    rel (with_vec L M c v') {| a_set := a_set a; a_map := put (a_map a) g x; a_groups := a_groups a |}.
  Proof.
    intros c a v' id g x [OK ES INV SL DOM IDS] (V & D & K) (US & UK & UI & UG).
    constructor; cbn [cl_vec with_vec cl_ids a_set a_map a_groups].
    - now rewrite US.
    - congruence.
    - easy.
    - intros u g' Vu Du. rewrite ES in Vu, Du. rewrite UG by easy. unfold put.
      destruct (u_dec u (li_id id)) as [->|NU].
      + rewrite ueqb_refl. assert (g' = g) by congruence. subst. now rewrite geqb_refl.
      + rewrite ueqb_neq by easy. rewrite geqb_neq; [apply SL; now rewrite ES|].
        intros ->. apply NU. eapply decode_inj; eauto.
    - intros g' m E. unfold put in E. destruct (geqb g' g) eqn:EG; [|eauto].
      apply geqb_spec in EG. subst. exists (li_id id). now rewrite ES.
    - eapply Forall2_impl; [|exact IDS]. intros i0 g0. now apply id_ok_same.
  Qed.

  Lemma nth_ids : forall c a h, rel c a ->
    match nth_error (cl_ids c) h with
    | Some id => exists g, nth_error (a_groups a) h = Some g /\ id_ok (cl_vec c) id g /\
                           a_map a g = slot (cl_vec c) (li_id id)
    | None => nth_error (a_groups a) h = None
    end.
  Proof.
    intros c a h R. pose proof (rel_ids _ _ R) as F.
    assert (X : match nth_error (cl_ids c) h with
      | Some id => exists g, nth_error (a_groups a) h = Some g /\ id_ok (cl_vec c) id g
      | None => nth_error (a_groups a) h = None end).
    { revert h. induction F as [|i g is gs Hi _ IH]; intros [|h]; cbn [nth_error]; eauto. apply IH. }
    destruct (nth_error (cl_ids c) h) as [id|]; [|easy]. destruct X as (g & E & I). exists g.
    split; [easy|]. split; [easy|]. destruct I as (V & D & _). pose proof (rel_set _ _ R) as ES.
    apply (rel_slot _ _ R); now rewrite ES.
  Qed.

  Lemma slot_grow : forall v ls' c a, rel c a -> cl_vec c = v ->
    ok ls' -> lg_cardinality L ls' = lg_cardinality L (mv_set v) ->
    (forall u, valid (mv_set v) u -> valid ls' u /\ lg_decode L ls' u = lg_decode L (mv_set v) u
                            /\ lg_encode_dense L ls' u = lg_encode_dense L (mv_set v) u) ->
    let v' := {| mv_metrics := mv_metrics v; mv_set := ls' |} in
    inner_inv ls' (mv_metrics v) /\
    forall u g, valid ls' u -> lg_decode L ls' u = Done g -> a_map a g = slot v' u.
  Proof.
    intros v ls' c a R <- OK' EC KEEP v'.
    pose proof (rel_ok _ _ R) as OK. pose proof (rel_inner _ _ R) as INV.
    pose proof (rel_set _ _ R) as ES. set (v := cl_vec c) in *.
    split.
    - destruct (mv_metrics v) as [cells|s] eqn:EM; cbn [inner_inv] in *; [congruence|].
      destruct INV as [IDX TI]. split; [easy|]. intros i t Ht. destruct (TI i t Ht) as (F & ND & B).
      split; [easy|]. split; [easy|]. intros e He. destruct (B e He). split; [now apply KEEP|easy].
    - intros u g Vu Du.
      assert (OLD : valid (mv_set v) u -> a_map a g = slot v' u).
      { intros Vo. destruct (KEEP u Vo) as (_ & Kd & Ke).
        rewrite (rel_slot _ _ R u g); [|now rewrite ES|rewrite ES; congruence].
        fold v. unfold slot, v'. cbn [mv_metrics mv_set]. now rewrite Ke. }
      destruct (a_map a g) as [m|] eqn:EA.
      + destruct (rel_dom _ _ R g m EA) as (u0 & V0 & D0). rewrite ES in V0, D0. fold v in V0, D0.
        destruct (KEEP u0 V0) as (V0' & K0 & _).
        assert (u = u0) by (apply (decode_inj ls' u u0 g); congruence || auto). subst u0. auto.
      + destruct (slot v' u) as [m|] eqn:SV; [|easy]. exfalso.
        assert (Vo : valid (mv_set v) u).
        { unfold slot, v' in SV. cbn [mv_metrics mv_set] in SV.
          destruct (mv_metrics v) as [cells|s] eqn:EM; cbn [inner_inv] in INV.
          - rewrite <- EC in INV.
            destruct (law_dense _ _ _ _ LAW ls' u _ OK' Vu INV) as (i & Ei & Li & _).
            rewrite EC in INV. destruct (law_dense_onto _ _ _ _ LAW _ i _ OK INV Li) as (u0 & V0 & E0).
            destruct (KEEP u0 V0) as (V0' & _ & Ke0). 
            assert (u = u0) as ->; [|easy]. rewrite <- EC in INV.
            apply (dense_inj ls' u u0 i _ OK' Vu V0' INV Ei). congruence.
          - destruct (sindex s u) as [i|]; [|easy].
            destruct (nnth (sm_shards s) i) as [t|] eqn:Ht; [|easy].
            destruct INV as [_ TI]. destruct (TI i t Ht) as (F & ND & B).
            apply tget_In in SV as [h I]; [|easy]. now destruct (B _ I). }
        specialize (OLD Vo). congruence.
  Qed.

  Lemma dense_no_growth : forall ls ls' c u, ok ls -> ok ls' ->
    lg_cardinality L ls = Some c -> lg_cardinality L ls' = lg_cardinality L ls ->
    (forall u, valid ls u -> valid ls' u /\ lg_decode L ls' u = lg_decode L ls u
                            /\ lg_encode_dense L ls' u = lg_encode_dense L ls u) ->
    valid ls' u -> valid ls u.
  Proof.
    intros ls ls' c u OK OK' C EC KEEP V. rewrite C in EC.
    destruct (law_dense _ _ _ _ LAW ls' u c OK' V EC) as (i & Ei & Li & _).
    destruct (law_dense_onto _ _ _ _ LAW ls i c OK C Li) as (u0 & V0 & E0).
    destruct (KEEP u0 V0) as (V0' & _ & Ke0).
    assert (u = u0) as ->; [|easy].
    apply (dense_inj ls' u u0 i c); auto. congruence.
  Qed.

  Definition glookup (l : list (G * M)) (g : G) : option M :=
    option_map snd (find (fun p => geqb (fst p) g) l).

  Lemma glookup_In : forall l g m, NoDup (map fst l) -> (glookup l g = Some m <-> In (g, m) l).
  Proof.
    unfold glookup. induction l as [|[g0 m0] l IH]; intros g m ND; cbn [find]; [easy|].
    simpl in ND. inversion ND as [|? ? N1 N2]; subst. cbn [fst]. destruct (geqb g0 g) eqn:E.
    - apply geqb_spec in E. subst g0. cbn [option_map snd]. split.
      + intros H. left. congruence.
      + intros [H|H]; [congruence|]. exfalso. apply N1. exact (in_map fst _ _ H).
    - rewrite (IH g m N2). split; [now right|]. intros [H|H]; [|easy].
      injection H as -> ->. rewrite geqb_refl in E. easy.
  Qed.

  (** Distinct known groups have distinct positions below the cardinality. *)
  Lemma card_bound_samples : forall ls c gs, ok ls -> lg_cardinality L ls = Some c -> NoDup gs ->
    (forall g, In g gs -> exists u, valid ls u /\ lg_decode L ls u = Done g) -> nlen gs <= c.
  Proof.
    intros ls c gs OK C ND H.
    assert (exists is, length is = length gs /\ NoDup is /\
      (forall i, In i is -> i < c) /\
      (forall i, In i is -> exists g, In g gs /\ lg_decode_dense L ls i = Done g)) as (is & LEN & NDi & B & _).
    { induction gs as [|g gs IH].
      - exists []. repeat split; easy || constructor.
      - inversion ND as [|? ? N1 N2]; subst.
        destruct IH as (is & LEN & NDi & B & D); [easy|intros; apply H; now right|].
        destruct (H g (or_introl eq_refl)) as (u & V & Du).
        destruct (law_dense _ _ _ _ LAW ls u c OK V C) as (i & Ei & Li & Di).
        exists (i :: is). repeat split.
        + simpl. now rewrite LEN.
        + constructor; [|easy]. intros I. destruct (D i I) as (g' & I' & D').
          assert (g = g') by congruence. now subst.
        + intros j [<-|J]; auto.
        + intros j [<-|J]; [exists g; split; [now left|congruence]|].
          destruct (D j J) as (g' & I' & D'). exists g'. split; [now right|easy]. }
    rewrite nlen_length, <- LEN. clear -NDi B.
    assert (length is <= length (map N.of_nat (seq 0 (N.to_nat c))))%nat as X.
    { apply NoDup_incl_length; [easy|]. intros i I. specialize (B i I). apply in_map_iff.
      exists (N.to_nat i). split; [lia|]. apply in_seq. lia. }
    rewrite map_length, seq_length in X. lia.
  Qed.

  Lemma filter_length_le' : forall {A} (p : A -> bool) l, (length (filter p l) <= length l)%nat.
  Proof. intros A p. induction l as [|x l IH]; simpl; [lia|]. destruct (p x); simpl; lia. Qed.

  Lemma step_refines : forall c a op, rel c a -> (forall g, op = OpLookup g -> wt (a_set a) g) ->
    exists c' o a', vec_step bd L M mdefault hash_one visits grows iter_order c op = Done (c', o) /\
      spec_step mdefault geqb wt (kind_of (cl_vec c)) a op o a' /\ rel c' a' /\
      kind_of (cl_vec c') = kind_of (cl_vec c) /\
      (forall g, wt (a_set a) g -> wt (a_set a') g) /\
      lg_cardinality L (a_set a') = lg_cardinality L (a_set a).
  Proof.
    intros c a op R WT. pose proof R as [OK ES INV SL DOM IDS].
    destruct op as [g|h f|h f|h| | |]; cbn [vec_step].
    - (* lookup *)
      specialize (WT g eq_refl). rewrite ES in WT.
      destruct (law_encode _ _ _ _ LAW _ g OK WT) as (ls' & r & E & OK' & EC & WT' & KEEP & _).
      unfold vec_try_with_labels. rewrite E. cbn [obind].
      destruct (slot_grow (cl_vec c) ls' c a R eq_refl OK' EC KEEP) as [INV' SL'].
      assert (IDS' : Forall2 (id_ok {| mv_metrics := mv_metrics (cl_vec c); mv_set := ls' |}) (cl_ids c) (a_groups a)).
      { eapply Forall2_impl; [|exact IDS]. intros i0 g0 (V & D & K). unfold id_ok. cbn [mv_set mv_metrics].
        destruct (KEEP _ V) as (V' & Kd & Ke). rewrite Kd, Ke. easy. }
      assert (DOM' : forall g0 m, a_map a g0 = Some m -> exists u, valid ls' u /\ lg_decode L ls' u = Done g0).
      { intros g0 m Hm. destruct (DOM g0 m Hm) as (u & V & D). exists u. rewrite ES in V, D.
        destruct (KEEP u V) as (V' & Kd & _). now rewrite Kd. }
      rewrite <- ES in E.
      destruct r as [u|].
      + assert (VU := E). rewrite ES in VU. destruct (law_encode_some _ _ _ _ LAW _ _ _ _ OK WT VU) as [Vu Du].
        set (v' := {| mv_metrics := mv_metrics (cl_vec c); mv_set := ls' |}) in *.
        assert (exists hsh, (match mv_metrics (cl_vec c) with
            | Dense cells => let! e := lg_encode_dense L ls' u in
               match e with None => Panic
               | Some index => let! _ := debug_assert bd (index <? nlen cells) in
                               Done (v', Some {| li_id := u; li_hash := index |}) end
            | Sparse _ => Done (v', Some {| li_id := u; li_hash := hash_one u |}) end)
            = Done (v', Some {| li_id := u; li_hash := hsh |}) /\ id_ok v' {| li_id := u; li_hash := hsh |} g)
          as (hsh & EH & IH).
        { unfold id_ok, v'. cbn [mv_metrics mv_set li_id li_hash].
          destruct (mv_metrics (cl_vec c)) as [cells|s] eqn:EM.
          - cbn [inner_inv] in INV'. destruct (law_dense _ _ _ _ LAW ls' u _ OK' Vu INV') as (i & Ei & Li & _).
            rewrite Ei. cbn [obind]. exists i. destruct (N.ltb_spec i (nlen cells)); [|lia].
            unfold debug_assert. destruct bd; cbn [obind]; easy.
          - exists (hash_one u). easy. }
        rewrite EH. cbn [obind].
        exists {| cl_vec := v'; cl_ids := cl_ids c ++ [{| li_id := u; li_hash := hsh |}] |}.
        eexists. eexists. split; [reflexivity|]. split; [|split; [|split]].
        * replace (map (label_id_eqb L {| li_id := u; li_hash := hsh |}) (cl_ids c))
            with (map (geqb g) (a_groups a)).
          { eapply sp_lookup_some. exact E. }
          symmetry. clear -IDS' Vu Du LAW geqb_spec OK' U G ueqb. subst v'.
          induction IDS' as [|i0 g0 is gs (V & D & _) _ IH]; cbn [map]; [easy|]. rewrite IH. f_equal.
          unfold label_id_eqb. cbn [li_id mv_set] in *.
          destruct (u_dec u (li_id i0)) as [->|NU].
          -- fold ueqb. rewrite ueqb_refl. assert (g = g0) by congruence. subst. now rewrite geqb_refl.
          -- fold ueqb. rewrite ueqb_neq by easy. rewrite geqb_neq; [easy|].
             intros ->. apply NU. eapply decode_inj; eauto.
        * constructor; cbn [cl_vec cl_ids a_set a_map a_groups]; auto.
          apply Forall2_app; [easy|]. constructor; [easy|constructor].
        * easy.
        * cbn [a_set]. rewrite ES. split; [exact WT'|exact EC].
      + cbn [obind]. eexists. eexists. eexists. split; [reflexivity|]. split; [|split; [|split]].
        * eapply sp_lookup_none. exact E.
        * constructor; cbn [cl_vec cl_ids with_vec a_set a_map a_groups]; auto.
        * easy.
        * cbn [a_set]. rewrite ES. split; [exact WT'|exact EC].
    - (* access *)
      pose proof (nth_ids c a h R) as H. destruct (nth_error (cl_ids c) h) as [id|].
      + destruct H as (g & Eg & I & EA). destruct (f (current mdefault a g)) as [m' r] eqn:EF.
        assert (EF' : f (val (slot (cl_vec c) (li_id id))) = (m', r)).
        { unfold current in EF. rewrite EA in EF. exact EF. }
        destruct (get_spec _ _ _ _ _ _ OK INV I EF') as (v' & EV & UP). rewrite EV. cbn [obind].
        eexists. eexists. eexists. split; [reflexivity|]. split; [|split; [|split]].
        * eapply sp_access; eauto. apply put_bound.
        * eapply updates_rel; eauto.
        * apply UP.
        * easy.
      + eexists. eexists. eexists. split; [reflexivity|]. split; [now apply sp_no_handle|easy].
    - (* access mut *)
      pose proof (nth_ids c a h R) as H. destruct (nth_error (cl_ids c) h) as [id|].
      + destruct H as (g & Eg & I & EA). destruct (f (current mdefault a g)) as [m' r] eqn:EF.
        assert (EF' : f (val (slot (cl_vec c) (li_id id))) = (m', r)).
        { unfold current in EF. rewrite EA in EF. exact EF. }
        destruct (get_mut_spec _ _ _ _ _ _ OK INV I EF') as (v' & EV & UP). rewrite EV. cbn [obind].
        eexists. eexists. eexists. split; [reflexivity|]. split; [|split; [|split]].
        * eapply sp_access_mut; eauto. apply put_bound.
        * eapply updates_rel; eauto.
        * apply UP.
        * easy.
      + eexists. eexists. eexists. split; [reflexivity|]. split; [now apply sp_no_handle|easy].
    - (* remove *)
      pose proof (nth_ids c a h R) as H. destruct (nth_error (cl_ids c) h) as [id|].
      + destruct H as (g & Eg & I & EA). destruct (mv_metrics (cl_vec c)) as [cells|s] eqn:EM.
        * unfold vec_remove_metric. rewrite EM. cbn [obind]. exists (with_vec L M c (cl_vec c)).
          eexists. eexists. split; [reflexivity|]. split; [|split; [|split]].
          -- eapply sp_remove_dense; eauto. unfold kind_of. now rewrite EM.
          -- destruct c. exact R.
          -- easy.
          -- easy.
        * rewrite <- EM in INV. destruct (remove_spec _ _ _ s OK INV I EM) as (v' & EV & UP). rewrite EV. cbn [obind].
          eexists. eexists. eexists. split; [reflexivity|]. split; [|split; [|split]].
          -- rewrite <- EA. eapply sp_remove_sparse; eauto; [|apply put_bound]. unfold kind_of. now rewrite EM.
          -- eapply updates_rel; eauto.
          -- apply UP.
          -- easy.
      + eexists. eexists. eexists. split; [reflexivity|]. split; [now apply sp_no_handle|easy].
    - (* init all *)
      unfold vec_init_all_dense. destruct (mv_metrics (cl_vec c)) as [cells|s] eqn:EM.
      + set (cells' := map (fun c0 : option M => match c0 with None => Some mdefault | Some m => Some m end) cells).
        assert (LEN : nlen cells' = nlen cells) by (unfold cells'; now rewrite !nlen_length, map_length).
        assert (SL2 : forall u, valid (a_set a) u ->
           slot {| mv_metrics := Dense cells'; mv_set := mv_set (cl_vec c) |} u = Some (val (slot (cl_vec c) u))).
        { intros u Vu. rewrite ES in Vu. unfold slot. cbn [mv_metrics mv_set]. rewrite EM.
          cbn [inner_inv] in INV. destruct (law_dense _ _ _ _ LAW _ u _ OK Vu INV) as (i & Ei & Li & _).
          rewrite Ei. unfold cells'. rewrite nnth_map'. destruct (nnth_lt_Some _ _ Li) as [x Hx]. rewrite Hx.
          cbn [option_map]. now destruct x. }
        set (v' := {| mv_metrics := Dense cells'; mv_set := mv_set (cl_vec c) |}) in *.
        assert (INV2 : inner_inv (mv_set v') (mv_metrics v')).
        { cbn [inner_inv mv_set mv_metrics v'] in *. now rewrite LEN. }
        destruct (samples_spec v' OK INV2) as (l & _ & IN & ND & _). cbn [mv_set v'] in IN.
        exists (with_vec L M c v'), OutUnit,
          {| a_set := a_set a; a_map := glookup l; a_groups := a_groups a |}.
        split; [easy|]. split; [|split; [|split]].
        * apply sp_init_dense; [unfold kind_of; now rewrite EM| | |].
          -- intros g m E. apply glookup_In; [easy|]. apply IN. destruct (DOM g m E) as (u & V & D).
             exists u. pose proof (SL2 u V) as S2. rewrite <- (SL u g V D), E in S2. rewrite ES in V, D. easy.
          -- intros g E (W & s' & u & EE). apply glookup_In; [easy|]. apply IN.
             rewrite ES in W, EE. destruct (law_encode _ _ _ _ LAW _ g OK W) as (ls' & r & E' & OK' & EC & _ & KEEP & _).
             rewrite EE in E'. injection E' as <- <-.
             destruct (law_encode_some _ _ _ _ LAW _ _ _ _ OK W EE) as [Vu Du].
             assert (Vo : valid (mv_set (cl_vec c)) u) by (eapply dense_no_growth; eauto).
             destruct (KEEP u Vo) as (_ & Kd & _). exists u. split; [easy|]. split; [congruence|].
             rewrite <- ES in Vo. rewrite (SL2 u Vo). rewrite <- (SL u g Vo), E; [easy|]. congruence.
          -- intros g E NK. destruct (glookup l g) as [m|] eqn:EG; [|easy]. exfalso. apply NK.
             apply glookup_In in EG; [|easy]. apply IN in EG as (u & V & D & _).
             destruct (law_valid _ _ _ _ LAW _ u OK V) as (g' & W & D' & E').
             assert (g' = g) by congruence. subst g'. rewrite ES. split; eauto.
        * constructor; cbn [cl_vec cl_ids with_vec a_set a_map a_groups]; auto.
          -- intros u g V D. pose proof (SL2 u V) as S2. rewrite S2. apply glookup_In; [easy|]. apply IN.
             exists u. rewrite ES in V, D. easy.
          -- intros g m E. apply glookup_In in E; [|easy]. apply IN in E as (u & V & D & _).
             exists u. now rewrite ES.
          -- eapply Forall2_impl; [|exact IDS]. intros i0 g0. apply id_ok_same; [easy|].
             unfold kind_of. now rewrite EM.
        * unfold kind_of. now rewrite EM.
        * easy.
      + exists (with_vec L M c (cl_vec c)), OutUnit, a. split; [easy|]. split; [|split; [|split]].
        * apply sp_init_sparse. unfold kind_of. now rewrite EM.
        * destruct c. exact R.
        * easy.
        * easy.
    - (* cardinality *)
      destruct (samples_spec _ OK INV) as (l & _ & IN & ND & LEN).
      destruct (vec_get_cardinality L M (cl_vec c)) as [lo up] eqn:EC. cbn [fst] in LEN.
      assert (UP : up = lg_cardinality L (a_set a)).
      { unfold vec_get_cardinality in EC. rewrite ES. destruct (mv_metrics (cl_vec c)) as [cells|s].
        - cbn [inner_inv] in INV. rewrite INV. congruence.
        - congruence. }
      exists c, (OutCardinality lo up), a. split; [easy|]. split; [|easy].
      assert (IFF : forall g, In g (map fst l) <-> a_map a g <> None).
      { intros g. rewrite in_map_iff. split.
        - intros ([g' m] & <- & I). cbn [fst]. apply IN in I as (u & V & D & S). rewrite <- ES in V, D.
          rewrite (SL u g' V D), S. easy.
        - intros H. destruct (a_map a g) as [m|] eqn:E; [|easy]. destruct (DOM g m E) as (u & V & D).
          exists (g, m). split; [easy|]. apply IN. exists u. rewrite <- (SL u g V D), E.
          rewrite ES in V, D. easy. }
      replace lo with (N.of_nat (length (map fst l))).
      2:{ rewrite map_length, <- nlen_length. exact LEN. }
      rewrite UP. apply sp_cardinality; auto.
      intros c0 Hc. rewrite map_length, <- nlen_length, LEN.
      unfold vec_get_cardinality in EC. rewrite ES in Hc.
      destruct (mv_metrics (cl_vec c)) as [cells|s] eqn:EM.
      + cbn [inner_inv] in INV. assert (c0 = nlen cells) by congruence. subst c0.
        injection EC as <- _. rewrite !nlen_length.
        pose proof (filter_length_le' (fun c1 : option M => match c1 with Some _ => true | None => false end) cells). lia.
      + (* the dense indices of the samples are distinct and below c0 *)
        rewrite <- LEN. replace (nlen l) with (nlen (map fst l)) by (now rewrite !nlen_length, map_length).
        apply (card_bound_samples (mv_set (cl_vec c)) c0 (map fst l)); auto.
        intros g I. apply in_map_iff in I as ([g' m] & <- & I). apply IN in I as (u & V & D & _). eauto.
    - (* collect *)
      destruct (samples_spec _ OK INV) as (l & E & IN & ND & _). rewrite E. cbn [obind].
      exists c, (OutSamples l), a. split; [easy|]. split; [|easy]. apply sp_collect; [easy|].
      intros g m. rewrite IN. split.
      + intros (u & V & D & S). rewrite <- ES in V, D. now rewrite (SL u g V D).
      + intros H. destruct (DOM g m H) as (u & V & D). exists u. rewrite <- (SL u g V D), H.
        rewrite ES in V, D. easy.
  Qed.

  (** *** Runs *)

  Lemma run_refines : forall ops c a, rel c a -> typed_ops wt (a_set a) ops ->
    exists c' os a', vec_run bd L M mdefault hash_one visits grows iter_order c ops = Done (c', os) /\
      spec_run mdefault geqb wt (kind_of (cl_vec c)) a ops os a' /\ rel c' a' /\
      kind_of (cl_vec c') = kind_of (cl_vec c) /\
      (forall g, wt (a_set a) g -> wt (a_set a') g) /\
      lg_cardinality L (a_set a') = lg_cardinality L (a_set a).
  Proof.
    induction ops as [|op ops IH]; intros c a R T; cbn [vec_run].
    - exists c, [], a. split; [easy|]. split; [constructor|easy].
    - destruct (step_refines c a op R) as (c1 & o & a1 & E & S & R1 & K1 & W1 & C1).
      { intros g ->. apply T. now left. }
      rewrite E. cbn [obind].
      destruct (IH c1 a1 R1) as (c2 & os & a2 & E2 & S2 & R2 & K2 & W2 & C2).
      { intros g H. apply W1. apply T. now right. }
      rewrite E2. cbn [obind]. exists c2, (o :: os), a2. split; [easy|]. rewrite K1 in *.
      split; [econstructor; eauto|]. split; [easy|]. split; [easy|]. split; [auto|congruence].
  Qed.

  Definition fresh (v : metric_vec L M) : client L M := {| cl_vec := v; cl_ids := [] |}.

  Lemma dense_init : forall ls c, ok ls -> lg_cardinality L ls = Some c ->
    rel (fresh {| mv_metrics := Dense (new_dense M c); mv_set := ls |}) (empty_astate ls).
  Proof.
    intros ls c OK C. constructor; cbn [fresh empty_astate cl_vec cl_ids mv_set mv_metrics a_set a_map a_groups]; auto.
    - cbn [inner_inv]. rewrite C. f_equal. unfold new_dense. rewrite nlen_length, repeat_length. lia.
    - intros u g V D. unfold slot. cbn [mv_metrics mv_set].
      destruct (lg_encode_dense L ls u) as [[i|]|]; [|easy|easy].
      unfold new_dense. rewrite nnth_repeat. now destruct (i <? _).
    - easy.
  Qed.

  Lemma sparse_init : forall p ls, ok ls -> 1 <= p -> p * 4 <= 2 ^ 63 ->
    exists s, sharded_new bd L M p = Done s /\
      rel (fresh {| mv_metrics := Sparse s; mv_set := ls |}) (empty_astate ls).
  Proof.
    intros p ls OK P1 P2. unfold sharded_new.
    destruct (shard_in_bounds bd 64 p (or_intror eq_refl) P1) as (n & E & _ & B & _); [exact P2|].
    rewrite E. cbn [obind]. eexists. split; [reflexivity|].
    constructor; cbn [fresh empty_astate cl_vec cl_ids mv_set mv_metrics a_set a_map a_groups]; auto.
    - cbn [inner_inv sm_shards sm_shift]. split.
      + intros h. destruct (B h) as (i & Ei & Li). exists i. split; [easy|].
        rewrite nlen_length, repeat_length. lia.
      + intros i t H. rewrite nnth_repeat in H. destruct (i <? _); [|easy]. injection H as <-.
        split; [constructor|]. split; [constructor|easy].
    - intros u g V D. unfold slot. cbn [mv_metrics mv_set sm_shards sm_shift].
      destruct (shard_index _ _ _ _) as [i|]; [|easy]. rewrite nnth_repeat. now destruct (i <? _).
    - easy.
  Qed.
End Proofs.
