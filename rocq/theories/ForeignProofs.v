(** Ids of other vecs: a run that uses them against the run without. *)
From Coq Require Import List NArith ZArith Bool Lia ZifyBool ZifyN ZifyNat Permutation.
From Verif Require Import Base BaseFacts LabelModel LabelSpec LawProofs VecModel VecSpec ShardProofs VecProofs
  VecTheorems ForeignModel ForeignSpec.
Import ListNotations.
Local Open Scope N_scope.

(* ------------------------------------------------------------------ *)
(** ** Lists *)

Lemma Forall2_len : forall {A B} (R : A -> B -> Prop) l l', Forall2 R l l' -> length l = length l'.
Proof. induction 1; simpl; auto. Qed.

Lemma Forall2_nth : forall {A B} (R : A -> B -> Prop) l l' i y, Forall2 R l l' ->
  nth_error l' i = Some y -> exists x, nth_error l i = Some x /\ R x y.
Proof.
  intros A B R l l' i y F. revert i. induction F as [|x0 y0 l l' R0 F IH]; intros [|i] E; cbn [nth_error] in *; try easy.
  - injection E as <-. eauto.
  - eauto.
Qed.

Lemma Forall2_list_set : forall {A B} (R : A -> B -> Prop) l l' i x y, Forall2 R l l' -> R x y ->
  Forall2 R (list_set l i x) (list_set l' i y).
Proof.
  intros A B R l l' i x y F. revert i.
  induction F as [|x0 y0 l l' R0 F IH]; intros [|i] E; cbn [list_set]; constructor; auto.
Qed.

Lemma Forall2_list_set_left : forall {A B} (R : A -> B -> Prop) l l' i x y, Forall2 R l l' ->
  nth_error l' i = Some y -> R x y -> Forall2 R (list_set l i x) l'.
Proof.
  intros A B R l l' i x y F. revert i.
  induction F as [|x0 y0 l l' R0 F IH]; intros [|i] E H; cbn [list_set nth_error] in *; try easy; constructor; auto.
  - injection E as ->. easy.
Qed.

Lemma filter_split : forall {A} (q : A -> bool) l,
  Permutation l (filter q l ++ filter (fun x => negb (q x)) l).
Proof.
  intros A q. induction l as [|x l IH]; cbn [filter]; [easy|].
  destruct (q x); cbn [negb app]; [now constructor|].
  rewrite <- Permutation_middle. now constructor.
Qed.

Lemma filter_Permutation : forall {A} (q : A -> bool) l l', Permutation l l' ->
  Permutation (filter q l) (filter q l').
Proof.
  induction 1; cbn [filter].
  - constructor.
  - destruct (q x); [now constructor|easy].
  - destruct (q x), (q y); try apply perm_swap; reflexivity.
  - etransitivity; eauto.
Qed.

Lemma filter_concat : forall {A} (q : A -> bool) ls, filter q (concat ls) = concat (map (filter q) ls).
Proof. intros A q. induction ls as [|l ls IH]; cbn; [easy|]. now rewrite filter_app, IH. Qed.

Lemma find_filter : forall {A} (p q : A -> bool) l, (forall x, p x = true -> q x = true) ->
  find p (filter q l) = find p l.
Proof.
  intros A p q l H. induction l as [|x l IH]; cbn [filter find]; [easy|].
  destruct (q x) eqn:Q; cbn [find]; [now rewrite IH|].
  destruct (p x) eqn:P; [apply H in P; congruence|easy].
Qed.

(** Rows made one by one from entries. *)
Section Rows.
  Context {E G M : Type} (d : E -> outcome G) (val : E -> M).

  Definition row (e : E) (r : G * M) : Prop := d e = Done (fst r) /\ snd r = val e.

  Lemma rows_unique : forall es l l', Forall2 row es l -> Forall2 row es l' -> l = l'.
  Proof.
    induction es as [|e es IH]; intros l l' F F'; inversion F; inversion F'; subst; [easy|].
    f_equal; [|auto].
    match goal with X : row e ?a, Y : row e ?b |- ?a = ?b => destruct X, Y, a, b; cbn in *; congruence end.
  Qed.

  Lemma rows_split : forall (q : E -> bool) es es' l l', Forall2 row es l -> Forall2 row es' l' ->
    Permutation (filter q es) (filter q es') ->
    exists both more more', Permutation l (both ++ more) /\ Permutation l' (both ++ more') /\
      forall r, In r more \/ In r more' -> exists e, (In e es \/ In e es') /\ q e = false /\ d e = Done (fst r).
  Proof.
    intros q es es' l l' F F' P.
    destruct (Permutation_Forall2 (filter_split q es) F) as (k & P1 & K).
    apply Forall2_app_inv_l in K as (both & more & B & Mo & ->).
    assert (P' : Permutation es' (filter q es ++ filter (fun x => negb (q x)) es')).
    { etransitivity; [apply (filter_split q)|]. apply Permutation_app_tail. now symmetry. }
    destruct (Permutation_Forall2 P' F') as (k' & P2 & K').
    apply Forall2_app_inv_l in K' as (both' & more' & B' & Mo' & ->).
    rewrite (rows_unique _ _ _ B' B) in P2.
    exists both, more, more'. split; [easy|]. split; [easy|].
    assert (X : forall xs k r, Forall2 row (filter (fun x => negb (q x)) xs) k -> In r k ->
      exists e, In e xs /\ q e = false /\ d e = Done (fst r)).
    { intros xs k r FF. remember (filter (fun x => negb (q x)) xs) as ys eqn:EY.
      assert (S : forall e, In e ys -> In e xs /\ q e = false).
      { intros e H. rewrite EY in H. apply filter_In in H as [H1 H2]. split; [easy|]. now destruct (q e). }
      clear EY. induction FF as [|e r0 ys k R _ IH]; [easy|]. intros [->|H].
      - destruct (S e (or_introl eq_refl)), R. eauto.
      - apply IH; [intros; apply S; now right|easy]. }
    intros r [H|H].
    - destruct (X _ _ _ Mo H) as (e & ? & ? & ?). eauto 6.
    - destruct (X _ _ _ Mo' H) as (e & ? & ? & ?). eauto 6.
  Qed.
End Rows.

(* ------------------------------------------------------------------ *)

Section Twin.
  Context {L : lgset} {M : Type} {ok : lg_state L -> Prop} {wt : lg_state L -> lg_group L -> Prop}
          {valid : lg_state L -> lg_unique L -> Prop}.
  Hypothesis LAW : lawful L ok wt valid.
  Variable W : world L M.
  Hypothesis WOK : world_ok W.
  (** The other ids. *)
  Variable F : list (label_id L).

  Notation REL := (rel (w_bd W) (w_hash W) ok valid).
  Notation hash := (w_hash W).
  Notation vis := (w_visits W).
  Notation store := (ht_store L M vis).
  Notation htfind := (ht_find L M vis).
  Notation remove := (ht_remove L M vis).
  Notation insert := (ht_insert_unique L M hash (w_grows W)).
  Notation good := (good_entry hash).

  Definition known (u : lg_unique L) : bool := existsb (lg_unique_eqb L u) (map li_id F).

  Lemma known_In : forall u, known u = true <-> exists id, In id F /\ li_id id = u.
  Proof.
    intros u. unfold known. rewrite existsb_exists. split.
    - intros (x & I & E). apply (law_eqb _ _ _ _ LAW) in E. subst x.
      apply in_map_iff in I as (id & E & I). eauto.
    - intros (id & I & E). exists u. split; [subst u; now apply in_map|]. now apply (law_eqb _ _ _ _ LAW).
  Qed.

  Definition q (e : entry L M) : bool := negb (known (entry_key e)).

  Lemma hit_key : forall h u e, hit L M vis h u e = true -> entry_key e = u.
  Proof. intros h u e H. apply andb_true_iff in H as [_ H]. now apply (law_eqb _ _ _ _ LAW) in H. Qed.

  Lemma hit_q : forall h u e, hit L M vis h u e = true -> q e = negb (known u).
  Proof. intros h u e H. apply hit_key in H. unfold q. now rewrite H. Qed.

  Lemma find_q : forall h u t, known u = false -> htfind h u t = htfind h u (filter q t).
  Proof.
    intros h u t K. unfold ht_find. f_equal. symmetry. apply find_filter.
    intros e H. rewrite (hit_q _ _ _ H). now rewrite K.
  Qed.

  Lemma store_q_out : forall h u m t, known u = true -> filter q (store h u m t) = filter q t.
  Proof.
    intros h u m t K. induction t as [|e t IH]; cbn [ht_store]; [easy|].
    destruct (hit L M vis h u e) eqn:H; cbn [filter].
    - change (q (fst e, (fst (snd e), m))) with (q e). rewrite (hit_q _ _ _ H), K. easy.
    - now rewrite IH.
  Qed.

  Lemma store_q_in : forall h u m t, known u = false -> filter q (store h u m t) = store h u m (filter q t).
  Proof.
    intros h u m t K. induction t as [|e t IH]; cbn [ht_store]; [easy|].
    destruct (hit L M vis h u e) eqn:H; cbn [filter].
    - change (q (fst e, (fst (snd e), m))) with (q e). rewrite (hit_q _ _ _ H), K. cbn [negb].
      cbn [ht_store]. now rewrite H.
    - rewrite IH. destruct (q e); [|easy]. cbn [ht_store]. now rewrite H.
  Qed.

  Lemma remove_q_out : forall h u t, known u = true -> filter q (remove h u t) = filter q t.
  Proof.
    intros h u t K. induction t as [|e t IH]; cbn [ht_remove]; [easy|].
    destruct (hit L M vis h u e) eqn:H; cbn [filter].
    - rewrite (hit_q _ _ _ H), K. easy.
    - now rewrite IH.
  Qed.

  Lemma remove_q_in : forall h u t, known u = false -> filter q (remove h u t) = remove h u (filter q t).
  Proof.
    intros h u t K. induction t as [|e t IH]; cbn [ht_remove]; [easy|].
    destruct (hit L M vis h u e) eqn:H; cbn [filter].
    - rewrite (hit_q _ _ _ H), K. cbn [negb ht_remove]. now rewrite H.
    - rewrite IH. destruct (q e); [|easy]. cbn [ht_remove]. now rewrite H.
  Qed.

  Lemma insert_q : forall h u m t, Forall good (filter q t) ->
    filter q (insert h u m t) = filter q t ++ (if known u then [] else [(h, (u, m))]).
  Proof.
    intros h u m t GD. unfold ht_insert_unique. rewrite filter_app. f_equal.
    - destruct (w_grows W t); [|easy].
      assert (E : filter q (map (fun e => (hash (entry_key e), snd e)) t) =
                  map (fun e => (hash (entry_key e), snd e)) (filter q t)).
      { clear GD. induction t as [|e t IH]; cbn [map filter]; [easy|].
        change (q (hash (entry_key e), snd e)) with (q e). rewrite IH. now destruct (q e). }
      etransitivity; [exact E|]. now apply rehash_good.
    - cbn [filter]. unfold q. cbn [entry_key fst snd]. now destruct (known u).
  Qed.

  Lemma find_app_none : forall h u m t, htfind h u t = None -> htfind h u (t ++ [(h, (u, m))]) = Some m.
  Proof.
    intros h u m t. unfold ht_find. induction t as [|e t IH]; cbn [app find].
    - intros _. unfold hit at 1. cbn [entry_hash entry_key fst snd]. rewrite (wo_visits _ WOK).
      assert (X : lg_unique_eqb L u u = true) by now apply (law_eqb _ _ _ _ LAW). now rewrite X.
    - destruct (hit L M vis h u e); [easy|]. exact IH.
  Qed.

  Lemma store_app_none : forall h u m m' t, htfind h u t = None ->
    store h u m' (t ++ [(h, (u, m))]) = t ++ [(h, (u, m'))].
  Proof.
    intros h u m m' t. unfold ht_find. induction t as [|e t IH]; cbn [app find ht_store].
    - intros _. unfold hit at 1. cbn [entry_hash entry_key fst snd]. rewrite (wo_visits _ WOK).
      assert (X : lg_unique_eqb L u u = true) by now apply (law_eqb _ _ _ _ LAW). now rewrite X.
    - destruct (hit L M vis h u e); [easy|]. intros H. now rewrite (IH H).
  Qed.

  Lemma insert_found : forall h u m t, exists m', htfind h u (insert h u m t) = Some m'.
  Proof.
    intros h u m t. unfold ht_insert_unique.
    generalize (if w_grows W t then map (fun e => (hash (entry_key e), snd e)) t else t). intros t0.
    destruct (htfind h u t0) as [m0|] eqn:E.
    - exists m0. unfold ht_find in *. clear -E. induction t0 as [|e t0 IH]; cbn [app find] in *; [easy|].
      destruct (hit L M vis h u e); [easy|]. auto.
    - eauto using find_app_none.
  Qed.

  (** What an access does to the entries with ids of the vec's own. *)
  Definition acc (h : N) (u : lg_unique L) (f : M -> M * N) (t : table L M) : table L M * N :=
    match htfind h u t with
    | Some m => (store h u (fst (f m)) t, snd (f m))
    | None => (t ++ [(h, (u, fst (f (w_default W))))], snd (f (w_default W)))
    end.

  Lemma find_twice : forall h u t, known u = false -> Forall good (filter q t) ->
    htfind h u t = None -> htfind h u (insert h u (w_default W) t) = Some (w_default W).
  Proof.
    intros h u t K GD E. rewrite (find_q _ _ _ K), (insert_q _ _ _ _ GD), K.
    apply find_app_none. now rewrite <- (find_q _ _ _ K).
  Qed.

  Lemma get_frame : forall s id f i t, shard_index (w_bd W) 64 (li_hash id) (sm_shift s) = Done i ->
    nnth (sm_shards s) i = Some t -> Forall good (filter q t) ->
    exists t1 r, sparse_get_metric (w_bd W) L M (w_default W) hash vis (w_grows W) s id f
        = Done (set_shard L M s i t1, r) /\
      (known (li_id id) = true -> filter q t1 = filter q t) /\
      (known (li_id id) = false -> (filter q t1, r) = acc (li_hash id) (li_id id) f (filter q t)).
  Proof.
    intros s id f i t E Ht GD. unfold sparse_get_metric, get_shard. rewrite E. cbn [obind]. rewrite Ht.
    cbn [obind]. set (h := li_hash id). set (u := li_id id).
    destruct (htfind h u t) as [m|] eqn:FI.
    - exists (store h u (fst (f m)) t), (snd (f m)).
      split; [now destruct (f m)|]. split; intros K; [now apply store_q_out|].
      unfold acc. rewrite <- (find_q _ _ _ K), FI. now rewrite store_q_in.
    - destruct (insert_found h u (w_default W) t) as [m FM]. rewrite FM.
      exists (store h u (fst (f m)) (insert h u (w_default W) t)), (snd (f m)).
      split; [now destruct (f m)|]. split; intros K.
      + rewrite (store_q_out _ _ _ _ K), (insert_q _ _ _ _ GD), K. apply app_nil_r.
      + rewrite (find_twice h u t K GD FI) in FM. injection FM as <-.
        rewrite (store_q_in _ _ _ _ K), (insert_q _ _ _ _ GD), K.
        rewrite (find_q _ _ _ K) in FI. rewrite (store_app_none _ _ _ _ _ FI).
        unfold acc. now rewrite FI.
  Qed.

  Lemma get_mut_frame : forall s id f i t, shard_index (w_bd W) 64 (li_hash id) (sm_shift s) = Done i ->
    nnth (sm_shards s) i = Some t -> Forall good (filter q t) ->
    exists t1 r, sparse_get_metric_mut (w_bd W) L M (w_default W) hash vis (w_grows W) s id f
        = Done (set_shard L M s i t1, r) /\
      (known (li_id id) = true -> filter q t1 = filter q t) /\
      (known (li_id id) = false -> (filter q t1, r) = acc (li_hash id) (li_id id) f (filter q t)).
  Proof.
    intros s id f i t E Ht GD. unfold sparse_get_metric_mut, get_shard. rewrite E. cbn [obind]. rewrite Ht.
    cbn [obind]. set (h := li_hash id). set (u := li_id id).
    destruct (htfind h u t) as [m|] eqn:FI.
    - exists (store h u (fst (f m)) t), (snd (f m)).
      split; [now destruct (f m)|]. split; intros K; [now apply store_q_out|].
      unfold acc. rewrite <- (find_q _ _ _ K), FI. now rewrite store_q_in.
    - exists (insert h u (fst (f (w_default W))) t), (snd (f (w_default W))).
      split; [now destruct (f (w_default W))|]. split; intros K.
      + rewrite (insert_q _ _ _ _ GD), K. apply app_nil_r.
      + rewrite (insert_q _ _ _ _ GD), K. unfold acc. rewrite <- (find_q _ _ _ K), FI. easy.
  Qed.

  Definition rem (h : N) (u : lg_unique L) (t : table L M) : table L M * option M :=
    match htfind h u t with Some m => (remove h u t, Some m) | None => (t, None) end.

  Lemma list_set_self : forall {A} (l : list A) i x, nth_error l i = Some x -> list_set l i x = l.
  Proof.
    induction l as [|y l IH]; intros [|i] x H; cbn [nth_error list_set] in *; try easy.
    - now injection H as ->.
    - now rewrite IH.
  Qed.

  Lemma remove_frame : forall s id i t, shard_index (w_bd W) 64 (li_hash id) (sm_shift s) = Done i ->
    nnth (sm_shards s) i = Some t ->
    exists t1 r, sparse_remove_metric (w_bd W) L M vis s id = Done (set_shard L M s i t1, r) /\
      (known (li_id id) = true -> filter q t1 = filter q t) /\
      (known (li_id id) = false -> (filter q t1, r) = rem (li_hash id) (li_id id) (filter q t)).
  Proof.
    intros s id i t E Ht. unfold sparse_remove_metric, get_shard. rewrite E. cbn [obind]. rewrite Ht.
    cbn [obind]. set (h := li_hash id). set (u := li_id id).
    destruct (htfind h u t) as [m|] eqn:FI.
    - exists (remove h u t), (Some m). split; [easy|]. split; intros K; [now apply remove_q_out|].
      unfold rem. rewrite <- (find_q _ _ _ K), FI. now rewrite remove_q_in.
    - exists t, None. split.
      + do 2 f_equal. unfold set_shard. rewrite list_set_self by now rewrite <- nnth_nth_error. now destruct s.
      + split; [easy|]. intros K. unfold rem. now rewrite <- (find_q _ _ _ K), FI.
  Qed.

  Lemma acc_good : forall u f t, Forall good t -> Forall good (fst (acc (hash u) u f t)).
  Proof.
    intros u f t GD. unfold acc. destruct (htfind (hash u) u t); cbn [fst].
    - now apply store_good.
    - apply Forall_app. split; [easy|]. now repeat constructor.
  Qed.

  Lemma rem_good : forall h u t, Forall good t -> Forall good (fst (rem h u t)).
  Proof.
    intros h u t GD. unfold rem. destruct (htfind h u t); cbn [fst]; [|easy].
    rewrite Forall_forall in *. intros e H. apply GD. eapply remove_In; eauto.
  Qed.

  (* ---------------------------------------------------------------- *)
  (** *** Two vecs that agree away from the other ids *)

  Definition twin_table (t t' : table L M) : Prop :=
    filter q t = filter q t' /\ Forall good (filter q t).

  Definition twin (m m' : vec_inner L M) : Prop :=
    match m, m' with
    | Dense cs, Dense cs' => nlen cs = nlen cs' /\
        forall i, ~ In i (map li_hash F) -> nnth cs i = nnth cs' i
    | Sparse s, Sparse s' => sm_shift s = sm_shift s' /\ Forall2 twin_table (sm_shards s) (sm_shards s')
    | _, _ => False
    end.

  Definition vtwin (v v' : metric_vec L M) : Prop :=
    mv_set v = mv_set v' /\ twin (mv_metrics v) (mv_metrics v').

  Definition ctwin (c c' : client L M) : Prop :=
    vtwin (cl_vec c) (cl_vec c') /\ cl_ids c = cl_ids c'.

  Lemma vtwin_kind : forall v v', vtwin v v' -> storage_of v = storage_of v'.
  Proof.
    intros v v' [_ T]. unfold storage_of. unfold twin in T.
    now destruct (mv_metrics v), (mv_metrics v').
  Qed.

  Lemma shard_pair : forall ls s s' h, twin (Sparse s) (Sparse s') ->
    inner_inv (w_bd W) hash valid ls (Sparse s') ->
    exists i t t', shard_index (w_bd W) 64 h (sm_shift s) = Done i /\
      shard_index (w_bd W) 64 h (sm_shift s') = Done i /\
      nnth (sm_shards s) i = Some t /\ nnth (sm_shards s') i = Some t' /\ twin_table t t'.
  Proof.
    intros ls s s' h [ES T] [IDX _]. destruct (IDX h) as (i & E & B).
    destruct (nnth_lt_Some _ _ B) as [t' Ht'].
    pose proof Ht' as H'. rewrite nnth_nth_error in H'.
    destruct (Forall2_nth _ _ _ _ _ T H') as (t & Ht & TT).
    exists i, t, t'. rewrite ES. rewrite nnth_nth_error. auto.
  Qed.

  Lemma twin_set : forall s s' i t t', twin (Sparse s) (Sparse s') -> twin_table t t' ->
    twin (Sparse (set_shard L M s i t)) (Sparse (set_shard L M s' i t')).
  Proof.
    intros s s' i t t' [ES T] TT. cbn [twin set_shard sm_shards sm_shift].
    split; [easy|]. now apply Forall2_list_set.
  Qed.

  Lemma twin_set_left : forall s s' i t t', twin (Sparse s) (Sparse s') ->
    nnth (sm_shards s') i = Some t' -> twin_table t t' ->
    twin (Sparse (set_shard L M s i t)) (Sparse s').
  Proof.
    intros s s' i t t' [ES T] N TT. cbn [twin set_shard sm_shards sm_shift].
    split; [easy|]. rewrite nnth_nth_error in N. eapply Forall2_list_set_left; eauto.
  Qed.

  (** An own id that is none of the others. *)
  Definition apart (k : storage) (id : label_id L) : Prop :=
    match k with KSparse => known (li_id id) = false | KDense => ~ In (li_hash id) (map li_hash F) end.

  (** The two accesses, either way. *)
  Definition access (mut : bool) (v : metric_vec L M) (id : label_id L) (f : M -> M * N)
    : outcome (metric_vec L M * N) :=
    if mut then vec_get_metric_mut (w_bd W) L M (w_default W) hash vis (w_grows W) v id f
    else vec_get_metric (w_bd W) L M (w_default W) hash vis (w_grows W) v id f.

  Lemma access_frame : forall mut s id f i t, shard_index (w_bd W) 64 (li_hash id) (sm_shift s) = Done i ->
    nnth (sm_shards s) i = Some t -> Forall good (filter q t) -> forall ls,
    exists t1 r, access mut {| mv_metrics := Sparse s; mv_set := ls |} id f
        = Done ({| mv_metrics := Sparse (set_shard L M s i t1); mv_set := ls |}, r) /\
      (known (li_id id) = true -> filter q t1 = filter q t) /\
      (known (li_id id) = false -> (filter q t1, r) = acc (li_hash id) (li_id id) f (filter q t)).
  Proof.
    intros mut s id f i t E Ht GD ls. unfold access. destruct mut.
    - destruct (get_mut_frame s id f i t E Ht GD) as (t1 & r & X & H). exists t1, r.
      unfold vec_get_metric_mut. cbn [mv_metrics mv_set]. rewrite X. cbn [obind]. easy.
    - destruct (get_frame s id f i t E Ht GD) as (t1 & r & X & H). exists t1, r.
      unfold vec_get_metric. cbn [mv_metrics mv_set]. rewrite X. cbn [obind]. easy.
  Qed.

  Lemma access_dense : forall mut cells ls id f, access mut {| mv_metrics := Dense cells; mv_set := ls |} id f =
    match nnth cells (li_hash id) with
    | None => Panic
    | Some c => let p := f (match c with Some m => m | None => w_default W end) in
      Done ({| mv_metrics := Dense (list_set cells (N.to_nat (li_hash id)) (Some (fst p))); mv_set := ls |}, snd p)
    end.
  Proof.
    intros [] cells ls id f; unfold access, vec_get_metric, vec_get_metric_mut; cbn [mv_metrics mv_set];
      destruct (nnth cells (li_hash id)) as [[m|]|]; try easy; cbn zeta; now destruct (f _).
  Qed.

  (** An own id used in both runs. *)
  Lemma access_both : forall mut v v' id f g, vtwin v v' ->
    inner_inv (w_bd W) hash valid (mv_set v') (mv_metrics v') -> ok (mv_set v') ->
    id_ok hash valid v' id g ->
    exists v1 r v1' r', access mut v id f = Done (v1, r) /\ access mut v' id f = Done (v1', r') /\
      vtwin v1 v1' /\ mv_set v1 = mv_set v /\ (apart (storage_of v') id -> r = r').
  Proof.
    intros mut [m ls] [m' ls'] id f g [ES T] INV OK (V & D & K). cbn [mv_metrics mv_set] in *. subst ls'.
    destruct m as [cs|s], m' as [cs'|s']; try easy.
    - destruct T as [EL EC]. cbn [inner_inv] in INV.
      destruct (law_dense _ _ _ _ LAW _ _ _ OK V INV) as (i & Ei & Li & _).
      assert (i = li_hash id) by congruence. subst i.
      rewrite !access_dense.
      destruct (nnth_lt_Some _ _ Li) as [x' Hx']. rewrite <- EL in Li.
      destruct (nnth_lt_Some _ _ Li) as [x Hx]. rewrite Hx, Hx'. cbn zeta.
      do 4 eexists. split; [reflexivity|]. split; [reflexivity|]. split; [|split; [easy|]].
      + split; [easy|]. cbn [mv_metrics twin]. split; [now rewrite !nlen_list_set|].
        intros i NI. destruct (N.eq_dec (li_hash id) i) as [<-|NE].
        * rewrite !nnth_list_set_same by lia. assert (x = x') by (rewrite (EC _ NI) in Hx; congruence).
          now subst.
        * rewrite !nnth_list_set_other by easy. now apply EC.
      + intros A. cbn [storage_of mv_metrics apart] in A. rewrite (EC _ A) in Hx. rewrite Hx in Hx'. injection Hx' as <-. reflexivity.
    - destruct (shard_pair ls s s' (li_hash id) T INV) as (i & t & t' & E & E' & Ht & Ht' & TT & GD).
      destruct (access_frame mut s id f i t E Ht GD ls) as (t1 & r & X & P1 & P2).
      assert (GD' : Forall good (filter q t')) by now rewrite <- TT.
      destruct (access_frame mut s' id f i t' E' Ht' GD' ls) as (t1' & r' & X' & P1' & P2').
      exists {| mv_metrics := Sparse (set_shard L M s i t1); mv_set := ls |}, r,
             {| mv_metrics := Sparse (set_shard L M s' i t1'); mv_set := ls |}, r'.
      split; [easy|]. split; [easy|]. split; [|split; [easy|]].
      + split; [easy|]. cbn [mv_metrics]. apply twin_set; [easy|].
        destruct (known (li_id id)).
        * rewrite <- (P1 eq_refl) in GD, TT. rewrite <- (P1' eq_refl) in TT. easy.
        * specialize (P2 eq_refl). specialize (P2' eq_refl). rewrite <- TT in P2'. rewrite <- P2 in P2'.
          injection P2' as E1 E2. split; [easy|]. apply (f_equal fst) in P2. cbn [fst] in P2. rewrite P2, K.
          now apply acc_good.
      + intros A. cbn [storage_of mv_metrics apart] in A. specialize (P2 A). specialize (P2' A).
        rewrite <- TT in P2'. congruence.
  Qed.

  (** Another id used in the first run only. *)
  Lemma access_left : forall mut v v' id f, vtwin v v' ->
    inner_inv (w_bd W) hash valid (mv_set v') (mv_metrics v') -> In id F ->
    (access mut v id f = Panic /\ storage_of v' = KDense /\
       exists c, lg_cardinality L (mv_set v) = Some c /\ c <= li_hash id) \/
    exists v1 r, access mut v id f = Done (v1, r) /\ vtwin v1 v'.
  Proof.
    intros mut [m ls] [m' ls'] id f [ES T] INV IN. cbn [mv_metrics mv_set] in *. subst ls'.
    destruct m as [cs|s], m' as [cs'|s']; try easy.
    - destruct T as [EL EC]. cbn [inner_inv] in INV. rewrite access_dense.
      destruct (nnth cs (li_hash id)) as [x|] eqn:Hx.
      + right. cbn zeta. do 2 eexists. split; [reflexivity|]. split; [easy|]. cbn [mv_metrics twin].
        split; [now rewrite nlen_list_set|]. intros i NI. rewrite nnth_list_set_other; [now apply EC|].
        intros <-. apply NI. now apply in_map.
      + left. split; [easy|]. split; [easy|]. exists (nlen cs'). split; [easy|].
        apply nnth_None in Hx. lia.
    - right. destruct (shard_pair ls s s' (li_hash id) T INV) as (i & t & t' & E & E' & Ht & Ht' & TT & GD).
      destruct (access_frame mut s id f i t E Ht GD ls) as (t1 & r & X & P1 & _).
      do 2 eexists. split; [exact X|]. split; [easy|]. cbn [mv_metrics].
      apply (twin_set_left s s' i t1 t'); auto.
      assert (K : known (li_id id) = true) by (apply known_In; eauto).
      specialize (P1 K). split; congruence.
  Qed.

  Notation vremove := (vec_remove_metric (w_bd W) L M vis).

  Lemma remove_both : forall v v' id g, vtwin v v' ->
    inner_inv (w_bd W) hash valid (mv_set v') (mv_metrics v') -> id_ok hash valid v' id g ->
    exists v1 r v1' r', vremove v id = Done (v1, r) /\ vremove v' id = Done (v1', r') /\
      vtwin v1 v1' /\ mv_set v1 = mv_set v /\ (apart (storage_of v') id -> r = r').
  Proof.
    intros [m ls] [m' ls'] id g [ES T] INV (V & D & K). cbn [mv_metrics mv_set] in *. subst ls'.
    unfold vec_remove_metric. cbn [mv_metrics mv_set].
    destruct m as [cs|s], m' as [cs'|s']; try easy.
    - do 4 eexists. split; [reflexivity|]. split; [reflexivity|]. now split.
    - destruct (shard_pair ls s s' (li_hash id) T INV) as (i & t & t' & E & E' & Ht & Ht' & TT & GD).
      destruct (remove_frame s id i t E Ht) as (t1 & r & X & P1 & P2).
      destruct (remove_frame s' id i t' E' Ht') as (t1' & r' & X' & P1' & P2').
      rewrite X, X'. cbn [obind].
      do 4 eexists. split; [reflexivity|]. split; [reflexivity|]. split; [|split; [easy|]].
      + split; [easy|]. cbn [mv_metrics]. apply twin_set; [easy|].
        destruct (known (li_id id)).
        * rewrite <- (P1 eq_refl) in GD, TT. rewrite <- (P1' eq_refl) in TT. easy.
        * specialize (P2 eq_refl). specialize (P2' eq_refl). rewrite <- TT in P2'. rewrite <- P2 in P2'.
          injection P2' as E1 E2. split; [easy|]. apply (f_equal fst) in P2. cbn [fst] in P2. rewrite P2.
          now apply rem_good.
      + intros A. cbn [storage_of mv_metrics apart] in A. specialize (P2 A). specialize (P2' A).
        rewrite <- TT in P2'. congruence.
  Qed.

  Lemma remove_left : forall v v' id, vtwin v v' ->
    inner_inv (w_bd W) hash valid (mv_set v') (mv_metrics v') -> In id F ->
    exists v1 r, vremove v id = Done (v1, r) /\ vtwin v1 v'.
  Proof.
    intros [m ls] [m' ls'] id [ES T] INV IN. cbn [mv_metrics mv_set] in *. subst ls'.
    unfold vec_remove_metric. cbn [mv_metrics mv_set].
    destruct m as [cs|s], m' as [cs'|s']; try easy.
    - do 2 eexists. split; [reflexivity|]. now split.
    - destruct (shard_pair ls s s' (li_hash id) T INV) as (i & t & t' & E & E' & Ht & Ht' & TT & GD).
      destruct (remove_frame s id i t E Ht) as (t1 & r & X & P1 & _). rewrite X. cbn [obind].
      do 2 eexists. split; [reflexivity|]. split; [easy|]. cbn [mv_metrics].
      apply (twin_set_left s s' i t1 t'); auto.
      assert (K : known (li_id id) = true) by (apply known_In; eauto).
      specialize (P1 K). split; congruence.
  Qed.

  (* ---------------------------------------------------------------- *)
  (** *** Collections *)

  Lemma table_rows : forall ls t,
    match table_samples L M ls t with
    | Done l => Forall2 (row (fun e => lg_decode L ls (entry_key e)) entry_val) t l
    | Panic => exists e, In e t /\ lg_decode L ls (entry_key e) = Panic
    end.
  Proof.
    intros ls. induction t as [|e t IH]; cbn [table_samples]; [constructor|].
    destruct (lg_decode L ls (entry_key e)) as [g|] eqn:D; cbn [obind]; [|exists e; split; [now left|easy]].
    destruct (table_samples L M ls t) as [l|]; cbn [obind].
    - constructor; [|easy]. now split.
    - destruct IH as (e' & I & P). exists e'. split; [now right|easy].
  Qed.

  Lemma shards_rows : forall ls ts,
    match shards_samples L M (w_iter W) ls ts with
    | Done l => Forall2 (row (fun e => lg_decode L ls (entry_key e)) entry_val) (concat (map (w_iter W) ts)) l
    | Panic => exists e, In e (concat (map (w_iter W) ts)) /\ lg_decode L ls (entry_key e) = Panic
    end.
  Proof.
    intros ls. induction ts as [|t ts IH]; cbn [shards_samples map concat]; [constructor|].
    pose proof (table_rows ls (w_iter W t)) as X.
    destruct (table_samples L M ls (w_iter W t)) as [a|]; cbn [obind].
    - destruct (shards_samples L M (w_iter W) ls ts) as [b|]; cbn [obind].
      + now apply Forall2_app.
      + destruct IH as (e & I & P). exists e. split; [apply in_app_iff; now right|easy].
    - destruct X as (e & I & P). exists e. split; [apply in_app_iff; now left|easy].
  Qed.

  Lemma iter_concat : forall ts, Permutation (concat (map (w_iter W) ts)) (concat ts).
  Proof.
    induction ts as [|t ts IH]; cbn [map concat]; [constructor|].
    apply Permutation_app; [apply (wo_iter _ WOK)|easy].
  Qed.

  Lemma twin_concat : forall ts ts', Forall2 twin_table ts ts' -> filter q (concat ts) = filter q (concat ts').
  Proof.
    intros ts ts' T. rewrite !filter_concat. f_equal.
    induction T as [|t t' ts ts' [E _] _ IH]; cbn [map]; [easy|]. now rewrite E, IH.
  Qed.

  (** Filled cells with their positions. *)
  Fixpoint filled (i : N) (cells : list (option M)) : list (N * M) :=
    match cells with
    | [] => []
    | None :: r => filled (N.succ i) r
    | Some m :: r => (i, m) :: filled (N.succ i) r
    end.

  Lemma dense_rows : forall ls cells i,
    match dense_samples L M ls i cells with
    | Done l => Forall2 (row (fun p => lg_decode_dense L ls (fst p)) snd) (filled i cells) l
    | Panic => exists p, In p (filled i cells) /\ lg_decode_dense L ls (fst p) = Panic
    end.
  Proof.
    intros ls. induction cells as [|[m|] cells IH]; intros i; cbn [dense_samples filled]; [constructor| |apply IH].
    destruct (lg_decode_dense L ls i) as [g|] eqn:D; cbn [obind].
    - specialize (IH (N.succ i)). destruct (dense_samples L M ls (N.succ i) cells) as [l|]; cbn [obind].
      + constructor; [|easy]. now split.
      + destruct IH as (p & I & P). exists p. split; [now right|easy].
    - exists (i, m). split; [now left|easy].
  Qed.

  Lemma filled_bound : forall cells i p, In p (filled i cells) -> i <= fst p /\ fst p < i + nlen cells.
  Proof.
    induction cells as [|[m|] cells IH]; intros i p H; cbn [filled nlen] in *; [easy| |].
    - destruct H as [<-|H]; [cbn [fst]; lia|]. apply IH in H. lia.
    - apply IH in H. lia.
  Qed.

  Definition qd (p : N * M) : bool := negb (existsb (N.eqb (fst p)) (map li_hash F)).

  Lemma qd_In : forall i m, qd (i, m) = true <-> ~ In i (map li_hash F).
  Proof.
    intros i m. unfold qd. cbn [fst]. rewrite negb_true_iff. split.
    - intros H I. assert (existsb (N.eqb i) (map li_hash F) = true); [|congruence].
      apply existsb_exists. exists i. split; [easy|apply N.eqb_refl].
    - intros H. destruct (existsb _ _) eqn:E; [|easy]. exfalso. apply H.
      apply existsb_exists in E as (j & I & E). apply N.eqb_eq in E. now subst.
  Qed.

  Lemma filled_twin : forall cs cs' base, nlen cs = nlen cs' ->
    (forall i, ~ In (base + i) (map li_hash F) -> nnth cs i = nnth cs' i) ->
    filter qd (filled base cs) = filter qd (filled base cs').
  Proof.
    induction cs as [|c cs IH]; intros [|c' cs'] base EL H; cbn [nlen] in EL; try lia; [easy|].
    assert (IHc : filter qd (filled (N.succ base) cs) = filter qd (filled (N.succ base) cs')).
    { apply IH; [lia|]. intros i NI. specialize (H (N.succ i)). cbn [nnth] in H.
      destruct (N.eqb_spec (N.succ i) 0); [lia|]. rewrite N.pred_succ in H. apply H.
      now replace (base + N.succ i) with (N.succ base + i) by lia. }
    assert (H0 : ~ In base (map li_hash F) -> c = c').
    { intros NI. specialize (H 0). rewrite N.add_0_r in H. cbn in H. specialize (H NI). congruence. }
    destruct (in_dec N.eq_dec base (map li_hash F)) as [I|NI].
    - assert (QF : forall x, qd (base, x) = false).
      { intros x. destruct (qd (base, x)) eqn:Q; [apply qd_In in Q; contradiction|easy]. }
      destruct c as [m|], c' as [m'|]; cbn [filled filter]; rewrite ?QF; exact IHc.
    - rewrite <- (H0 NI). destruct c as [m|]; cbn [filled filter]; [|exact IHc]. now rewrite IHc.
  Qed.

  Notation samples := (vec_samples L M (w_iter W)).

  Lemma samples_both : forall v v' l', vtwin v v' ->
    inner_inv (w_bd W) hash valid (mv_set v') (mv_metrics v') -> ok (mv_set v') ->
    samples v' = Done l' ->
    match samples v with
    | Done l => exists both more more', Permutation l (both ++ more) /\ Permutation l' (both ++ more') /\
        forall g m, In (g, m) more \/ In (g, m) more' -> disturbed (storage_of v') (mv_set v') F g
    | Panic => storage_of v' = KSparse /\ exists id, In id F /\ lg_decode L (mv_set v') (li_id id) = Panic
    end.
  Proof.
    intros [m ls] [m' ls'] l' [ES T] INV OK E'. cbn [mv_metrics mv_set] in *. subst ls'.
    unfold vec_samples in *. cbn [mv_metrics mv_set] in *.
    destruct m as [cs|s], m' as [cs'|s']; try easy.
    - destruct T as [EL EC]. cbn [inner_inv] in INV.
      pose proof (dense_rows ls cs 0) as X. pose proof (dense_rows ls cs' 0) as X'. rewrite E' in X'.
      destruct (dense_samples L M ls 0 cs) as [l|].
      + destruct (rows_split _ _ qd _ _ _ _ X X') as (both & more & more' & P1 & P2 & S).
        { rewrite (filled_twin cs cs' 0); [easy|easy|]. intros i. rewrite N.add_0_l. apply EC. }
        exists both, more, more'. split; [easy|]. split; [easy|]. intros g m0 H.
        destruct (S _ H) as ([i x] & _ & Q & D). cbn [fst] in D.
        destruct (in_dec N.eq_dec i (map li_hash F)) as [I|NI]; [|apply (qd_In i x) in NI; congruence].
        apply in_map_iff in I as (id & <- & I). exists id. split; [easy|exact D].
      + exfalso. destruct X as (p & I & P). apply filled_bound in I as [_ I].
        destruct (law_dense_onto _ _ _ _ LAW ls (fst p) _ OK INV) as (u & V & Eu); [lia|].
        destruct (law_dense _ _ _ _ LAW ls u _ OK V INV) as (i & Ei & _ & Di).
        destruct (law_valid _ _ _ _ LAW ls u OK V) as (g & _ & Dg & _). congruence.
    - destruct T as [ESH TT].
      pose proof (shards_rows ls (sm_shards s)) as X. pose proof (shards_rows ls (sm_shards s')) as X'.
      rewrite E' in X'.
      destruct (shards_samples L M (w_iter W) ls (sm_shards s)) as [l|].
      + destruct (rows_split _ _ q _ _ _ _ X X') as (both & more & more' & P1 & P2 & S).
        { etransitivity; [apply filter_Permutation, iter_concat|].
          rewrite (twin_concat _ _ TT). apply filter_Permutation. symmetry. apply iter_concat. }
        exists both, more, more'. split; [easy|]. split; [easy|]. intros g m0 H.
        destruct (S _ H) as (e & _ & Q & D). unfold q in Q. apply negb_false_iff, known_In in Q as (id & I & EK).
        exists id. split; [easy|]. cbn [storage_of mv_metrics taken_for]. now rewrite EK.
      + split; [easy|]. destruct X as (e & I & P).
        destruct (known (entry_key e)) eqn:K.
        * apply known_In in K as (id & I' & EK). exists id. split; [easy|]. now rewrite EK.
        * exfalso. assert (IF : In e (filter q (concat (sm_shards s')))).
          { rewrite <- (twin_concat _ _ TT). apply filter_In. split; [|unfold q; now rewrite K].
            eapply Permutation_in; [apply iter_concat|exact I]. }
          apply filter_In in IF as [IF _]. apply in_concat in IF as (t' & It & Ie).
          apply In_nnth in It as (i & It). destruct INV as [_ TI].
          destruct (TI i t' It) as (_ & _ & B). destruct (B e Ie) as [V _].
          destruct (law_valid _ _ _ _ LAW ls _ OK V) as (g & _ & Dg & _). congruence.
  Qed.

  (* ---------------------------------------------------------------- *)
  (** *** Steps *)

  Notation vstep := (vec_step (w_bd W) L M (w_default W) hash vis (w_grows W) (w_iter W)).
  Notation SSTEP := (spec_step (w_default W) (w_geqb W) wt).
  Notation SRUN := (spec_run (w_default W) (w_geqb W) wt).

  Lemma apart_or : forall (v : metric_vec L M) id g, ok (mv_set v) ->
    inner_inv (w_bd W) hash valid (mv_set v) (mv_metrics v) -> id_ok hash valid v id g ->
    ~ disturbed (storage_of v) (mv_set v) F g -> apart (storage_of v) id.
  Proof.
    intros v id g OK INV (V & D & K) ND. unfold storage_of in *.
    destruct (mv_metrics v) as [cs|s]; cbn [apart inner_inv] in *.
    - intros I. apply ND. apply in_map_iff in I as (id' & E & I). exists id'. split; [easy|].
      cbn [taken_for]. rewrite E. destruct (law_dense _ _ _ _ LAW _ _ _ OK V INV) as (i & Ei & _ & Di).
      assert (i = li_hash id) by congruence. subst i. congruence.
    - destruct (known (li_id id)) eqn:KN; [|easy]. exfalso. apply ND.
      apply known_In in KN as (id' & I & E). exists id'. split; [easy|]. cbn [taken_for]. now rewrite E.
  Qed.

  Lemma own_step : forall c c' a op, ctwin c c' -> REL c' a -> (forall g, op = OpLookup g -> wt (a_set a) g) ->
    exists c1' o' a', vstep c' op = Done (c1', o') /\
      SSTEP (storage_of (cl_vec c')) a op o' a' /\ REL c1' a' /\
      storage_of (cl_vec c1') = storage_of (cl_vec c') /\
      (forall g, wt (a_set a) g -> wt (a_set a') g) /\
      match vstep c op with
      | Panic => storage_of (cl_vec c') = KSparse /\ op = OpCollect /\
          exists id, In id F /\ lg_decode L (mv_set (cl_vec c')) (li_id id) = Panic
      | Done (c1, o) => ctwin c1 c1' /\
          agree (disturbed (storage_of (cl_vec c')) (mv_set (cl_vec c1')) F) (a_groups a) op o o'
      end.
  Proof.
    intros c c' a op [VT EI] R WT.
    destruct (step_refines (w_bd W) (w_default W) hash vis (w_grows W) (w_iter W) (w_geqb W)
      ok wt valid LAW (wo_geqb W WOK) (wo_visits W WOK) (wo_iter W WOK) c' a op R WT)
      as (c1' & o' & a' & E & S & R' & K & WT' & _).
    exists c1', o', a'. split; [easy|]. split; [exact S|]. split; [easy|]. split; [exact K|]. split; [easy|].
    pose proof R as [OK ES INV SL DOM IDS]. pose proof VT as [EV T].
    assert (ACC : forall mut h f, exists w w',
      match nth_error (cl_ids c) h with
      | None => Done (c, OutNoHandle)
      | Some id => let! p := access mut (cl_vec c) id f in
        let (v, r) := (p : metric_vec L M * N) in Done (with_vec L M c v, OutValue r)
      end = Done w /\
      match nth_error (cl_ids c') h with
      | None => Done (c', OutNoHandle)
      | Some id => let! p := access mut (cl_vec c') id f in
        let (v, r) := (p : metric_vec L M * N) in Done (with_vec L M c' v, OutValue r)
      end = Done w' /\ ctwin (fst w) (fst w') /\ mv_set (cl_vec (fst w')) = mv_set (cl_vec c') /\
      agree (disturbed (storage_of (cl_vec c')) (mv_set (cl_vec c')) F) (a_groups a) (OpAccess h f) (snd w) (snd w')).
    { intros mut h f. rewrite EI. cbn [agree].
      pose proof (nth_ids _ _ _ _ _ _ h R) as X. destruct (nth_error (cl_ids c') h) as [id|] eqn:EN.
      - destruct X as (g & Eg & IO & _). rewrite Eg.
        destruct (access_both mut _ _ id f g VT INV OK IO) as (v1 & r & v1' & r' & A1 & A2 & T1 & S1 & AP).
        rewrite A1, A2. cbn [obind]. do 2 eexists. split; [reflexivity|]. split; [reflexivity|].
        cbn [fst snd with_vec cl_vec cl_ids]. split; [split; easy|]. split; [destruct T1; congruence|].
        intros ND. f_equal. apply AP. eapply apart_or; eauto.
      - rewrite X. do 2 eexists. split; [reflexivity|]. split; [reflexivity|]. cbn [fst snd].
        split; [split; easy|]. now split. }
    destruct op as [g|h f|h f|h| | |]; cbn [vec_step] in *.
    - (* lookup *)
      unfold vec_try_with_labels in *. rewrite EV.
      destruct (lg_encode L (mv_set (cl_vec c')) g) as [[ls r]|]; cbn [obind] in *; [|easy].
      destruct r as [u|]; [|cbn [obind] in *; injection E as <- <-; split; [|easy]; now split].
      unfold vtwin in VT. destruct (mv_metrics (cl_vec c)) as [cs|s], (mv_metrics (cl_vec c')) as [cs'|s']; try easy.
      + destruct (lg_encode_dense L ls u) as [[i|]|]; cbn [obind] in *; try easy.
        assert (EL : nlen cs = nlen cs') by apply T. rewrite EL.
        destruct (debug_assert (w_bd W) (i <? nlen cs')); cbn [obind] in *; [|easy].
        injection E as <- <-. cbn [agree]. rewrite EI. split; [|easy].
        repeat split; cbn [cl_vec cl_ids mv_set mv_metrics]; now try apply T.
      + cbn [obind] in *. injection E as <- <-. cbn [agree]. rewrite EI. split; [|easy].
        repeat split; cbn [cl_vec cl_ids mv_set mv_metrics]; now try apply T.
    - destruct (ACC false h f) as ([c1 o] & w' & E1 & E2 & CT & SE & AG).
      unfold access in E1, E2. rewrite E1. rewrite E in E2. injection E2 as <-. cbn [fst snd] in *.
      split; [easy|]. rewrite SE. exact AG.
    - destruct (ACC true h f) as ([c1 o] & w' & E1 & E2 & CT & SE & AG).
      unfold access in E1, E2. rewrite E1. rewrite E in E2. injection E2 as <-. cbn [fst snd] in *.
      split; [easy|]. rewrite SE. exact AG.
    - (* remove *)
      rewrite EI. cbn [agree].
      pose proof (nth_ids _ _ _ _ _ _ h R) as X. destruct (nth_error (cl_ids c') h) as [id|] eqn:EN.
      + destruct X as (g & Eg & IO & _). rewrite Eg.
        destruct (remove_both _ _ id g VT INV IO) as (v1 & r & v1' & r' & A1 & A2 & T1 & S1 & AP).
        rewrite A1. rewrite A2 in E. cbn [obind] in *. injection E as <- <-.
        cbn [fst snd with_vec cl_vec cl_ids]. split; [split; easy|].
        intros ND. f_equal. apply AP. eapply apart_or; eauto. destruct T1. cbn [with_vec cl_vec] in ND. congruence.
      + rewrite X. injection E as <- <-. split; [split; easy|easy].
    - (* init_all_dense *)
      injection E as <- <-. split; [|easy]. split; [|easy]. cbn [with_vec cl_vec].
      unfold vec_init_all_dense. destruct (cl_vec c) as [m ls], (cl_vec c') as [m' ls']. cbn [mv_metrics mv_set] in *.
      destruct m as [cs|s], m' as [cs'|s']; try easy. destruct T as [EL EC].
      split; [easy|]. cbn [mv_metrics twin]. split; [now rewrite !nlen_length, !map_length, <- !nlen_length|].
      intros i NI. rewrite !nnth_map'. now rewrite EC.
    - (* cardinality *)
      unfold vec_get_cardinality in *. rewrite EV in *.
      destruct (mv_metrics (cl_vec c)) as [cs|s], (mv_metrics (cl_vec c')) as [cs'|s']; try easy;
        injection E as <- <-; cbn [agree].
      + split; [split; [|easy]|].
        * exact VT.
        * assert (EL : nlen cs = nlen cs') by apply T. rewrite EL. eauto.
      + split; [split; [|easy]|]; [exact VT|eauto].
    - (* collect *)
      destruct (samples (cl_vec c')) as [l'|] eqn:E'; cbn [obind] in E; [|easy]. injection E as <- <-.
      pose proof (samples_both _ _ _ VT INV OK E') as X.
      destruct (samples (cl_vec c)) as [l|]; cbn [obind].
      + destruct X as (both & more & more' & P1 & P2 & D). split; [now split|]. cbn [agree].
        exists l, l', both, more, more'. auto.
      + destruct X as [X1 X2]. auto.
  Qed.

  Notation astep := (any_step (w_bd W) L M (w_default W) hash vis (w_grows W) (w_iter W)).

  (** A call through another id. *)
  Lemma other_step : forall c c' a op, ctwin c c' -> REL c' a ->
    incl (strangers [op]) F -> owns [op] = [] ->
    match astep c op with
    | Panic => cannot (storage_of (cl_vec c')) (mv_set (cl_vec c)) [] op
    | Done (c1, o) => ctwin c1 c'
    end.
  Proof.
    intros c c' a op [VT EI] R IN OW. pose proof (rel_inner _ _ _ _ _ _ R) as INV.
    destruct op as [op|id f|id f|id]; cbn [owns flat_map app] in OW; try easy; cbn [any_step];
      (assert (I : In id F) by (apply IN; cbn; now left)).
    - change (vec_get_metric (w_bd W) L M (w_default W) hash vis (w_grows W) (cl_vec c) id f)
        with (access false (cl_vec c) id f).
      destruct (access_left false _ _ id f VT INV I) as [(X & K & P)|(v1 & r & X & T)]; rewrite X; cbn [obind].
      + rewrite K. exact P.
      + now split.
    - change (vec_get_metric_mut (w_bd W) L M (w_default W) hash vis (w_grows W) (cl_vec c) id f)
        with (access true (cl_vec c) id f).
      destruct (access_left true _ _ id f VT INV I) as [(X & K & P)|(v1 & r & X & T)]; rewrite X; cbn [obind].
      + rewrite K. exact P.
      + now split.
    - destruct (remove_left _ _ id VT INV I) as (v1 & r & X & T). rewrite X. cbn [obind]. now split.
  Qed.

  Notation arun := (any_run (w_bd W) L M (w_default W) hash vis (w_grows W) (w_iter W)).

  Lemma typed_owns_cons : forall s op ops, typed_ops wt s (owns (op :: ops)) -> typed_ops wt s (owns (M := M) ops).
  Proof. intros s op ops T g H. apply T. cbn [owns flat_map]. apply in_app_iff. now right. Qed.

  Lemma any_runs : forall ops c c' a, ctwin c c' -> REL c' a -> typed_ops wt (a_set a) (owns ops) ->
    incl (strangers ops) F -> forall c1 os, arun c ops = Done (c1, os) ->
    exists c1' os' a', exec W c' (owns ops) = Done (c1', os') /\
      SRUN (storage_of (cl_vec c')) a (owns ops) os' a' /\ REL c1' a' /\ ctwin c1 c1' /\
      storage_of (cl_vec c1') = storage_of (cl_vec c') /\ (forall g, wt (a_set a) g -> wt (a_set a') g).
  Proof.
    induction ops as [|op ops IH]; intros c c' a CT R TY IN c1 os E; cbn [any_run] in E.
    - injection E as <- <-. exists c', [], a. split; [easy|]. split; [constructor|]. auto.
    - destruct (astep c op) as [[c2 o]|] eqn:ES; cbn [obind] in E; [|easy].
      destruct (arun c2 ops) as [[c3 os3]|] eqn:ER; cbn [obind] in E; [|easy]. injection E as <- <-.
      assert (IN2 : incl (strangers ops) F).
      { intros x H. apply IN. cbn [strangers flat_map]. apply in_app_iff. now right. }
      destruct op as [op|id f|id f|id].
      2-4: assert (CT2 : ctwin c2 c');
        [match type of ES with any_step _ _ _ _ _ _ _ _ _ ?o = _ =>
           pose proof (other_step c c' a o CT R) as X end;
         rewrite ES in X; apply X; [intros x [<-|[]]; apply IN; now left|easy]
        |apply (IH c2 c' a CT2 R TY IN2 _ _ ER)].
      destruct (own_step c c' a op CT R) as (c1' & o' & a' & E' & S & R' & K & WT & X).
      { intros g ->. apply TY. now left. }
      cbn [any_step] in ES. rewrite ES in X. destruct X as [CT2 _].
      destruct (IH c2 c1' a' CT2 R' ) with (c1 := c3) (os := os3) as (c2' & os' & a2 & E2 & S2 & R2 & CT3 & K2 & WT2); auto.
      { intros g H. apply WT. apply TY. now right. }
      exists c2', (o' :: os'), a2. split.
      { cbn [owns flat_map app]. unfold exec in *. cbn [vec_run]. rewrite E'. cbn [obind].
        fold (owns ops). now rewrite E2. }
      rewrite K in *. split; [econstructor; eauto|]. auto 6.
  Qed.
End Twin.

(* ------------------------------------------------------------------ *)
(** ** The theorems *)

Lemma any_run_app : forall {L M} (W : world L M) ops1 ops2 c,
  exec_any W c (ops1 ++ ops2) =
  let! p := exec_any W c ops1 in
  let (c1, os1) := (p : client L M * list (vec_out L M)) in
  let! r := exec_any W c1 ops2 in
  let (c2, os2) := (r : client L M * list (vec_out L M)) in Done (c2, os1 ++ os2).
Proof.
  intros L M W. unfold exec_any. induction ops1 as [|op ops1 IH]; intros ops2 c; cbn [app any_run obind].
  - destruct (any_run _ _ _ _ _ _ _ _ c ops2) as [[c2 os2]|]; easy.
  - destruct (any_step _ _ _ _ _ _ _ _ c op) as [[c1 o]|]; cbn [obind]; [|easy]. rewrite IH.
    destruct (any_run _ _ _ _ _ _ _ _ c1 ops1) as [[c2 os1]|]; cbn [obind]; [|easy].
    destruct (any_run _ _ _ _ _ _ _ _ c2 ops2) as [[c3 os2]|]; easy.
Qed.

Lemma first_panic : forall {L M} (W : world L M) ops c, exec_any W c ops = Panic ->
  exists pre op post c1 os, ops = pre ++ op :: post /\ exec_any W c pre = Done (c1, os) /\
    exec_any W c1 [op] = Panic.
Proof.
  intros L M W. induction ops as [|op ops IH]; intros c H; [easy|].
  unfold exec_any in *. cbn [any_run] in H.
  destruct (any_step _ _ _ _ _ _ _ _ c op) as [[c1 o]|] eqn:E; cbn [obind] in H.
  - destruct (any_run _ _ _ _ _ _ _ _ c1 ops) as [[c2 os2]|] eqn:E2; cbn [obind] in H; [easy|].
    destruct (IH c1 E2) as (pre & op' & post & c3 & os & -> & E3 & P).
    exists (op :: pre), op', post, c3, (o :: os). split; [easy|]. split; [|easy].
    cbn [any_run]. rewrite E. cbn [obind]. now rewrite E3.
  - exists [], op, ops, c, []. split; [easy|]. split; [easy|]. cbn [any_run]. now rewrite E.
Qed.

Lemma owns_app : forall {L M} (a b : list (any_op L M)), owns (a ++ b) = owns a ++ owns b.
Proof. intros. apply flat_map_app. Qed.

Section Final.
  Context {L : lgset} {M : Type} {ok : lg_state L -> Prop} {wt : lg_state L -> lg_group L -> Prop}
          {valid : lg_state L -> lg_unique L -> Prop}.
  Hypothesis LAW : lawful L ok wt valid.
  Variable W : world L M.
  Hypothesis WOK : world_ok W.

  Lemma start_twin : forall F p ls v, constructed W p ls v -> ctwin W F (start v) (start v).
  Proof.
    intros F p ls v C. split; [|easy]. split; [easy|]. cbn [start cl_vec].
    assert (SP : forall s, sharded_new (w_bd W) L M p = Done s -> twin W F (Sparse s) (Sparse s)).
    { intros s E. unfold sharded_new in E. destruct (default_shard_amount (w_bd W) 64 p) as [n|]; [|easy].
      cbn [obind] in E. injection E as <-. cbn [twin sm_shards sm_shift]. split; [easy|].
      induction (N.to_nat n) as [|k IH]; cbn [repeat]; constructor; [|easy]. split; [easy|constructor]. }
    assert (SN : forall v', vec_new_sparse (w_bd W) L M p ls = Done v' -> twin W F (mv_metrics v') (mv_metrics v')).
    { intros v' E. unfold vec_new_sparse in E. destruct (sharded_new (w_bd W) L M p) as [s|]; [|easy].
      cbn [obind] in E. injection E as <-. now apply SP. }
    destruct C as (_ & _ & [E|[E|E]]).
    - unfold vec_new in E. destruct (lg_cardinality L ls) as [c|]; [|now apply SN].
      destruct (c <=? DEFAULT_MAX_DENSE); [|now apply SN]. injection E as <-. now split.
    - unfold vec_new_dense in E. destruct (lg_cardinality L ls); [|easy]. injection E as <-. now split.
    - now apply SN.
  Qed.

  Theorem others_undisturbed : forall p ls v, constructed W p ls v -> ok ls ->
    forall ops op, typed_ops wt ls (owns ops ++ [op]) ->
    forall c outs o, exec_any W (start v) (ops ++ [Own op]) = Done (c, outs ++ [o]) ->
    exists c' outs' o', exec W (start v) (owns ops ++ [op]) = Done (c', outs' ++ [o']) /\
      length outs' = length (owns ops) /\
      mv_set (cl_vec c) = mv_set (cl_vec c') /\ cl_ids c = cl_ids c' /\
      agree (disturbed (storage_of v) (mv_set (cl_vec c)) (strangers ops)) (issued (owns ops) outs') op o o'.
  Proof.
    intros p ls v C OK ops op TY c outs o E. rewrite any_run_app in E.
    destruct (exec_any W (start v) ops) as [[c1 os1]|] eqn:E1; cbn [obind] in E; [|easy].
    unfold exec_any in E. cbn [any_run any_step] in E.
    set (F := strangers ops).
    destruct (any_runs LAW W WOK F ops (start v) (start v) (empty_astate ls)) with (c1 := c1) (os := os1)
      as (c1' & os' & a' & E' & S & R & CT & K & WT).
    { eapply start_twin; eauto. }
    { eapply constructed_rel; eauto. }
    { intros g H. apply TY. apply in_app_iff. now left. }
    { now intros x H. }
    { exact E1. }
    destruct (own_step LAW W WOK F c1 c1' a' op CT R) as (c2' & o' & a2 & E2 & S2 & R2 & K2 & WT2 & X).
    { intros g ->. apply WT. cbn [a_set empty_astate]. apply TY. apply in_app_iff. right. now left. }
    destruct (vec_step _ _ _ _ _ _ _ _ c1 op) as [[c2 o2]|] eqn:E3; cbn [obind] in E; [|easy].
    injection E as <- EO. apply app_inj_tail in EO as [<- <-].
    destruct X as [CT2 AG].
    exists c2', os', o'. split.
    { rewrite exec_app, E'. cbn [obind fst snd]. unfold exec. cbn [vec_run]. rewrite E2. cbn [obind fst snd].
      reflexivity. }
    split; [eapply run_length; eauto|]. destruct CT2 as [[EV _] EI].
    split; [easy|]. split; [easy|].
    pose proof (run_groups _ _ _ _ _ _ _ _ S) as GR. cbn [a_groups empty_astate app] in GR.
    rewrite GR, K in AG. rewrite EV. exact AG.
  Qed.

  Theorem others_panics : forall p ls v, constructed W p ls v -> ok ls ->
    forall ops, typed_ops wt ls (owns ops) -> exec_any W (start v) ops = Panic ->
    exists pre op post c os, ops = pre ++ op :: post /\ exec_any W (start v) pre = Done (c, os) /\
      cannot (storage_of v) (mv_set (cl_vec c)) (strangers pre) op.
  Proof.
    intros p ls v C OK ops TY E. destruct (first_panic W ops _ E) as (pre & op & post & c & os & -> & E1 & P).
    exists pre, op, post, c, os. split; [easy|]. split; [easy|].
    unfold exec_any in P. cbn [any_run] in P.
    destruct (any_step _ _ _ _ _ _ _ _ c op) as [[c2 o]|] eqn:ES; cbn [obind] in P; [easy|]. clear P.
    rewrite owns_app in TY.
    assert (TY1 : typed_ops wt ls (owns pre)) by (intros g H; apply TY; apply in_app_iff; now left).
    assert (RUN : forall F, incl (strangers pre) F -> exists c' a', ctwin W F c c' /\
        rel (w_bd W) (w_hash W) ok valid c' a' /\ storage_of (cl_vec c') = storage_of v /\
        (forall g, wt ls g -> wt (a_set a') g)).
    { intros F IN. destruct (any_runs LAW W WOK F pre (start v) (start v) (empty_astate ls)) with (c1 := c) (os := os)
        as (c' & os' & a' & E' & S & R & CT & K & WT); auto.
      - eapply start_twin; eauto.
      - eapply constructed_rel; eauto.
      - exists c', a'. auto. }
    destruct op as [op|id f|id f|id].
    - destruct (RUN (strangers pre)) as (c' & a' & CT & R & K & WT); [now intros x H|].
      destruct (own_step LAW W WOK _ c c' a' op CT R) as (c2' & o' & a2 & E2 & S2 & R2 & K2 & WT2 & X).
      { intros g ->. apply WT, TY. apply in_app_iff. right. now left. }
      cbn [any_step] in ES. rewrite ES in X. destruct X as (X1 & -> & X2). rewrite K in X1. rewrite X1.
      cbn [cannot]. destruct CT as [[EV _] _]. now rewrite EV.
    - destruct (RUN (strangers pre ++ [id])) as (c' & a' & CT & R & K & WT); [now apply incl_appl|].
      pose proof (other_step LAW W WOK _ c c' a' (AnyAccess id f) CT R) as X. rewrite ES, K in X.
      destruct (storage_of v); apply X; auto; cbn; now apply incl_appr.
    - destruct (RUN (strangers pre ++ [id])) as (c' & a' & CT & R & K & WT); [now apply incl_appl|].
      pose proof (other_step LAW W WOK _ c c' a' (AnyAccessMut id f) CT R) as X. rewrite ES, K in X.
      destruct (storage_of v); apply X; auto; cbn; now apply incl_appr.
    - destruct (RUN (strangers pre ++ [id])) as (c' & a' & CT & R & K & WT); [now apply incl_appl|].
      pose proof (other_step LAW W WOK _ c c' a' (AnyRemove id) CT R) as X. rewrite ES, K in X.
      destruct (storage_of v); apply X; auto; cbn; now apply incl_appr.
  Qed.

  Theorem dense_beyond : forall p ls v, constructed W p ls v -> ok ls -> storage_of v = KDense ->
    forall ops c os, typed_ops wt ls (owns ops) -> exec_any W (start v) ops = Done (c, os) ->
    forall op, cannot KDense (mv_set (cl_vec c)) (strangers ops) op ->
    exec_any W (start v) (ops ++ [op]) = Panic.
  Proof.
    intros p ls v C OK KD ops c os TY E op CN. rewrite any_run_app, E. cbn [obind].
    destruct (any_runs LAW W WOK (strangers ops) ops (start v) (start v) (empty_astate ls)) with (c1 := c) (os := os)
      as (c' & os' & a' & E' & S & R & CT & K & WT); auto.
    { eapply start_twin; eauto. }
    { eapply constructed_rel; eauto. }
    { now intros x H. }
    destruct CT as [VT EI]. pose proof (vtwin_kind _ _ _ _ VT) as KV. rewrite K in KV.
    cbn [start cl_vec] in KV. rewrite KD in KV.
    pose proof (rel_inner _ _ _ _ _ _ R) as INV. destruct VT as [EV T].
    unfold storage_of in KV. destruct (cl_vec c) as [m s] eqn:EC. cbn [mv_metrics mv_set] in *.
    destruct m as [cs|]; [|easy]. destruct (mv_metrics (cl_vec c')) as [cs'|] eqn:EM'; [|easy].
    destruct T as [EL _]. cbn [inner_inv] in INV. rewrite <- EV in INV.
    assert (X : forall (id : label_id L) x, lg_cardinality L s = Some x -> x <= li_hash id -> nnth cs (li_hash id) = None).
    { intros id x E1 E2. apply nnth_None. rewrite INV in E1. injection E1 as <-. lia. }
    unfold exec_any. cbn [any_run]. destruct op as [op|id f|id f|id]; cbn [cannot] in CN; try easy.
    - destruct CN as (x & E1 & E2). cbn [any_step cl_vec]. unfold vec_get_metric. rewrite ?EC. cbn [mv_metrics].
      now rewrite (X id x E1 E2).
    - destruct CN as (x & E1 & E2). cbn [any_step cl_vec]. unfold vec_get_metric_mut. rewrite ?EC. cbn [mv_metrics].
      now rewrite (X id x E1 E2).
  Qed.
End Final.

Lemma dense_positions_apart : forall {L ok wt valid}, lawful L ok wt valid -> forall s n i j g, ok s -> lg_cardinality L s = Some n -> i < n -> j < n ->
  lg_decode_dense L s i = Done g -> lg_decode_dense L s j = Done g -> i = j.
Proof.
  intros L ok wt valid LAW s n i j g OK CD I J DI DJ.
  destruct (law_dense_onto _ _ _ _ LAW s i n OK CD I) as (u & VU & EU). destruct (law_dense_onto _ _ _ _ LAW s j n OK CD J) as (w & VW & EW).
  destruct (law_dense _ _ _ _ LAW s u n OK VU CD) as (i' & EU' & _ & DU). destruct (law_dense _ _ _ _ LAW s w n OK VW CD) as (j' & EW' & _ & DW).
  rewrite EU in EU'. injection EU' as <-. rewrite EW in EW'. injection EW' as <-.
  destruct (law_valid _ _ _ _ LAW s u OK VU) as (gu & _ & DGU & ENU). destruct (law_valid _ _ _ _ LAW s w OK VW) as (gw & _ & DGW & ENW).
  rewrite DI, DGU in DU. injection DU as <-. rewrite DJ, DGW in DW. injection DW as <-. rewrite ENU in ENW. injection ENW as <-. congruence.
Qed.

Theorem like_own : forall {L M ok wt valid}, lawful L ok wt valid -> forall (W : world L M) c h id id', ok (mv_set (cl_vec c)) ->
  nth_error (cl_ids c) h = Some id' -> says_the_same (storage_of (cl_vec c)) (mv_set (cl_vec c)) id id' ->
  forall f rest, exec_any W c (AnyAccess id f :: rest) = exec_any W c (Own (OpAccess h f) :: rest) /\
    exec_any W c (AnyAccessMut id f :: rest) = exec_any W c (Own (OpAccessMut h f) :: rest) /\
    exec_any W c (AnyRemove id :: rest) = exec_any W c (Own (OpRemove h) :: rest).
Proof.
  intros L M ok wt valid LAW W c h id id' OK H SAME f rest. unfold exec_any. cbn [any_run any_step vec_step]. rewrite H.
  unfold storage_of in SAME. destruct (mv_metrics (cl_vec c)) as [cells|s] eqn:E; cbn [says_the_same] in SAME.
  - destruct SAME as (n & g & CD & I & J & D & D'). pose proof (dense_positions_apart LAW _ n _ _ g OK CD I J D D') as EQ.
    unfold vec_get_metric, vec_get_metric_mut, vec_remove_metric. rewrite E, EQ. repeat split.
  - destruct SAME as [A B]. destruct id, id'. cbn in A, B. subst. repeat split.
Qed.
