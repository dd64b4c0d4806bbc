(** Sparse vecs under concurrency: the invariant. *)
From Coq Require Import List NArith ZArith Bool Arith Lia.
From Verif Require Import Base ConcModel ConcSpec ConcProofs ConcHist ConcLock ConcVecModel ConcVecSpec.
Import ListNotations.
Local Open Scope nat_scope.

Lemma find_map : forall A B (f : A -> B) p q l, (forall x, q (f x) = p x) ->
  find q (map f l) = option_map f (find p l).
Proof. intros A B f p q l H. induction l as [|x l IH]; cbn; [reflexivity|]. rewrite H. now destruct (p x). Qed.

Lemma NoDup_map_inj : forall A B (f : A -> B) l x y, NoDup (map f l) -> In x l -> In y l -> f x = f y -> x = y.
Proof.
  intros A B f l x y. induction l as [|z l IH]; cbn; intros N X Y E; [destruct X|].
  inversion N as [|a b NI N' EQ]; subst. destruct X as [->|X], Y as [->|Y]; auto.
  - exfalso. apply NI. rewrite E. now apply in_map.
  - exfalso. apply NI. rewrite <- E. now apply in_map.
Qed.

Lemma NoDup_map_filter : forall A B (f : A -> B) p l, NoDup (map f l) -> NoDup (map f (filter p l)).
Proof.
  intros A B f p l. induction l as [|x l IH]; cbn; intros N; [constructor|]. inversion N as [|a b NI N' EQ]; subst.
  destruct (p x); cbn; auto. constructor; auto. intros I. apply NI. apply in_map_iff in I as (y & E & Y).
  apply filter_In in Y. rewrite <- E. apply in_map. tauto.
Qed.

Lemma NoDup_map_snoc : forall A B (f : A -> B) l x, NoDup (map f l) -> ~ In (f x) (map f l) -> NoDup (map f (l ++ [x])).
Proof.
  intros A B f l x N I. rewrite map_app. cbn. induction (map f l) as [|y m IH]; cbn in *.
  - repeat constructor; auto.
  - inversion N as [|a b NI N' EQ]; subst. constructor.
    + rewrite in_app_iff. cbn. intros [X|[X|X]]; auto.
    + apply IH; auto.
Qed.

Section Vec.
  Context {K Sh Op Res Mic V St : Type}.
  Variable keqb : K -> K -> bool.
  Hypothesis keqb_eq : forall x y, keqb x y = true <-> x = y.
  Variable shard_of : K -> nat.
  Variable O : machine Sh Op Res Mic.
  Variable sh_new : Sh.
  Variable view : Sh -> V.
  Variable spec : nat -> Op -> St -> option (St * Res).
  Variable st_new : St.
  Variable aview : St -> V.
  Variable linO : nat -> nat -> Op -> Mic -> Sh -> bool.
  Variable invO : Sh -> @pending Op Res Mic -> St -> Prop.
  Variable rep : Sh -> St -> Prop.
  Hypothesis O_ok : object_ok O spec linO invO sh_new st_new rep.
  Hypothesis rep_view : forall sh st, rep sh st -> view sh = aview st.

  Notation svec := (svec K Sh).
  Notation row := (row K Sh).
  Notation guard := (guard K).
  Notation vop := (vec_op K Op).
  Notation vres := (vec_res K Res V).
  Notation vmic := (vec_mic K Op Res Mic V).
  Notation avec := (avec K St).
  Notation item := (option (vop * vmic * option vres)).
  Notation vpend := (@pending vop vres vmic).
  Notation M := (sparse_machine keqb shard_of O sh_new view).
  Notation vspec := (vec_spec keqb shard_of spec st_new aview).

  Lemma keqb_refl : forall x, keqb x x = true.
  Proof. intros x. now apply keqb_eq. Qed.
  Lemma keqb_neq : forall x y, keqb x y = false <-> x <> y.
  Proof.
    intros x y. destruct (keqb x y) eqn:E; split; intros H; try congruence.
    - apply keqb_eq in E. contradiction.
    - intros ->. now rewrite keqb_refl in E.
  Qed.

  (** Where a thread is with respect to the locks. *)
  Definition mic_lock (m : vmic) : option (nat * phase) :=
    match m with
    | MLook _ k | MUnread _ k => Some (shard_of k, PLook)
    | MWrite _ k | MRWrite k => Some (shard_of k, PWait)
    | MIns _ k | MRDo k => Some (shard_of k, PWrite)
    | MRUnwrite s _ => Some (s, PWrite)
    | MDown _ k => Some (shard_of k, PDown)
    | MKeys _ s => Some (s, PLook)
    | _ => None
    end.
  Definition phase_of (s : nat) (p : item) : phase :=
    match p with
    | Some (_, m, _) => match mic_lock m with Some (s', ph) => if Nat.eqb s' s then ph else PNone | None => PNone end
    | None => PNone
    end.

  Definition on_shard (s i : nat) (g : guard) : bool := Nat.eqb (g_tid g) i && Nat.eqb (g_shard g) s.
  Definition nguards (gs : list guard) (s i : nat) : nat := length (filter (on_shard s i) gs).

  Definition inner (g : option vres) : option Res := match g with Some (RVal r) => Some r | _ => None end.
  (** The calls in progress on entry [n] of shard [s]. *)
  Definition pend_in (P : vpend) (s n : nat) : @pending Op Res Mic := fun i =>
    match P i with
    | Some (SUse _ _ u, MIn s' n' m, g) => if Nat.eqb s' s && Nat.eqb n' n then Some (u, m, inner g) else None
    | _ => None
    end.
  Definition outside (p : item) : Prop := match p with Some (_, MIn _ _ _, _) => False | _ => True end.

  Definition gfind (i h : nat) (gs : list guard) : option guard := find (is_guard i h) gs.

  Definition vec_at (gs : list guard) (i : nat) (p : item) : Prop :=
    match p with
    | None => True
    | Some (op, mic, g) =>
      match mic with
      | MGet h k => op = SGet h k /\ g = None
      | MLook h k | MUnread h k | MReq h k | MWrite h k | MIns h k => op = SGet h k /\ g = None /\ gfind i h gs = None
      | MDown h k | MFind h k => op = SGet h k /\ g = Some RUnit /\
          exists n, gfind i h gs = Some {| g_tid := i; g_h := h; g_shard := shard_of k; g_refs := [(k, n)] |}
      | MUse h k u => op = SUse h k u /\ g = None
      | MIn s n m => exists h k u gd, op = SUse h k u /\ (g = None \/ exists r, g = Some (RVal r)) /\
          gfind i h gs = Some gd /\ g_shard gd = s /\ ref_of keqb k gd = Some n
      | MDrop h => op = SDrop h /\ g = None
      | MRReq k | MRWrite k | MRDo k => op = SRemove k /\ g = None
      | MRUnwrite s r => exists k, op = SRemove k /\ s = shard_of k /\ g = Some r
      | MOpen h s => op = SOpen h s /\ g = None
      | MKeys h s => op = SOpen h s /\ g = None /\ gfind i h gs = None
      end
    end.

  Definition entry_ok (P : vpend) (s : nat) (e : row) (p : K * St) : Prop :=
    e_key e = fst p /\ invO (e_sh e) (pend_in P s (e_id e)) (snd p).

  Definition strip (g : guard) : @aguard K := (g_tid g, g_h g, g_shard g, map fst (g_refs g)).

  Record vec_inv (c : svec) (P : vpend) (a : avec) : Prop := {
    vi_locks : forall s, lock_inv (lock_of s c) (nguards (v_guards c) s) (fun i => phase_of s (P i));
    vi_tabs : forall s, Forall2 (entry_ok P s)
                          (tab_of s c) (a_tab a s);
    vi_keys : forall s, NoDup (map e_key (tab_of s c));
    vi_home : forall s e, In e (tab_of s c) -> shard_of (e_key e) = s;
    vi_ids : forall s, NoDup (map e_id (tab_of s c));
    vi_next : forall s e, In e (tab_of s c) -> e_id e < v_next c;
    vi_gs : a_guards a = map strip (v_guards c);
    vi_handles : NoDup (map (fun g => (g_tid g, g_h g)) (v_guards c));
    vi_refs : forall g k n, In g (v_guards c) -> In (k, n) (g_refs g) ->
      exists e, In e (tab_of (g_shard g) c) /\ e_key e = k /\ e_id e = n;
    vi_at : forall i, vec_at (v_guards c) i (P i)
  }.

  (** *** Guards *)

  Lemma is_guard_true : forall i h (g : guard), is_guard i h g = true <-> g_tid g = i /\ g_h g = h.
  Proof. intros i h g. unfold is_guard. now rewrite andb_true_iff, !Nat.eqb_eq. Qed.

  Lemma gfind_in : forall i h gs (g : guard), gfind i h gs = Some g -> In g gs /\ g_tid g = i /\ g_h g = h.
  Proof. intros i h gs g H. apply find_some in H as [I E]. apply is_guard_true in E. tauto. Qed.

  Lemma ag_find_strip : forall i h c P a, vec_inv c P a -> ag_find i h a = option_map strip (gfind i h (v_guards c)).
  Proof. intros i h c P a I. unfold ag_find. rewrite (vi_gs _ _ _ I). apply find_map. intros g. reflexivity. Qed.

  Lemma gfind_cons_other : forall i h j h' gs s refs, j <> i ->
    gfind j h' ({| g_tid := i; g_h := h; g_shard := s; g_refs := refs |} :: gs) = gfind j h' gs.
  Proof. intros. unfold gfind. cbn. unfold is_guard at 1. cbn. destruct (Nat.eqb_spec i j); [congruence|]. reflexivity. Qed.

  Lemma gfind_drop_other : forall i h j h' gs, j <> i -> gfind j h' (drop_guard i h gs) = gfind j h' gs.
  Proof.
    intros i h j h' gs N. unfold gfind, drop_guard. induction gs as [|g gs IH]; cbn; [reflexivity|].
    destruct (is_guard i h g) eqn:E; cbn.
    - apply is_guard_true in E as [E1 E2]. rewrite IH. unfold is_guard. destruct (Nat.eqb_spec (g_tid g) j); [congruence|]. reflexivity.
    - destruct (is_guard j h' g); auto.
  Qed.

  Lemma vec_at_ext : forall gs gs' i p, (forall h, gfind i h gs' = gfind i h gs) -> vec_at gs i p -> vec_at gs' i p.
  Proof.
    intros gs gs' i [[[op mic] g]|] E A; [|exact I]. destruct mic; cbn in *; rewrite ?E; auto.
    destruct A as (h & k & u & gd & A). exists h, k, u, gd. now rewrite E.
  Qed.

  Lemma nguards_cons : forall i h s refs gs s' j,
    nguards ({| g_tid := i; g_h := h; g_shard := s; g_refs := refs |} :: gs) s' j =
    if Nat.eqb s s' then upd (nguards gs s') i (S (nguards gs s' i)) j else nguards gs s' j.
  Proof.
    intros. unfold nguards at 1. cbn [filter]. unfold on_shard at 1. cbn [g_tid g_shard].
    destruct (Nat.eqb_spec s s') as [->|NS].
    - destruct (Nat.eq_dec j i) as [->|NJ].
      + rewrite upd_same, Nat.eqb_refl. reflexivity.
      + rewrite upd_other by exact NJ. destruct (Nat.eqb_spec i j); [congruence|]. reflexivity.
    - now rewrite andb_false_r.
  Qed.

  Lemma nguards_pos : forall gs g, In g gs -> 0 < nguards gs (g_shard g) (g_tid g).
  Proof.
    intros gs g I. unfold nguards. assert (X : In g (filter (on_shard (g_shard g) (g_tid g)) gs)).
    { apply filter_In. split; [exact I|]. unfold on_shard. now rewrite !Nat.eqb_refl. }
    destruct (filter _ gs); [destruct X|cbn; lia].
  Qed.

  Lemma nguards_drop : forall i h gs g s' j, NoDup (map (fun g => (g_tid g, g_h g)) gs) -> gfind i h gs = Some g ->
    nguards (drop_guard i h gs) s' j =
    if Nat.eqb (g_shard g) s' then upd (nguards gs s') i (nguards gs s' i - 1) j else nguards gs s' j.
  Proof.
    intros i h gs g s' j. induction gs as [|x gs IH]; cbn [gfind find]; intros N F; [discriminate|].
    inversion N as [|a b NI N' EQ]; subst. unfold drop_guard. cbn [filter]. destruct (is_guard i h x) eqn:E; cbn [negb].
    - inversion F; subst x. apply is_guard_true in E as [E1 E2].
      assert (D : filter (fun g0 => negb (is_guard i h g0)) gs = gs).
      { clear - NI E1 E2. induction gs as [|y gs IH]; cbn; [reflexivity|]. destruct (is_guard i h y) eqn:E.
        - exfalso. apply NI. apply is_guard_true in E as [<- <-]. left. congruence.
        - cbn. rewrite IH; [reflexivity|]. intros X. apply NI. right. exact X. }
      rewrite D. assert (X : forall t, nguards (g :: gs) s' t = (if on_shard s' t g then 1 else 0) + nguards gs s' t).
      { intros t. unfold nguards. cbn. now destruct (on_shard s' t g). }
      unfold on_shard in X. rewrite E1 in X. destruct (Nat.eqb_spec (g_shard g) s') as [ES|NS].
      + destruct (Nat.eq_dec j i) as [->|NJ].
        * rewrite upd_same, X, Nat.eqb_refl. cbn. lia.
        * rewrite upd_other by exact NJ. rewrite X. destruct (Nat.eqb_spec i j); [congruence|]. reflexivity.
      + rewrite X. now rewrite andb_false_r.
    - specialize (IH N' F). unfold drop_guard in IH.
      unfold nguards in *. cbn [filter].
      destruct (Nat.eqb_spec (g_shard g) s') as [<-|NS].
      + destruct (Nat.eq_dec j i) as [->|NJ].
        * rewrite upd_same in *.
          assert (0 < length (filter (on_shard (g_shard g) i) gs)).
          { pose proof (gfind_in _ _ _ _ F) as (I & T & _). pose proof (nguards_pos gs g I). unfold nguards in H. now rewrite T in H. }
          destruct (on_shard (g_shard g) i x); cbn; lia.
        * rewrite upd_other in * by exact NJ. destruct (on_shard (g_shard g) j x); cbn; rewrite IH; reflexivity.
      + destruct (on_shard s' j x); cbn; rewrite IH; reflexivity.
  Qed.

  Lemma not_guarded : forall c P a s, vec_inv c P a -> (forall j, nguards (v_guards c) s j = 0) -> guarded s a = false.
  Proof.
    intros c P a s I N. unfold guarded. rewrite (vi_gs _ _ _ I). destruct (existsb _ _) eqn:E; [|reflexivity].
    apply existsb_exists in E as (g & G & S). apply in_map_iff in G as (g' & <- & G). cbn in S. apply Nat.eqb_eq in S.
    pose proof (nguards_pos _ _ G) as X. rewrite S, N in X. lia.
  Qed.

  (** *** Pending calls inside entries *)

  Lemma pend_in_out : forall P i x s n j, outside (P i) -> outside x -> pend_in (upd P i x) s n j = pend_in P s n j.
  Proof.
    intros P i x s n j A B. unfold pend_in. destruct (Nat.eq_dec j i) as [->|N]; [|now rewrite upd_other].
    rewrite upd_same.
    assert (Z : forall p : item, outside p -> match p with
      | Some (SUse _ _ u, MIn s' n' m, g) => if Nat.eqb s' s && Nat.eqb n' n then Some (u, m, inner g) else None
      | _ => None
      end = None).
    { intros [[[op m] g]|] Y; [|reflexivity]. destruct op; try reflexivity. destruct m; try reflexivity. destruct Y. }
    now rewrite !Z.
  Qed.

  Lemma tabs_ext : forall (c : svec) P Q (a : avec) s,
    Forall2 (entry_ok P s) (tab_of s c) (a_tab a s) ->
    (forall n j, pend_in Q s n j = pend_in P s n j) ->
    Forall2 (entry_ok Q s) (tab_of s c) (a_tab a s).
  Proof.
    intros c P Q a s F E. induction F as [|e p t u [A B] F IH]; constructor; auto. split; [exact A|].
    eapply (ok_ext _ _ _ _ _ _ _ O_ok); [|exact B]. intros j. symmetry. apply E.
  Qed.

  (** *** Lookups *)

  Lemma lookup_key : forall P s k (t : list row) (u : list (K * St)),
    Forall2 (entry_ok P s) t u ->
    match find_key keqb k t with
    | Some e => In e t /\ e_key e = k /\ exists x, aget keqb k u = Some x /\ invO (e_sh e) (pend_in P s (e_id e)) x
    | None => aget keqb k u = None /\ ~ In k (map e_key t)
    end.
  Proof.
    intros P s k t u F. unfold find_key, aget. induction F as [|e [k' x] t u [A B] F IH]; cbn; [tauto|]. cbn in A. subst k'.
    destruct (keqb (e_key e) k) eqn:E.
    - apply keqb_eq in E. split; [auto|]. split; [exact E|]. eauto.
    - apply keqb_neq in E. destruct (find _ t) as [e'|].
      + destruct IH as (I1 & I2 & I3). split; [auto|]. split; assumption.
      + destruct IH as [I1 I2]. split; [exact I1|]. intros [X|X]; contradiction.
  Qed.

  Lemma keys_agree : forall P s (t : list row) (u : list (K * St)),
    Forall2 (entry_ok P s) t u -> map e_key t = map fst u.
  Proof. intros P s t u F. induction F as [|e p t u [A B] F IH]; cbn; [reflexivity|]. now rewrite A, IH. Qed.

  Lemma find_id_in : forall n (t : list row) e, NoDup (map e_id t) -> In e t -> e_id e = n -> find_id n t = Some e.
  Proof.
    intros n t e. unfold find_id. induction t as [|x t IH]; cbn; intros N I E; [destruct I|].
    inversion N as [|a b NI N' EQ]; subst. destruct I as [->|I]; [now rewrite Nat.eqb_refl|].
    destruct (Nat.eqb_spec (e_id x) (e_id e)) as [X|X]; [|auto]. exfalso. apply NI. rewrite X. now apply in_map.
  Qed.

  Lemma ref_in : forall k (g : guard) n, ref_of keqb k g = Some n -> In (k, n) (g_refs g).
  Proof.
    intros k g n H. unfold ref_of in H. destruct (find _ (g_refs g)) as [[k' n']|] eqn:F; [|discriminate].
    inversion H; subst. apply find_some in F as [I E]. cbn in E. apply keqb_eq in E. now subst.
  Qed.

  Lemma ref_keys : forall k (g : guard), existsb (fun k' => keqb k' k) (map fst (g_refs g)) =
    match ref_of keqb k g with Some _ => true | None => false end.
  Proof.
    intros k g. unfold ref_of. induction (g_refs g) as [|[k' n] l IH]; cbn; [reflexivity|].
    destruct (keqb k' k); cbn; auto.
  Qed.

  (** *** Steps *)

  Lemma phases_elsewhere : forall l gs P i x s, lock_inv l (nguards gs s) (fun j => phase_of s (P j)) ->
    phase_of s x = phase_of s (P i) -> lock_inv l (nguards gs s) (fun j => phase_of s (upd P i x j)).
  Proof.
    intros l gs P i x s L E. eapply li_ext; [exact L|reflexivity|]. intros j. cbn.
    destruct (Nat.eq_dec j i) as [->|N]; [now rewrite upd_same|now rewrite upd_other].
  Qed.

  Lemma phases_here : forall l ng P i x s, lock_inv l ng (upd (fun j => phase_of s (P j)) i (phase_of s x)) ->
    lock_inv l ng (fun j => phase_of s (upd P i x j)).
  Proof.
    intros l ng P i x s L. eapply li_ext; [exact L|reflexivity|]. intros j. cbn.
    destruct (Nat.eq_dec j i) as [->|N]; [now rewrite !upd_same|now rewrite !upd_other].
  Qed.

  Lemma at_upd : forall gs P i x, (forall j, vec_at gs j (P j)) -> vec_at gs i x -> forall j, vec_at gs j (upd P i x j).
  Proof. intros gs P i x A X j. destruct (Nat.eq_dec j i) as [->|N]; [now rewrite upd_same|now rewrite upd_other]. Qed.

  (** Nothing shared changes, no lock is involved. *)
  Lemma step_quiet : forall c P a i x, vec_inv c P a -> outside (P i) -> outside x ->
    (forall s, phase_of s x = phase_of s (P i)) -> vec_at (v_guards c) i x -> vec_inv c (upd P i x) a.
  Proof.
    intros c P a i x [L T K1 H I1 N G D R A] O1 O2 PH AT. split; auto.
    - intros s. now apply phases_elsewhere.
    - intros s. eapply tabs_ext; [apply T|]. intros n j. now apply pend_in_out.
    - now apply at_upd.
  Qed.

  (** One lock changes. *)
  Lemma step_lock : forall c P a i x s l, vec_inv c P a -> outside (P i) -> outside x ->
    lock_inv l (nguards (v_guards c) s) (upd (fun j => phase_of s (P j)) i (phase_of s x)) ->
    (forall s', s' <> s -> phase_of s' x = phase_of s' (P i)) -> vec_at (v_guards c) i x ->
    vec_inv (set_shard_lock s l c) (upd P i x) a.
  Proof.
    intros c P a i x s l [L T K1 H I1 N G D R A] O1 O2 LI PH AT.
    assert (TB : forall s', tab_of s' (set_shard_lock s l c) = tab_of s' c).
    { intros s'. unfold tab_of, set_shard_lock. cbn. unfold upd. now destruct (Nat.eqb_spec s' s); subst. }
    split.
    - intros s'. unfold lock_of, set_shard_lock. cbn [v_shards v_guards]. destruct (Nat.eq_dec s' s) as [->|NE].
      + rewrite upd_same. cbn [s_lock]. now apply phases_here.
      + rewrite upd_other by exact NE. apply phases_elsewhere; [exact (L s')|auto].
    - intros s'. rewrite TB. eapply tabs_ext; [apply T|]. intros n j. now apply pend_in_out.
    - intros s'. rewrite TB. apply K1.
    - intros s' e. rewrite TB. apply H.
    - intros s'. rewrite TB. apply I1.
    - intros s' e. rewrite TB. apply N.
    - exact G.
    - exact D.
    - intros g k n Gi Ri. rewrite TB. now apply R.
    - now apply at_upd.
  Qed.

  (** A guard is added. *)
  Lemma step_guard : forall c P a i x h s refs, vec_inv c P a -> outside (P i) -> outside x ->
    gfind i h (v_guards c) = None ->
    lock_inv (lock_of s c) (upd (nguards (v_guards c) s) i (S (nguards (v_guards c) s i)))
      (upd (fun j => phase_of s (P j)) i (phase_of s x)) ->
    (forall s', s' <> s -> phase_of s' x = phase_of s' (P i)) ->
    (forall k n, In (k, n) refs -> exists e, In e (tab_of s c) /\ e_key e = k /\ e_id e = n) ->
    vec_at (v_guards (add_guard i h s refs c)) i x ->
    vec_inv (add_guard i h s refs c) (upd P i x) (with_guard (i, h, s, map fst refs) a).
  Proof.
    intros c P a i x h s refs [L T K1 H I1 N G D R A] O1 O2 NG LI PH RF AT.
    split; auto.
    - intros s'. change (lock_of s' (add_guard i h s refs c)) with (lock_of s' c). cbn [add_guard set_guards v_guards].
      destruct (Nat.eq_dec s' s) as [->|NE].
      + apply phases_here. eapply li_ext; [exact LI| |reflexivity]. intros j. rewrite nguards_cons, Nat.eqb_refl. reflexivity.
      + apply phases_elsewhere with (i := i) (x := x); [|now auto]. eapply li_ext; [exact (L s')| |reflexivity].
        intros j. rewrite nguards_cons. destruct (Nat.eqb_spec s s'); [congruence|reflexivity].
    - intros s'. cbn [with_guard a_tab]. apply (tabs_ext c P (upd P i x) a s' (T s')). intros n j. now apply pend_in_out.
    - cbn [with_guard a_guards add_guard set_guards v_guards map strip g_tid g_h g_shard g_refs]. now rewrite G.
    - cbn [add_guard set_guards v_guards map g_tid g_h]. constructor; [|exact D].
      intros X. apply in_map_iff in X as (g & E & Gi). inversion E; subst.
      pose proof (find_none _ _ NG g Gi) as F. unfold is_guard in F. rewrite !Nat.eqb_refl in F. discriminate.
    - cbn [add_guard set_guards v_guards]. intros g k n [<-|Gi] Ri; [now apply RF|now apply R].
    - cbn [add_guard set_guards v_guards] in *. intros j. destruct (Nat.eq_dec j i) as [->|NE]; [now rewrite upd_same|].
      rewrite upd_other by exact NE. eapply vec_at_ext; [|apply A]. intros h'. now apply gfind_cons_other.
  Qed.

  (** A guard is dropped. *)
  Lemma step_drop : forall c P a i h g, vec_inv c P a -> outside (P i) -> (forall s, phase_of s (P i) = PNone) ->
    gfind i h (v_guards c) = Some g ->
    vec_inv (set_shard_lock (g_shard g) (rw_unread i (lock_of (g_shard g) c)) (set_guards (drop_guard i h (v_guards c)) c))
      (upd P i None) {| a_tab := a_tab a; a_guards := filter (fun g => negb (ag_is i h g)) (a_guards a) |}.
  Proof.
    intros c P a i h g [L T K1 H I1 N G D R A] O1 PH F. pose proof (gfind_in _ _ _ _ F) as (GI & GT & GH).
    set (c' := set_shard_lock (g_shard g) (rw_unread i (lock_of (g_shard g) c)) (set_guards (drop_guard i h (v_guards c)) c)).
    assert (TB : forall s', tab_of s' c' = tab_of s' c).
    { intros s'. unfold tab_of, c', set_shard_lock. cbn. unfold upd. now destruct (Nat.eqb_spec s' (g_shard g)); subst. }
    assert (PHN : forall s j, phase_of s (upd P i None j) = phase_of s (P j)).
    { intros s j. destruct (Nat.eq_dec j i) as [->|NE]; [rewrite upd_same; cbn; now rewrite PH|now rewrite upd_other]. }
    split.
    - intros s'. unfold lock_of at 1, c', set_shard_lock. cbn [v_shards v_guards set_guards].
      destruct (Nat.eq_dec s' (g_shard g)) as [->|NE].
      + rewrite upd_same. cbn [s_lock]. pose proof (nguards_pos _ _ GI) as POS. rewrite GT in POS.
        eapply li_ext; [eapply (li_do_drop _ _ _ i (nguards (v_guards c) (g_shard g) i - 1) (L (g_shard g)))| |].
        * apply PH.
        * lia.
        * intros j. rewrite (nguards_drop i h _ g) by assumption. now rewrite Nat.eqb_refl.
        * intros j. apply PHN.
      + rewrite upd_other by exact NE. eapply li_ext; [exact (L s')| |intros j; apply PHN].
        intros j. rewrite (nguards_drop i h _ g) by assumption. destruct (Nat.eqb_spec (g_shard g) s'); [congruence|reflexivity].
    - intros s'. rewrite TB. cbn [a_tab]. apply (tabs_ext c P (upd P i None) a s' (T s')). intros n j. now apply pend_in_out.
    - intros s'. rewrite TB. apply K1.
    - intros s' e. rewrite TB. apply H.
    - intros s'. rewrite TB. apply I1.
    - intros s' e. rewrite TB. apply N.
    - cbn [a_guards c' set_shard_lock set_guards v_guards]. rewrite G. unfold drop_guard.
      clear. induction (v_guards c) as [|x l IH]; cbn; [reflexivity|]. unfold is_guard at 1.
      destruct (Nat.eqb (g_tid x) i && Nat.eqb (g_h x) h); cbn; now rewrite IH.
    - cbn [c' set_shard_lock set_guards v_guards]. unfold drop_guard. now apply NoDup_map_filter.
    - cbn [c' set_shard_lock set_guards v_guards]. intros g' k n Gi Ri. rewrite TB. apply filter_In in Gi as [Gi _]. now apply R.
    - cbn [c' set_shard_lock set_guards v_guards]. intros j. destruct (Nat.eq_dec j i) as [->|NE]; [rewrite upd_same; exact I|].
      rewrite upd_other by exact NE. eapply vec_at_ext; [|apply A]. intros h'. now apply gfind_drop_other.
  Qed.

  Lemma pend_in_gone : forall c P a s n, vec_inv c P a -> ~ In n (map e_id (tab_of s c)) -> forall j, pend_in P s n j = None.
  Proof.
    intros c P a s n I N j. unfold pend_in. destruct (P j) as [[[op mic] g]|] eqn:PJ; [|reflexivity].
    destruct op as [| h k u| | |]; try reflexivity. destruct mic; try reflexivity.
    destruct (Nat.eqb_spec s0 s) as [->|]; [|reflexivity]. destruct (Nat.eqb_spec n0 n) as [->|]; [|reflexivity]. exfalso. apply N.
    pose proof (vi_at _ _ _ I j) as A. rewrite PJ in A. destruct A as (h' & k' & u' & gd & E & _ & F & S & R).
    apply gfind_in in F as (GI & _ & _). apply ref_in in R. destruct (vi_refs _ _ _ I gd k' n GI R) as (e & E1 & E2 & E3).
    rewrite S in E1. rewrite <- E3. now apply in_map.
  Qed.

  (** An entry is made. *)
  Lemma step_insert : forall c P a k, vec_inv c P a -> ~ In k (map e_key (tab_of (shard_of k) c)) ->
    vec_inv (next_id (set_shard_tab (shard_of k)
               (tab_of (shard_of k) c ++ [{| e_key := k; e_id := v_next c; e_sh := sh_new |}]) c)) P
      (with_tab (shard_of k) (a_tab a (shard_of k) ++ [(k, st_new)]) a).
  Proof.
    intros c P a k I NK. pose proof I as [L T K1 H I1 N G D R A].
    set (s := shard_of k) in *. set (e := {| e_key := k; e_id := v_next c; e_sh := sh_new |}).
    set (c' := next_id (set_shard_tab s (tab_of s c ++ [e]) c)).
    assert (TB : forall s', tab_of s' c' = if Nat.eqb s' s then tab_of s c ++ [e] else tab_of s' c).
    { intros s'. unfold tab_of at 1, c', next_id, set_shard_tab. cbn. unfold upd. now destruct (Nat.eqb_spec s' s); subst. }
    assert (LK : forall s', lock_of s' c' = lock_of s' c).
    { intros s'. unfold lock_of, c', next_id, set_shard_tab. cbn. unfold upd. now destruct (Nat.eqb_spec s' s); subst. }
    assert (FRESH : forall s', ~ In (v_next c) (map e_id (tab_of s' c))).
    { intros s' X. apply in_map_iff in X as (x & E & X). apply N in X. lia. }
    split; auto.
    - intros s'. rewrite LK. apply L.
    - intros s'. rewrite TB. cbn [with_tab a_tab]. unfold upd. destruct (Nat.eqb_spec s' s) as [->|NE]; [|apply T].
      apply Forall2_app; [apply T|]. constructor; [|constructor]. split; [reflexivity|]. cbn [e snd e_sh e_id].
      eapply (ok_ext _ _ _ _ _ _ _ O_ok); [|apply (ok_init _ _ _ _ _ _ _ O_ok)]. intros j. symmetry.
      eapply pend_in_gone; eauto.
    - intros s'. rewrite TB. destruct (Nat.eqb_spec s' s) as [->|NE]; [|apply K1]. apply NoDup_map_snoc; [apply K1|exact NK].
    - intros s' x. rewrite TB. destruct (Nat.eqb_spec s' s) as [->|NE]; [|apply H].
      rewrite in_app_iff. intros [X|[<-|[]]]; [now apply H|reflexivity].
    - intros s'. rewrite TB. destruct (Nat.eqb_spec s' s) as [->|NE]; [|apply I1]. apply NoDup_map_snoc; [apply I1|apply FRESH].
    - intros s' x. rewrite TB. cbn [c' next_id set_shard_tab v_next]. destruct (Nat.eqb_spec s' s) as [->|NE].
      + rewrite in_app_iff. intros [X|[<-|[]]]; [apply N in X; lia|cbn; lia].
      + intros X. apply N in X. lia.
    - intros g k' n Gi Ri. rewrite TB. destruct (R g k' n Gi Ri) as (x & X1 & X2 & X3). exists x.
      split; [|auto]. destruct (Nat.eqb_spec (g_shard g) s) as [E|NE]; [|exact X1]. rewrite in_app_iff. left. now rewrite <- E.
  Qed.

  (** An entry is removed. *)
  Lemma step_remove : forall c P a k, vec_inv c P a -> (forall j, nguards (v_guards c) (shard_of k) j = 0) ->
    vec_inv (set_shard_tab (shard_of k) (remove_key keqb k (tab_of (shard_of k) c)) c) P
      (with_tab (shard_of k) (adel keqb k (a_tab a (shard_of k))) a).
  Proof.
    intros c P a k I NG. pose proof I as [L T K1 H I1 N G D R A].
    set (s := shard_of k) in *. set (c' := set_shard_tab s (remove_key keqb k (tab_of s c)) c).
    assert (TB : forall s', tab_of s' c' = if Nat.eqb s' s then remove_key keqb k (tab_of s c) else tab_of s' c).
    { intros s'. unfold tab_of at 1, c', set_shard_tab. cbn. unfold upd. now destruct (Nat.eqb_spec s' s); subst. }
    assert (LK : forall s', lock_of s' c' = lock_of s' c).
    { intros s'. unfold lock_of, c', set_shard_tab. cbn. unfold upd. now destruct (Nat.eqb_spec s' s); subst. }
    split; auto.
    - intros s'. rewrite LK. apply L.
    - intros s'. rewrite TB. cbn [with_tab a_tab]. unfold upd. destruct (Nat.eqb_spec s' s) as [->|NE]; [|apply T].
      specialize (T s). unfold remove_key, adel. clearbody s c'. clear - T. revert T. generalize (tab_of s c) (a_tab a s). intros t0 u0 T.
      induction T as [|e [k' x] t u [E1 E2] T IH]; cbn; [constructor|].
      cbn in E1. rewrite E1. destruct (keqb k' k); cbn; [exact IH|]. constructor; [split; assumption|exact IH].
    - intros s'. rewrite TB. destruct (Nat.eqb_spec s' s) as [->|NE]; [|apply K1]. now apply NoDup_map_filter.
    - intros s' x. rewrite TB. destruct (Nat.eqb_spec s' s) as [->|NE]; [|apply H].
      intros X. apply filter_In in X as [X _]. now apply H.
    - intros s'. rewrite TB. destruct (Nat.eqb_spec s' s) as [->|NE]; [|apply I1]. now apply NoDup_map_filter.
    - intros s' x. rewrite TB. destruct (Nat.eqb_spec s' s) as [->|NE]; [|apply N].
      intros X. apply filter_In in X as [X _]. exact (N _ _ X).
    - intros g k' n Gi Ri. rewrite TB. destruct (R g k' n Gi Ri) as (x & X1 & X2 & X3). exists x.
      split; [|auto]. destruct (Nat.eqb_spec (g_shard g) s) as [E|NE]; [|exact X1]. exfalso.
      pose proof (nguards_pos _ _ Gi) as X. rewrite E, NG in X. lia.
  Qed.

  (** Nobody is inside the entries of a shard without guards. *)
  Lemma nobody_in : forall c P a s n, vec_inv c P a -> (forall j, nguards (v_guards c) s j = 0) -> forall j, pend_in P s n j = None.
  Proof.
    intros c P a s n I NG j. unfold pend_in. destruct (P j) as [[[op mic] g]|] eqn:PJ; [|reflexivity].
    destruct op as [| h k u| | |]; try reflexivity. destruct mic; try reflexivity.
    destruct (Nat.eqb_spec s0 s) as [->|]; [|reflexivity]. exfalso.
    pose proof (vi_at _ _ _ I j) as A. rewrite PJ in A. destruct A as (h' & k' & u' & gd & E & _ & F & S & R).
    apply gfind_in in F as (GI & _ & _). pose proof (nguards_pos _ _ GI) as X. rewrite S, NG in X. lia.
  Qed.

  Definition set_row (n : nat) (sh : Sh) (e : row) : row :=
    if Nat.eqb (e_id e) n then {| e_key := e_key e; e_id := e_id e; e_sh := sh |} else e.

  (** A step inside an entry. *)
  Lemma step_in : forall c P a i h k u s n e x0 sh' x' y, vec_inv c P a ->
    In e (tab_of s c) -> e_key e = k -> e_id e = n -> aget keqb k (a_tab a s) = Some x0 ->
    (forall s', phase_of s' (P i) = PNone) -> (forall s', phase_of s' y = PNone) ->
    (match y with None => True | Some (op, mic, g) => op = SUse h k u /\ exists m, mic = MIn s n m end) ->
    (match P i with None => True | Some (op, mic, g) => op = SUse h k u /\
       (mic = MUse h k u \/ exists m, mic = MIn s n m) end) ->
    invO sh' (upd (pend_in P s n) i (match y with Some (SUse _ _ u', MIn _ _ m, g) => Some (u', m, inner g) | _ => None end)) x' ->
    vec_at (v_guards c) i y ->
    vec_inv (set_shard_tab s (set_sh n sh' (tab_of s c)) c) (upd P i y) (with_tab s (aset keqb k x' (a_tab a s)) a).
  Proof.
    intros c P a i h k u s n e x0 sh' x' y I EI EK EN AG PH PHY YS PS IN AT. pose proof I as [L T K1 H I1 N G D R A].
    set (c' := set_shard_tab s (set_sh n sh' (tab_of s c)) c).
    assert (SS : set_sh n sh' (tab_of s c) = map (set_row n sh') (tab_of s c)) by reflexivity.
    assert (TB : forall s', tab_of s' c' = if Nat.eqb s' s then map (set_row n sh') (tab_of s c) else tab_of s' c).
    { intros s'. unfold tab_of at 1, c', set_shard_tab. cbn. unfold upd. now destruct (Nat.eqb_spec s' s); subst. }
    assert (LK : forall s', lock_of s' c' = lock_of s' c).
    { intros s'. unfold lock_of, c', set_shard_tab. cbn. unfold upd. now destruct (Nat.eqb_spec s' s); subst. }
    assert (RK : forall r, e_key (set_row n sh' r) = e_key r /\ e_id (set_row n sh' r) = e_id r).
    { intros r. unfold set_row. now destruct (Nat.eqb (e_id r) n). }
    assert (MK : map e_key (map (set_row n sh') (tab_of s c)) = map e_key (tab_of s c)).
    { rewrite map_map. apply map_ext. intros r. apply RK. }
    assert (MI : map e_id (map (set_row n sh') (tab_of s c)) = map e_id (tab_of s c)).
    { rewrite map_map. apply map_ext. intros r. apply RK. }
    assert (ELSE : forall s' n', (s', n') <> (s, n) -> forall j, pend_in (upd P i y) s' n' j = pend_in P s' n' j).
    { intros s' n' NE j. unfold pend_in. destruct (Nat.eq_dec j i) as [->|NJ]; [|now rewrite upd_other]. rewrite upd_same.
      assert (X : forall (p : item), (match p with None => True | Some (op, mic, g) => op = SUse h k u /\
         (mic = MUse h k u \/ exists m, mic = MIn s n m) end) ->
         match p with Some (SUse _ _ u', MIn s1 n1 m, g) => if Nat.eqb s1 s' && Nat.eqb n1 n' then Some (u', m, inner g) else None | _ => None end = None).
      { intros [[[op mic] g]|]; [|reflexivity]. intros [-> [->|[m ->]]]; [reflexivity|].
        destruct (Nat.eqb_spec s s'); [|reflexivity]. destruct (Nat.eqb_spec n n'); [|reflexivity]. congruence. }
      rewrite (X (P i) PS). apply X. destruct y as [[[op mic] g]|]; [|exact Logic.I]. destruct YS as [-> [m ->]]. eauto. }
    assert (HERE : forall j, pend_in (upd P i y) s n j =
      upd (pend_in P s n) i (match y with Some (SUse _ _ u', MIn _ _ m, g) => Some (u', m, inner g) | _ => None end) j).
    { intros j. destruct (Nat.eq_dec j i) as [->|NJ].
      - rewrite upd_same. unfold pend_in. rewrite upd_same. destruct y as [[[op mic] g]|]; [|reflexivity].
        destruct YS as [-> [m ->]]. now rewrite !Nat.eqb_refl.
      - rewrite upd_other by exact NJ. unfold pend_in. now rewrite upd_other. }
    split; auto.
    - intros s'. rewrite LK. eapply li_ext; [exact (L s')|reflexivity|]. intros j. cbn.
      destruct (Nat.eq_dec j i) as [->|NJ]; [rewrite upd_same; now rewrite PH, PHY|now rewrite upd_other].
    - intros s'. rewrite TB. cbn [with_tab a_tab]. unfold upd at 2. destruct (Nat.eqb_spec s' s) as [->|NE].
      + assert (X : forall r, In r (tab_of s c) -> Nat.eqb (e_id r) n = keqb (e_key r) k).
        { intros r RI. destruct (Nat.eqb_spec (e_id r) n) as [E|E].
          - assert (r = e) by (eapply (NoDup_map_inj _ _ e_id); eauto; congruence). subst r. symmetry. now apply keqb_eq.
          - symmetry. apply keqb_neq. intros E'. apply E. assert (r = e) by (eapply (NoDup_map_inj _ _ e_key); eauto; congruence).
            now subst r. }
        specialize (T s). unfold aset. clear - T X ELSE HERE IN O_ok.
        induction T as [|r [k' z] t v [E1 E2] T IH]; cbn; [constructor|]. constructor.
        * cbn in E1. subst k'. unfold set_row. rewrite (X r (or_introl eq_refl)).
          destruct (keqb (e_key r) k) eqn:KE; cbn [e_key e_sh e_id fst snd].
          -- split; [reflexivity|]. pose proof (X r (or_introl eq_refl)) as Y. rewrite KE in Y. apply Nat.eqb_eq in Y. rewrite Y.
             eapply (ok_ext _ _ _ _ _ _ _ O_ok); [|exact IN]. intros j. symmetry. apply HERE.
          -- split; [reflexivity|]. pose proof (X r (or_introl eq_refl)) as Y. rewrite KE in Y. apply Nat.eqb_neq in Y.
             eapply (ok_ext _ _ _ _ _ _ _ O_ok); [|exact E2]. intros j. symmetry. apply ELSE. congruence.
        * apply IH. intros r' RI. apply X. right. exact RI.
      + apply (tabs_ext c P (upd P i y) a s' (T s')). intros n' j. apply ELSE. congruence.
    - intros s'. rewrite TB. destruct (Nat.eqb_spec s' s) as [->|NE]; [rewrite MK|]; apply K1.
    - intros s' r. rewrite TB. destruct (Nat.eqb_spec s' s) as [->|NE]; [|apply H].
      intros X. apply in_map_iff in X as (r' & <- & X). rewrite (proj1 (RK r')). now apply H.
    - intros s'. rewrite TB. destruct (Nat.eqb_spec s' s) as [->|NE]; [rewrite MI|]; apply I1.
    - intros s' r. rewrite TB. destruct (Nat.eqb_spec s' s) as [->|NE]; [|apply N].
      intros X. apply in_map_iff in X as (r' & <- & X). rewrite (proj2 (RK r')). exact (N _ _ X).
    - intros g k' n' Gi Ri. rewrite TB. destruct (R g k' n' Gi Ri) as (r & X1 & X2 & X3).
      destruct (Nat.eqb_spec (g_shard g) s) as [E|NE]; [|eauto].
      exists (set_row n sh' r). rewrite (proj1 (RK r)), (proj2 (RK r)). split; [|auto]. apply in_map. now rewrite <- E.
    - now apply at_upd.
  Qed.

  Lemma vec_inv_ext : forall c P a c' a', vec_inv c P a -> (forall s, v_shards c' s = v_shards c s) ->
    v_next c' = v_next c -> v_guards c' = v_guards c -> (forall s, a_tab a' s = a_tab a s) -> a_guards a' = a_guards a ->
    vec_inv c' P a'.
  Proof.
    intros c P a c' a' [L T K1 H I1 N G D R A] ES EN EG EA EB.
    assert (TB : forall s', tab_of s' c' = tab_of s' c) by (intros s'; unfold tab_of; now rewrite ES).
    split.
    - intros s. unfold lock_of. rewrite ES, EG. apply L.
    - intros s. rewrite TB, EA. apply T.
    - intros s. rewrite TB. apply K1.
    - intros s e. rewrite TB. apply H.
    - intros s. rewrite TB. apply I1.
    - intros s e. rewrite TB, EN. apply N.
    - now rewrite EB, EG.
    - now rewrite EG.
    - intros g k n. rewrite EG, TB. apply R.
    - intros i. rewrite EG. apply A.
  Qed.

  Lemma aset_same : forall k x (t : list (K * St)), NoDup (map fst t) -> aget keqb k t = Some x -> aset keqb k x t = t.
  Proof.
    intros k x t. unfold aget, aset. induction t as [|[k' y] t IH]; cbn; intros N E; [reflexivity|].
    inversion N as [|a b NI N' EQ]; subst. destruct (keqb k' k) eqn:KE.
    - inversion E; subst. f_equal. apply keqb_eq in KE. subst k'.
      clear - NI keqb_eq. induction t as [|[k' z] t IH]; cbn; [reflexivity|]. cbn in NI. destruct (keqb k' k) eqn:KE.
      + apply keqb_eq in KE. exfalso. apply NI. now left.
      + f_equal. apply IH. tauto.
    - f_equal. now apply IH.
  Qed.

  Lemma set_sh_same : forall n (t : list row) e, NoDup (map e_id t) -> In e t -> e_id e = n -> set_sh n (e_sh e) t = t.
  Proof.
    intros n t e N I E. unfold set_sh. transitivity (map (fun x => x) t); [|apply map_id].
    apply map_ext_in. intros r RI. destruct (Nat.eqb_spec (e_id r) n) as [X|X]; [|reflexivity].
    assert (r = e) by (eapply (NoDup_map_inj _ _ e_id); eauto; congruence). subst r. now destruct e.
  Qed.

  Lemma in_entry : forall c P a gd i h k n, vec_inv c P a -> gfind i h (v_guards c) = Some gd -> ref_of keqb k gd = Some n ->
    exists e x, In e (tab_of (g_shard gd) c) /\ e_key e = k /\ e_id e = n /\ find_id n (tab_of (g_shard gd) c) = Some e /\
      aget keqb k (a_tab a (g_shard gd)) = Some x /\ invO (e_sh e) (pend_in P (g_shard gd) n) x.
  Proof.
    intros c P a gd i h k n I F R. apply gfind_in in F as (GI & _ & _).
    destruct (vi_refs _ _ _ I gd k n GI (ref_in _ _ _ R)) as (e & E1 & E2 & E3).
    pose proof (lookup_key P (g_shard gd) k _ _ (vi_tabs _ _ _ I (g_shard gd))) as LK.
    destruct (find_key keqb k (tab_of (g_shard gd) c)) as [e'|].
    - destruct LK as (X1 & X2 & x & X3 & X4).
      assert (e' = e) by (eapply (NoDup_map_inj _ _ e_key); [apply (vi_keys _ _ _ I)|eauto|eauto|congruence]). subst e'.
      exists e, x. repeat split; auto; [|now rewrite <- E3]. apply find_id_in; auto. apply (vi_ids _ _ _ I).
    - destruct LK as [_ X]. exfalso. apply X. rewrite <- E2. now apply in_map.
  Qed.

  (** *** Linearization points *)

  Definition vec_lin (i ch : nat) (op : vop) (mic : vmic) (c : svec) : bool :=
    match mic with
    | MGet h _ => held i h c
    | MLook _ k => match find_key keqb k (tab_of (shard_of k) c) with Some _ => true | None => false end
    | MIns _ _ => true
    | MUse h k _ =>
      match find_guard i h c with
      | None => true
      | Some g => match ref_of keqb k g with None => true | Some _ => false end
      end
    | MIn s n m =>
      match op, find_id n (tab_of s c) with
      | SUse _ _ u, Some e => linO i ch u m (e_sh e)
      | _, _ => false
      end
    | MDrop _ => true
    | MRDo _ => true
    | MOpen h _ => held i h c
    | MKeys _ _ => true
    | _ => false
    end.

  (** The concrete vec when no call is in progress. *)
  Definition vec_rep (c : svec) (a : avec) : Prop :=
    a_guards a = map strip (v_guards c) /\
    forall s, Forall2 (fun e p => e_key e = fst p /\ rep (e_sh e) (snd p)) (tab_of s c) (a_tab a s).

  Ltac quiet I PI PHI := apply step_quiet; [exact I|now rewrite PI|exact Logic.I|intros ?s'; rewrite PHI; reflexivity|].

  Theorem sparse_ok : object_ok M vspec vec_lin vec_inv sv_new av_new vec_rep.
  Proof.
    split.
    - split; cbn; try (intros; contradiction).
      + intros s. apply li_free.
      + intros s. constructor.
      + intros s. constructor.
      + intros s. constructor.
      + reflexivity.
      + constructor.
      + intros i. exact Logic.I.
    - intros c P Q a E [L T K1 H I1 N G D R A]. split; auto.
      + intros s. eapply li_ext; [apply L|reflexivity|]. intros i. cbn. now rewrite E.
      + intros s. eapply tabs_ext; [apply T|]. intros n j. unfold pend_in. now rewrite E.
      + intros i. rewrite <- E. apply A.
    - intros c P a i op I PI. apply step_quiet; auto.
      + now rewrite PI.
      + now destruct op.
      + intros s. rewrite PI. now destruct op.
      + destruct op; cbn; auto.
    - intros c P a i ch op mic g c' nxt I PI E.
      pose proof (vi_at _ _ _ I i) as AT. rewrite PI in AT.
      assert (PHI : forall s, phase_of s (P i) = match mic_lock mic with Some (s', ph) => if Nat.eqb s' s then ph else PNone | None => PNone end)
        by (intros s; now rewrite PI).
      pose proof (fun s => vi_locks _ _ _ I s) as LK.
      destruct mic as [h k|h k|h k|h k|h k|h k|h k|h k|h k u|s n m|h|k|k|k|s r|h s|h s]; cbn [m_step sparse_machine vec_step vec_lin vec_at mic_lock] in *.
      + (* MGet *)
        destruct AT as [-> ->]. unfold held in *. change (find_guard i h c) with (gfind i h (v_guards c)) in *.
        destruct (gfind i h (v_guards c)) as [gd|] eqn:GF.
        * inversion E; subst; clear E. exists (Some RBad), a. split.
          -- split; [reflexivity|]. exists RBad. split; [|reflexivity]. cbn [vec_spec]. rewrite (ag_find_strip _ _ _ _ _ I), GF. reflexivity.
          -- split; [reflexivity|]. quiet I PI PHI; exact Logic.I.
        * destruct (rw_read i ch (lock_of (shard_of k) c)) as [l|] eqn:RD; [|discriminate]. inversion E; subst; clear E.
          exists None, a. split; [auto|]. apply step_lock; [exact I|now rewrite PI|exact Logic.I| | |].
          -- cbn. rewrite Nat.eqb_refl. eapply li_do_read; [apply LK| |exact RD]. apply PHI.
          -- intros s' NE. rewrite PHI. cbn. destruct (Nat.eqb_spec (shard_of k) s'); [congruence|reflexivity].
          -- cbn. auto.
      + (* MLook *)
        destruct AT as (-> & -> & GF).
        pose proof (lookup_key P (shard_of k) k _ _ (vi_tabs _ _ _ I (shard_of k))) as LU.
        destruct (find_key keqb k (tab_of (shard_of k) c)) as [e|]; inversion E; subst; clear E.
        * destruct LU as (E1 & E2 & x & E3 & E4).
          exists (Some RUnit), (with_guard (i, h, shard_of k, [k]) a). split.
          -- split; [reflexivity|]. exists RUnit. split; [|reflexivity]. cbn [vec_spec]. rewrite (ag_find_strip _ _ _ _ _ I), GF. cbn.
             now rewrite E3.
          -- split; [reflexivity|]. apply (step_guard c P a i None h (shard_of k) [(k, e_id e)] I); [now rewrite PI|exact Logic.I|exact GF| | | |exact Logic.I].
             ++ apply li_do_look; [apply LK|]. cbn. rewrite PHI. now rewrite Nat.eqb_refl.
             ++ intros s' NE. rewrite PHI. cbn. destruct (Nat.eqb_spec (shard_of k) s'); [congruence|reflexivity].
             ++ intros k' n [X|[]]. inversion X; subst. eauto.
        * exists None, a. split; [auto|]. quiet I PI PHI; cbn; auto.
      + (* MUnread *)
        destruct AT as (-> & -> & GF). inversion E; subst; clear E. exists None, a. split; [auto|].
        apply step_lock; [exact I|now rewrite PI|exact Logic.I| | |].
        * cbn. apply li_do_unread; [apply LK|]. rewrite PHI. now rewrite Nat.eqb_refl.
        * intros s' NE. rewrite PHI. cbn. destruct (Nat.eqb_spec (shard_of k) s'); [congruence|reflexivity].
        * cbn. auto.
      + (* MReq *)
        destruct AT as (-> & -> & GF). inversion E; subst; clear E. exists None, a. split; [auto|].
        apply step_lock; [exact I|now rewrite PI|exact Logic.I| | |].
        * cbn. rewrite Nat.eqb_refl. apply li_do_request; [apply LK|]. now rewrite PHI.
        * intros s' NE. rewrite PHI. cbn. destruct (Nat.eqb_spec (shard_of k) s'); [congruence|reflexivity].
        * cbn. auto.
      + (* MWrite *)
        destruct AT as (-> & -> & GF). destruct (rw_write i (lock_of (shard_of k) c)) as [l|] eqn:W; [|discriminate].
        inversion E; subst; clear E. exists None, a. split; [auto|].
        apply step_lock; [exact I|now rewrite PI|exact Logic.I| | |].
        * cbn. rewrite Nat.eqb_refl. eapply li_do_write; [apply LK| |exact W]. rewrite PHI. now rewrite Nat.eqb_refl.
        * intros s' NE. rewrite PHI. cbn. destruct (Nat.eqb_spec (shard_of k) s'); [congruence|reflexivity].
        * cbn. auto.
      + (* MIns *)
        destruct AT as (-> & -> & GF).
        assert (PW : phase_of (shard_of k) (P i) = PWrite) by (rewrite PHI; now rewrite Nat.eqb_refl).
        pose proof (li_alone _ _ _ i (LK (shard_of k)) PW) as AL.
        assert (NG : forall j, nguards (v_guards c) (shard_of k) j = 0) by (intros j; apply AL).
        pose proof (lookup_key P (shard_of k) k _ _ (vi_tabs _ _ _ I (shard_of k))) as LU.
        destruct (find_key keqb k (tab_of (shard_of k) c)) as [e|]; inversion E; subst; clear E.
        * destruct LU as (E1 & E2 & x & E3 & E4).
          exists (Some RUnit), (with_guard (i, h, shard_of k, [k]) a). split.
          -- split; [reflexivity|]. exists RUnit. split; [|reflexivity]. cbn [vec_spec]. rewrite (ag_find_strip _ _ _ _ _ I), GF. cbn.
             now rewrite E3.
          -- apply (step_guard c P a i _ h (shard_of k) [(k, e_id e)] I); [now rewrite PI|exact Logic.I|exact GF| | | | ].
             ++ cbn. rewrite Nat.eqb_refl. apply li_do_guard; [apply LK|exact PW].
             ++ intros s' NE. rewrite PHI. cbn. destruct (Nat.eqb_spec (shard_of k) s'); [congruence|reflexivity].
             ++ intros k' n [X|[]]. inversion X; subst. eauto.
             ++ cbn. unfold is_guard at 1. cbn. rewrite !Nat.eqb_refl. cbn. eauto.
        * destruct LU as [E3 NK].
          pose proof (step_insert c P a k I NK) as I2.
          exists (Some RUnit), (with_guard (i, h, shard_of k, [k]) (with_tab (shard_of k) (a_tab a (shard_of k) ++ [(k, st_new)]) a)). split.
          -- split; [reflexivity|]. exists RUnit. split; [|reflexivity]. cbn [vec_spec]. rewrite (ag_find_strip _ _ _ _ _ I), GF. cbn.
             rewrite E3. now rewrite (not_guarded _ _ _ _ I NG).
          -- apply (step_guard _ P _ i _ h (shard_of k) [(k, v_next c)] I2); [now rewrite PI|exact Logic.I|exact GF| | | | ].
             ++ cbn [phase_of mic_lock]. rewrite Nat.eqb_refl. apply li_do_guard; [apply (vi_locks _ _ _ I2)|exact PW].
             ++ intros s' NE. rewrite PHI. cbn. destruct (Nat.eqb_spec (shard_of k) s'); [congruence|reflexivity].
             ++ intros k' n [X|[]]. inversion X; subst.
                exists {| e_key := k'; e_id := v_next c; e_sh := sh_new |}. split; [|split; reflexivity].
                unfold tab_of, next_id, set_shard_tab. cbn. rewrite upd_same. cbn. rewrite in_app_iff. right. left. reflexivity.
             ++ cbn. unfold is_guard at 1. cbn. rewrite !Nat.eqb_refl. cbn. eauto.
      + (* MDown *)
        destruct AT as (-> & -> & n & GF). inversion E; subst; clear E. exists (Some RUnit), a. split; [auto|].
        apply step_lock; [exact I|now rewrite PI|exact Logic.I| | |].
        * cbn. apply li_do_downgrade; [apply LK|]. rewrite PHI. now rewrite Nat.eqb_refl.
        * intros s' NE. rewrite PHI. cbn. destruct (Nat.eqb_spec (shard_of k) s'); [congruence|reflexivity].
        * cbn. eauto.
      + (* MFind *)
        destruct AT as (-> & -> & n & GF).
        pose proof (lookup_key P (shard_of k) k _ _ (vi_tabs _ _ _ I (shard_of k))) as LU.
        destruct (find_key keqb k (tab_of (shard_of k) c)) as [e|]; inversion E; subst; clear E.
        * exists (Some RUnit), a. split; [auto|]. split; [reflexivity|]. quiet I PI PHI; exact Logic.I.
        * exfalso. destruct LU as [_ NK]. apply NK. apply gfind_in in GF as (GI & _ & _).
          destruct (vi_refs _ _ _ I _ k n GI (or_introl eq_refl)) as (e & E1 & E2 & _). cbn in E1. apply in_map_iff. exists e. auto.
      + (* MUse *)
        destruct AT as (-> & ->). change (find_guard i h c) with (gfind i h (v_guards c)) in *.
        destruct (gfind i h (v_guards c)) as [gd|] eqn:GF.
        * destruct (ref_of keqb k gd) as [n|] eqn:RF; inversion E; subst; clear E.
          -- destruct (in_entry _ _ _ _ _ _ _ _ I GF RF) as (e & x & E1 & E2 & E3 & E4 & E5 & E6).
             exists None, a. split; [auto|].
             eapply vec_inv_ext.
             ++ eapply (step_in _ P a i h k u (g_shard gd) n e x (e_sh e) x (Some (SUse h k u, MIn (g_shard gd) n (m_begin O u), None)));
                  [exact I|exact E1|exact E2|exact E3|exact E5|exact PHI|reflexivity|split; [reflexivity|eexists; reflexivity]|
                   rewrite PI; split; [reflexivity|left; reflexivity]| |].
                ** cbn. apply (ok_begin _ _ _ _ _ _ _ O_ok); [exact E6|]. unfold pend_in. now rewrite PI.
                ** cbn. exists h, k, u, gd. auto.
             ++ intros s. unfold set_shard_tab. cbn. unfold upd. destruct (Nat.eqb_spec s (g_shard gd)) as [->|]; [|reflexivity].
                rewrite (set_sh_same n _ e); auto; [|apply (vi_ids _ _ _ I)]. unfold tab_of. now destruct (v_shards c' (g_shard gd)).
             ++ reflexivity.
             ++ reflexivity.
             ++ intros s. cbn. unfold upd. destruct (Nat.eqb_spec s (g_shard gd)) as [->|]; [|reflexivity].
                symmetry. apply aset_same; [|exact E5]. rewrite <- (keys_agree _ _ _ _ (vi_tabs _ _ _ I (g_shard gd))). apply (vi_keys _ _ _ I).
             ++ reflexivity.
          -- exists (Some RBad), a. split.
             ++ split; [reflexivity|]. exists RBad. split; [|reflexivity]. cbn [vec_spec]. rewrite (ag_find_strip _ _ _ _ _ I), GF. cbn.
                now rewrite ref_keys, RF.
             ++ split; [reflexivity|]. quiet I PI PHI; exact Logic.I.
        * inversion E; subst; clear E. exists (Some RBad), a. split.
          -- split; [reflexivity|]. exists RBad. split; [|reflexivity]. cbn [vec_spec]. rewrite (ag_find_strip _ _ _ _ _ I), GF. reflexivity.
          -- split; [reflexivity|]. quiet I PI PHI; exact Logic.I.
      + (* MIn *)
        destruct AT as (h & k & u & gd & -> & GV & GF & <- & RF).
        destruct (in_entry _ _ _ _ _ _ _ _ I GF RF) as (e & x & E1 & E2 & E3 & E4 & E5 & E6). rewrite E4 in *.
        destruct (m_step O i ch m (e_sh e)) as [[sh' nx]|] eqn:MS; [|discriminate].
        assert (PP : pend_in P (g_shard gd) n i = Some (u, m, inner g)) by (unfold pend_in; rewrite PI; now rewrite !Nat.eqb_refl).
        destruct (ok_step _ _ _ _ _ _ _ O_ok _ _ _ i ch u m (inner g) sh' nx E6 PP MS) as (g' & x' & LI & NX).
        assert (ABS : exists a', (if linO i ch u m (e_sh e)
                   then g = None /\ exists r, vspec i (SUse h k u) a = Some (a', r) /\ option_map RVal g' = Some r
                   else option_map RVal g' = g /\ a' = a) /\
                  (forall s, a_tab a' s = a_tab (with_tab (g_shard gd) (aset keqb k x' (a_tab a (g_shard gd))) a) s) /\ a_guards a' = a_guards a).
        { destruct (linO i ch u m (e_sh e)).
          - destruct LI as (L1 & r & L2 & ->). eexists. split; [|split; [intros s; reflexivity|reflexivity]].
            split; [destruct GV as [->|[r' ->]]; [reflexivity|discriminate]|].
            exists (RVal r). split; [|reflexivity]. cbn [vec_spec]. rewrite (ag_find_strip _ _ _ _ _ I), GF. cbn [option_map strip].
            rewrite ref_keys, RF, E5, L2. reflexivity.
          - destruct LI as [-> ->]. exists a. split.
            + split; [|reflexivity]. destruct GV as [->|[r' ->]]; reflexivity.
            + split; [|reflexivity]. intros s. cbn. unfold upd. destruct (Nat.eqb_spec s (g_shard gd)) as [->|]; [|reflexivity].
              symmetry. apply aset_same; [|exact E5]. rewrite <- (keys_agree _ _ _ _ (vi_tabs _ _ _ I (g_shard gd))). apply (vi_keys _ _ _ I). }
        destruct ABS as (a' & SP & TA & GA).
        assert (IG : inner (option_map RVal g') = g') by now destruct g'.
        destruct nx as [m'|r]; inversion E; subst c' nxt; clear E; exists (option_map RVal g'), a'; (split; [exact SP|]).
        * eapply vec_inv_ext; [|reflexivity|reflexivity|reflexivity|exact TA|exact GA].
          eapply (step_in c P a i h k u (g_shard gd) n e x sh' x' (Some (SUse h k u, MIn (g_shard gd) n m', option_map RVal g')));
            [exact I|exact E1|exact E2|exact E3|exact E5|exact PHI|reflexivity|split; [reflexivity|eexists; reflexivity]|
             rewrite PI; split; [reflexivity|right; eexists; reflexivity]| |].
          -- cbn beta iota. rewrite IG. exact NX.
          -- exists h, k, u, gd. repeat split; auto. destruct g'; cbn; eauto.
        * destruct NX as [-> NX]. split; [reflexivity|].
          eapply vec_inv_ext; [|reflexivity|reflexivity|reflexivity|exact TA|exact GA].
          eapply (step_in c P a i h k u (g_shard gd) n e x sh' x' None);
            [exact I|exact E1|exact E2|exact E3|exact E5|exact PHI|reflexivity|exact Logic.I|
             rewrite PI; split; [reflexivity|right; eexists; reflexivity]|exact NX|exact Logic.I].
      + (* MDrop *)
        destruct AT as (-> & ->). change (find_guard i h c) with (gfind i h (v_guards c)) in *.
        destruct (gfind i h (v_guards c)) as [gd|] eqn:GF; inversion E; subst; clear E.
        * exists (Some RUnit). eexists. split.
          -- split; [reflexivity|]. exists RUnit. split; [|reflexivity]. cbn [vec_spec]. rewrite (ag_find_strip _ _ _ _ _ I), GF. reflexivity.
          -- split; [reflexivity|]. apply step_drop; auto. now rewrite PI.
        * exists (Some RBad), a. split.
          -- split; [reflexivity|]. exists RBad. split; [|reflexivity]. cbn [vec_spec]. rewrite (ag_find_strip _ _ _ _ _ I), GF. reflexivity.
          -- split; [reflexivity|]. quiet I PI PHI; exact Logic.I.
      + (* MRReq *)
        destruct AT as (-> & ->). inversion E; subst; clear E. exists None, a. split; [auto|].
        apply step_lock; [exact I|now rewrite PI|exact Logic.I| | |].
        * cbn. rewrite Nat.eqb_refl. apply li_do_request; [apply LK|]. now rewrite PHI.
        * intros s' NE. rewrite PHI. cbn. destruct (Nat.eqb_spec (shard_of k) s'); [congruence|reflexivity].
        * cbn. auto.
      + (* MRWrite *)
        destruct AT as (-> & ->). destruct (rw_write i (lock_of (shard_of k) c)) as [l|] eqn:W; [|discriminate].
        inversion E; subst; clear E. exists None, a. split; [auto|].
        apply step_lock; [exact I|now rewrite PI|exact Logic.I| | |].
        * cbn. rewrite Nat.eqb_refl. eapply li_do_write; [apply LK| |exact W]. rewrite PHI. now rewrite Nat.eqb_refl.
        * intros s' NE. rewrite PHI. cbn. destruct (Nat.eqb_spec (shard_of k) s'); [congruence|reflexivity].
        * cbn. auto.
      + (* MRDo *)
        destruct AT as (-> & ->).
        assert (PW : phase_of (shard_of k) (P i) = PWrite) by (rewrite PHI; now rewrite Nat.eqb_refl).
        pose proof (li_alone _ _ _ i (LK (shard_of k)) PW) as AL.
        assert (NG : forall j, nguards (v_guards c) (shard_of k) j = 0) by (intros j; apply AL).
        pose proof (lookup_key P (shard_of k) k _ _ (vi_tabs _ _ _ I (shard_of k))) as LU.
        pose proof (step_remove c P a k I NG) as I2.
        exists (Some (RRemoved (match aget keqb k (a_tab a (shard_of k)) with Some x => Some (aview x) | None => None end))).
        exists (with_tab (shard_of k) (adel keqb k (a_tab a (shard_of k))) a). split.
        { split; [reflexivity|]. eexists. split; [|reflexivity]. cbn [vec_spec]. now rewrite (not_guarded _ _ _ _ I NG). }
        assert (Q : forall r, vec_inv (set_shard_tab (shard_of k) (remove_key keqb k (tab_of (shard_of k) c)) c)
                     (upd P i (Some (SRemove k, MRUnwrite (shard_of k) r, Some r)))
                     (with_tab (shard_of k) (adel keqb k (a_tab a (shard_of k))) a)).
        { intros r. quiet I2 PI PHI. cbn. eauto. }
        destruct (find_key keqb k (tab_of (shard_of k) c)) as [e|] eqn:FK; inversion E; subst; clear E.
        * destruct LU as (E1 & E2 & x & E3 & E4). rewrite E3.
          assert (RV : view (e_sh e) = aview x).
          { apply rep_view. eapply (ok_rep _ _ _ _ _ _ _ O_ok); [exact E4|]. eapply nobody_in; eauto. }
          rewrite RV. apply Q.
        * destruct LU as [E3 NK]. rewrite E3. eapply vec_inv_ext; [apply Q| | | | |]; try reflexivity.
          intros s. unfold set_shard_tab. cbn. unfold upd. destruct (Nat.eqb_spec s (shard_of k)) as [->|]; [|reflexivity].
          assert (RN : forall t : list row, find_key keqb k t = None -> remove_key keqb k t = t).
          { clear. unfold find_key, remove_key. induction t as [|e t IH]; cbn; [reflexivity|]. destruct (keqb (e_key e) k); cbn; [discriminate|].
            intros X. now rewrite IH. }
          rewrite RN by exact FK. unfold tab_of. now destruct (v_shards c' (shard_of k)).
      + (* MRUnwrite *)
        destruct AT as (k & -> & -> & ->). inversion E; subst; clear E. exists (Some r), a. split; [auto|]. split; [reflexivity|].
        apply step_lock; [exact I|now rewrite PI|exact Logic.I| | |].
        * cbn. apply li_do_unwrite; [apply LK|]. rewrite PHI. now rewrite Nat.eqb_refl.
        * intros s' NE. rewrite PHI. cbn. destruct (Nat.eqb_spec (shard_of k) s'); [congruence|reflexivity].
        * exact Logic.I.
      + (* MOpen *)
        destruct AT as [-> ->]. unfold held in *. change (find_guard i h c) with (gfind i h (v_guards c)) in *.
        destruct (gfind i h (v_guards c)) as [gd|] eqn:GF.
        * inversion E; subst; clear E. exists (Some RBad), a. split.
          -- split; [reflexivity|]. exists RBad. split; [|reflexivity]. cbn [vec_spec]. rewrite (ag_find_strip _ _ _ _ _ I), GF. reflexivity.
          -- split; [reflexivity|]. quiet I PI PHI; exact Logic.I.
        * destruct (rw_read i ch (lock_of s c)) as [l|] eqn:RD; [|discriminate]. inversion E; subst; clear E.
          exists None, a. split; [auto|]. apply step_lock; [exact I|now rewrite PI|exact Logic.I| | |].
          -- cbn. rewrite Nat.eqb_refl. eapply li_do_read; [apply LK| |exact RD]. apply PHI.
          -- intros s' NE. rewrite PHI. cbn. destruct (Nat.eqb_spec s s'); [congruence|reflexivity].
          -- cbn. auto.
      + (* MKeys *)
        destruct AT as (-> & -> & GF). inversion E; subst; clear E.
        exists (Some (RKeys (map fst (a_tab a s)))), (with_guard (i, h, s, map fst (a_tab a s)) a).
        pose proof (keys_agree _ _ _ _ (vi_tabs _ _ _ I s)) as KA. split.
        * split; [reflexivity|]. eexists. split; [|reflexivity]. cbn [vec_spec]. rewrite (ag_find_strip _ _ _ _ _ I), GF. reflexivity.
        * split; [now rewrite KA|]. rewrite <- KA.
          assert (MM : map e_key (tab_of s c) = map fst (map (fun e : row => (e_key e, e_id e)) (tab_of s c))) by now rewrite map_map.
          rewrite MM. apply step_guard; [exact I|now rewrite PI|exact Logic.I|exact GF| | | |exact Logic.I].
          -- apply li_do_look; [apply LK|]. cbn. rewrite PHI. now rewrite Nat.eqb_refl.
          -- intros s' NE. rewrite PHI. cbn. destruct (Nat.eqb_spec s s'); [congruence|reflexivity].
          -- intros k' n X. apply in_map_iff in X as (e & X & EI). inversion X; subst. eauto.
    - intros c P a I Q. split; [apply (vi_gs _ _ _ I)|]. intros s.
      pose proof (vi_tabs _ _ _ I s) as T. induction T as [|e p t u [E1 E2] T IH]; constructor; auto. split; [exact E1|].
      eapply (ok_rep _ _ _ _ _ _ _ O_ok); [exact E2|]. intros j. unfold pend_in. now rewrite Q.
  Qed.

  Theorem sparse_linearizable : linearizable vspec M sv_new av_new vec_rep.
  Proof. eapply object_linearizable, sparse_ok. Qed.
End Vec.
