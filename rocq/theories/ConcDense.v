(** Dense vecs under concurrency: the invariant. *)
From Coq Require Import List NArith ZArith Bool Arith Lia.
From Verif Require Import Base ConcModel ConcSpec ConcProofs ConcDenseModel ConcDenseSpec.
Import ListNotations.
Local Open Scope nat_scope.

Section Dense.
  Context {Sh Op Res Mic St : Type}.
  Variable O : machine Sh Op Res Mic.
  Variable sh_new : Sh.
  Variable card : nat.
  Variable spec : nat -> Op -> St -> option (St * Res).
  Variable st_new : St.
  Variable linO : nat -> nat -> Op -> Mic -> Sh -> bool.
  Variable invO : Sh -> @pending Op Res Mic -> St -> Prop.
  Variable rep : Sh -> St -> Prop.
  Hypothesis O_ok : object_ok O spec linO invO sh_new st_new rep.

  Notation dop := (dense_op Op).
  Notation dres := (dense_res Res).
  Notation dmic := (dense_mic Op Mic).
  Notation item := (option (dop * dmic * option dres)).
  Notation dpend := (@pending dop dres dmic).
  Notation M := (dense_machine O sh_new card).
  Notation dspec := (dense_spec spec st_new card).

  Definition dinner (g : option dres) : option Res := match g with Some (DVal r) => Some r | _ => None end.
  Definition item_in (k : nat) (p : item) : option (Op * Mic * option Res) :=
    match p with
    | Some (DUse _ _ u, NIn k' _ m, g) => if Nat.eqb k' k then Some (u, m, dinner g) else None
    | _ => None
    end.
  (** The calls in progress on the metric of cell [k]. *)
  Definition dpend_in (P : dpend) (k : nat) : @pending Op Res Mic := fun i => item_in k (P i).

  Definition initialising (k : nat) (p : item) : bool :=
    match p with Some (_, NInit _ k', _) => Nat.eqb k' k | _ => false end.

  Definition full_at (c : dvec Sh) (k n : nat) : Prop := exists sh, d_cells c k = CFull n sh.

  Definition dense_at (c : dvec Sh) (i : nat) (p : item) : Prop :=
    match p with
    | None => True
    | Some (op, mic, g) =>
      match mic with
      | NGet h k => op = DGet h k /\ g = None
      | NOnce h k => op = DGet h k /\ g = None /\ k < card
      | NInit h k => op = DGet h k /\ g = None /\ k < card
      | NBind h k => op = DGet h k /\ k < card /\ (exists n, full_at c k n) /\ g = Some DUnit
      | NPeek h k => op = DPeek h k /\ g = None
      | NUse h k u => op = DUse h k u /\ g = None
      | NIn k n m => exists h u, op = DUse h k u /\ (g = None \/ exists r, g = Some (DVal r)) /\ d_env c i h = Some (k, n)
      end
    end.

  (** The variables as they are seen: the result of get_or_init already counts. *)
  Definition env_seen (p : item) (e : nat -> option (nat * nat)) (h : nat) : option nat :=
    match p with
    | Some (_, NBind h' k, _) => if Nat.eqb h' h then Some k else option_map fst (e h)
    | _ => option_map fst (e h)
    end.

  Definition cell_ok (P : dpend) (k : nat) (x : cell Sh) (o : option St) : Prop :=
    match x with
    | CFull _ sh => exists st, o = Some st /\ invO sh (dpend_in P k) st
    | _ => o = None /\ forall j, dpend_in P k j = None
    end.

  Record dense_inv (c : dvec Sh) (P : dpend) (a : adense St) : Prop := {
    di_cells : forall k, cell_ok P k (d_cells c k) (ad_tab a k);
    di_busy : forall k i, d_cells c k = CBusy i <-> initialising k (P i) = true;
    di_env : forall i h, ad_env a i h = env_seen (P i) (d_env c i) h;
    di_refs : forall i h k n, d_env c i h = Some (k, n) -> full_at c k n;
    di_at : forall i, dense_at c i (P i)
  }.

  Lemma dpend_in_upd : forall P i x k j, dpend_in (upd P i x) k j = if Nat.eqb j i then item_in k x else dpend_in P k j.
  Proof. intros P i x k j. unfold dpend_in, upd. now destruct (Nat.eqb j i). Qed.

  Lemma cell_ok_ext : forall P Q k x o, (forall j, dpend_in P k j = dpend_in Q k j) -> cell_ok P k x o -> cell_ok Q k x o.
  Proof.
    intros P Q k x o E H. destruct x as [|b|n sh]; cbn in *.
    - destruct H as [-> H]. split; [reflexivity|]. intros j. now rewrite <- E.
    - destruct H as [-> H]. split; [reflexivity|]. intros j. now rewrite <- E.
    - destruct H as (st & -> & I). exists st. split; [reflexivity|]. eapply (ok_ext _ _ _ _ _ _ _ O_ok); eauto.
  Qed.

  Lemma cells_quiet : forall P i x k, item_in k x = item_in k (P i) -> forall j, dpend_in P k j = dpend_in (upd P i x) k j.
  Proof. intros P i x k E j. rewrite dpend_in_upd. destruct (Nat.eqb_spec j i) as [->|]; [now rewrite E|reflexivity]. Qed.

  Lemma dense_at_mono : forall c c' i p, dense_at c i p -> (forall h, d_env c' i h = d_env c i h) ->
    (forall k n, full_at c k n -> full_at c' k n) -> dense_at c' i p.
  Proof.
    intros c c' i [[[op mic] g]|] H E F; [|exact I]. destruct mic; cbn in *; auto.
    - destruct H as (H1 & H2 & (n & H3) & H4). eauto 6.
    - destruct H as (h & u & H1 & H2 & H3). exists h, u. rewrite E. auto.
  Qed.

  (** Only the step of the call changes. *)
  Lemma dstep_quiet : forall c P a i x, dense_inv c P a -> (forall k, item_in k x = item_in k (P i)) ->
    (forall k, initialising k x = initialising k (P i)) -> (forall h, env_seen x (d_env c i) h = env_seen (P i) (d_env c i) h) ->
    dense_at c i x -> dense_inv c (upd P i x) a.
  Proof.
    intros c P a i x [C B E R A] HI HB HE AT. split; auto.
    - intros k. eapply cell_ok_ext; [|apply C]. apply cells_quiet, HI.
    - intros k j. rewrite B. unfold upd. destruct (Nat.eqb_spec j i) as [->|]; [now rewrite HB|reflexivity].
    - intros j h. rewrite E. unfold upd. destruct (Nat.eqb_spec j i) as [->|]; [now rewrite HE|reflexivity].
    - intros j. unfold upd. destruct (Nat.eqb_spec j i) as [->|]; [exact AT|apply A].
  Qed.

  (** A variable gets its value. *)
  Lemma dstep_bind : forall c P a a' i h k n, dense_inv c P a -> full_at c k n ->
    (forall k, item_in k (P i) = None) -> (forall k, initialising k (P i) = false) ->
    (forall h', ad_env a' i h' = if Nat.eqb h h' then Some k else option_map fst (d_env c i h')) ->
    (forall j h', j <> i -> ad_env a' j h' = ad_env a j h') -> (forall k', ad_tab a' k' = ad_tab a k') ->
    dense_inv (bind i h k n c) (upd P i None) a'.
  Proof.
    intros c P a a' i h k n [C B E R A] F HI HB EI EJ ET. split; cbn [bind d_cells d_env].
    - intros k'. rewrite ET. eapply cell_ok_ext; [|apply C]. apply cells_quiet. now rewrite HI.
    - intros k' j. rewrite B. unfold upd. destruct (Nat.eqb_spec j i) as [->|]; [now rewrite HB|reflexivity].
    - intros j h'. destruct (Nat.eq_dec j i) as [->|NE].
      + rewrite EI, !upd_same. cbn. unfold upd. destruct (Nat.eqb_spec h h') as [->|]; [now rewrite Nat.eqb_refl|].
        destruct (Nat.eqb_spec h' h); [congruence|reflexivity].
      + rewrite EJ, E, !upd_other by exact NE. reflexivity.
    - intros j h' k' n'. destruct (Nat.eq_dec j i) as [->|NE].
      + rewrite upd_same. unfold upd. destruct (Nat.eqb_spec h' h) as [->|]; [|apply R]. intros X. inversion X; subst. exact F.
      + rewrite upd_other by exact NE. apply R.
    - intros j. destruct (Nat.eq_dec j i) as [->|NE]; [rewrite upd_same; exact I|]. rewrite upd_other by exact NE.
      eapply dense_at_mono; [apply A| |auto]. intros h'. cbn. now rewrite upd_other by exact NE.
  Qed.

  (** A step inside a metric, or the start of one. *)
  Lemma dstep_in : forall c P a i k n sh sh' st' x, dense_inv c P a -> d_cells c k = CFull n sh ->
    (forall k', k' <> k -> item_in k' x = item_in k' (P i)) -> (forall k', initialising k' (P i) = false) -> (forall k', initialising k' x = false) ->
    (forall h, env_seen x (d_env c i) h = env_seen (P i) (d_env c i) h) ->
    invO sh' (upd (dpend_in P k) i (item_in k x)) st' -> dense_at c i x ->
    dense_inv (set_cell k (CFull n sh') c) (upd P i x) (ad_set k st' a).
  Proof.
    intros c P a i k n sh sh' st' x [C B E R A] CK HI HB HX HE IN AT.
    assert (FM : forall k' n', full_at c k' n' -> full_at (set_cell k (CFull n sh') c) k' n').
    { intros k' n' [s S]. unfold full_at, set_cell. cbn. unfold upd. destruct (Nat.eqb_spec k' k) as [->|]; [|eauto].
      rewrite CK in S. inversion S; subst. eauto. }
    split.
    - intros k'. cbn [set_cell d_cells ad_set ad_tab]. destruct (Nat.eq_dec k' k) as [->|NE].
      + rewrite !upd_same. exists st'. split; [reflexivity|]. eapply (ok_ext _ _ _ _ _ _ _ O_ok); [|exact IN].
        intros j. rewrite dpend_in_upd. reflexivity.
      + rewrite !upd_other by exact NE. eapply cell_ok_ext; [|apply C]. apply cells_quiet. now apply HI.
    - intros k' j. cbn [set_cell d_cells]. destruct (Nat.eq_dec k' k) as [->|NE].
      + rewrite upd_same. split; [discriminate|]. intros X. exfalso. unfold upd in X. destruct (Nat.eqb_spec j i) as [EJ|]; [now rewrite HX in X|].
        apply B in X. congruence.
      + rewrite upd_other by exact NE. rewrite B. unfold upd. destruct (Nat.eqb_spec j i) as [->|]; [now rewrite HB, HX|reflexivity].
    - intros j h. cbn [ad_set ad_env set_cell d_env]. rewrite E. unfold upd. destruct (Nat.eqb_spec j i) as [->|]; [now rewrite HE|reflexivity].
    - intros j h k' n' X. apply FM. eapply R. exact X.
    - intros j. apply (dense_at_mono c); [|reflexivity|exact FM]. unfold upd. destruct (Nat.eqb_spec j i) as [->|]; [exact AT|apply A].
  Qed.

  Lemma dense_inv_ext : forall c P a c' a', dense_inv c P a -> (forall k, d_cells c' k = d_cells c k) -> (forall j h, d_env c' j h = d_env c j h) ->
    (forall k, ad_tab a' k = ad_tab a k) -> (forall j h, ad_env a' j h = ad_env a j h) -> dense_inv c' P a'.
  Proof.
    intros c P a c' a' [C B E R A] H1 H2 H3 H4.
    assert (F : forall k n, full_at c k n -> full_at c' k n) by (intros k n [s S]; exists s; now rewrite H1).
    split.
    - intros k. rewrite H1, H3. apply C.
    - intros k i. rewrite H1. apply B.
    - intros j h. rewrite H4, E. unfold env_seen. destruct (P j) as [[[op []] g]|]; now rewrite H2.
    - intros j h k n. rewrite H2. intros X. apply F. eapply R. exact X.
    - intros j. eapply dense_at_mono; [apply A|intros h; apply H2|exact F].
  Qed.

  Definition dense_lin (i ch : nat) (op : dop) (mic : dmic) (c : dvec Sh) : bool :=
    match mic with
    | NGet _ k => if Nat.ltb k card then match d_cells c k with CFull _ _ => true | _ => false end else true
    | NOnce _ k => match d_cells c k with CFull _ _ => true | _ => false end
    | NInit _ _ => true
    | NBind _ _ => false
    | NPeek _ _ => true
    | NUse h k _ => match d_env c i h with Some (k', _) => negb (Nat.eqb k' k) | None => true end
    | NIn k n m =>
      match op, d_cells c k with
      | DUse _ _ u, CFull _ sh => linO i ch u m sh
      | _, _ => false
      end
    end.

  Definition dense_rep (c : dvec Sh) (a : adense St) : Prop :=
    forall k, match d_cells c k, ad_tab a k with
              | CFull _ sh, Some st => rep sh st
              | CFull _ _, None => False
              | _, o => o = None
              end.

  Theorem dense_ok : object_ok M dspec dense_lin dense_inv dv_new ad_new dense_rep.
  Proof.
    split.
    - split; [intros k; split; reflexivity|intros k i; split; intros; discriminate|reflexivity|intros; discriminate|intros i; exact I].
    - intros c P Q a EQ [C B E R A]. split; auto.
      + intros k. eapply cell_ok_ext; [|apply C]. intros j. unfold dpend_in. now rewrite EQ.
      + intros k i. rewrite <- EQ. apply B.
      + intros i h. rewrite <- EQ. apply E.
      + intros i. rewrite <- EQ. apply A.
    - intros c P a i op IV PI. apply dstep_quiet; auto; try (intros; rewrite PI; now destruct op). destruct op; cbn; auto.
    - intros c P a i ch op mic g c' nxt IV PI E. pose proof (di_at _ _ _ IV i) as AT. rewrite PI in AT.
      pose proof (fun h => di_env _ _ _ IV i h) as EV. rewrite PI in EV.
      pose proof (fun k => di_cells _ _ _ IV k) as CO.
      destruct mic as [h k|h k|h k|h k|h k|h k u|k n m]; cbn [m_step dense_machine dense_step dense_lin dense_at env_seen] in *.
      + (* NGet *)
        destruct AT as [-> ->]. destruct (Nat.ltb_spec k card) as [LT|GE].
        * specialize (CO k). destruct (d_cells c k) as [|b|n sh] eqn:CK; inversion E; subst; clear E.
          -- exists None, a. split; [auto|]. apply dstep_quiet; auto; try (intros; rewrite PI; reflexivity). cbn. auto.
          -- exists None, a. split; [auto|]. apply dstep_quiet; auto; try (intros; rewrite PI; reflexivity). cbn. auto.
          -- destruct CO as (st & CS & _). exists (Some DUnit), (ad_bind i h k a). split.
             ++ split; [reflexivity|]. exists DUnit. split; [|reflexivity]. unfold dense_spec. destruct (Nat.ltb_spec k card); [|lia]. now rewrite CS.
             ++ split; [reflexivity|]. eapply dstep_bind; eauto; try (intros; rewrite PI; reflexivity).
                ** exists sh. exact CK.
                ** intros h'. cbn. rewrite upd_same. unfold upd. rewrite <- EV. now rewrite (Nat.eqb_sym h' h).
                ** intros j h' NE. cbn. now rewrite upd_other.
        * inversion E; subst; clear E. exists (Some DPanic), a. split.
          -- split; [reflexivity|]. exists DPanic. split; [|reflexivity]. unfold dense_spec. destruct (Nat.ltb_spec k card); [lia|reflexivity].
          -- split; [reflexivity|]. apply dstep_quiet; auto; try (intros; rewrite PI; reflexivity). exact I.
      + (* NOnce *)
        destruct AT as (-> & -> & LT). specialize (CO k). destruct (d_cells c k) as [|b|n sh] eqn:CK; inversion E; subst; clear E.
        * exists None, a. split; [auto|]. destruct CO as [CS CP]. destruct IV as [C B EE R A].
          assert (FM : forall k' n', full_at c k' n' -> full_at (set_cell k (CBusy i) c) k' n').
          { intros k' n' [s S]. exists s. cbn. rewrite upd_other; [exact S|]. intros ->. congruence. }
          split.
          -- intros k'. eapply cell_ok_ext; [apply cells_quiet; now rewrite PI|]. cbn. unfold upd. destruct (Nat.eqb_spec k' k) as [->|]; [|apply C].
             split; [exact CS|exact CP].
          -- intros k' j. cbn. unfold upd at 1. destruct (Nat.eqb_spec k' k) as [->|NE].
             ++ split; [intros X; inversion X; subst; rewrite upd_same; cbn; apply Nat.eqb_refl|].
                intros X. unfold upd in X. destruct (Nat.eqb_spec j i) as [EJ|]; [now rewrite EJ|]. apply B in X. congruence.
             ++ rewrite B. unfold upd. destruct (Nat.eqb_spec j i) as [->|]; [|reflexivity]. rewrite PI. cbn.
                destruct (Nat.eqb_spec k k'); [congruence|reflexivity].
          -- intros j h'. cbn. rewrite EE. unfold upd. destruct (Nat.eqb_spec j i) as [->|]; [now rewrite PI|reflexivity].
          -- intros j h' k' n' X. apply FM. eapply R; exact X.
          -- intros j. apply (dense_at_mono c); [|reflexivity|exact FM]. unfold upd. destruct (Nat.eqb_spec j i) as [->|]; [cbn; auto|apply A].
        * destruct CO as (st & CS & _). exists (Some DUnit), (ad_bind i h k a). split.
          -- split; [reflexivity|]. exists DUnit. split; [|reflexivity]. unfold dense_spec. destruct (Nat.ltb_spec k card); [|lia]. now rewrite CS.
          -- destruct IV as [C B EE R A]. split; auto.
             ++ intros k'. eapply cell_ok_ext; [apply cells_quiet; now rewrite PI|]. apply C.
             ++ intros k' j. rewrite B. unfold upd. destruct (Nat.eqb_spec j i) as [->|]; [|reflexivity]. now rewrite PI.
             ++ intros j h'. cbn. unfold upd at 1 3. destruct (Nat.eqb_spec j i) as [->|]; [|apply EE].
                unfold upd. rewrite EV. cbn. now rewrite (Nat.eqb_sym h h').
             ++ intros j. unfold upd. destruct (Nat.eqb_spec j i) as [->|]; [|apply A]. cbn. repeat split; auto. exists n, sh. exact CK.
      + (* NInit *)
        destruct AT as (-> & -> & LT). inversion E; subst; clear E. pose proof (CO k) as CK.
        assert (BZ : d_cells c k = CBusy i) by (apply (di_busy _ _ _ IV); rewrite PI; cbn; apply Nat.eqb_refl).
        rewrite BZ in CK. destruct CK as [CS CP].
        exists (Some DUnit), (ad_bind i h k (ad_set k st_new a)). split.
        * split; [reflexivity|]. exists DUnit. split; [|reflexivity]. unfold dense_spec. destruct (Nat.ltb_spec k card); [|lia]. now rewrite CS.
        * destruct IV as [C B EE R A].
          assert (FM : forall k' n', full_at c k' n' -> full_at (fresh_cell sh_new k c) k' n').
          { intros k' n' [s S]. exists s. cbn. rewrite upd_other; [exact S|]. intros ->. congruence. }
          split.
          -- intros k'. eapply cell_ok_ext; [apply cells_quiet; now rewrite PI|]. cbn. unfold upd. destruct (Nat.eqb_spec k' k) as [->|]; [|apply C].
             exists st_new. split; [reflexivity|]. eapply (ok_ext _ _ _ _ _ _ _ O_ok); [|apply (ok_init _ _ _ _ _ _ _ O_ok)].
             intros j. now rewrite CP.
          -- intros k' j. cbn. unfold upd at 1. destruct (Nat.eqb_spec k' k) as [->|NE].
             ++ split; [discriminate|]. intros X. unfold upd in X. destruct (Nat.eqb_spec j i) as [EJ|N]; [discriminate|].
                apply B in X. rewrite BZ in X. inversion X. congruence.
             ++ rewrite B. unfold upd. destruct (Nat.eqb_spec j i) as [->|]; [|reflexivity]. rewrite PI. cbn.
                destruct (Nat.eqb_spec k k'); [congruence|reflexivity].
          -- intros j h'. cbn. unfold upd at 1 3. destruct (Nat.eqb_spec j i) as [->|]; [|apply EE].
             unfold upd. rewrite EV. cbn. now rewrite (Nat.eqb_sym h h').
          -- intros j h' k' n' X. apply FM. eapply R; exact X.
          -- intros j. unfold upd. destruct (Nat.eqb_spec j i) as [->|]; [|apply (dense_at_mono c); [apply A|reflexivity|exact FM]].
             cbn. repeat split; auto. exists (d_next c), sh_new. cbn. now rewrite upd_same.
      + (* NBind *)
        destruct AT as (-> & LT & (n & sh & CK) & ->). rewrite CK in E. inversion E; subst; clear E. exists (Some DUnit), a. split; [auto|].
        split; [reflexivity|]. eapply dstep_bind; eauto; try (intros; rewrite PI; reflexivity). exists sh. exact CK.
      + (* NPeek *)
        destruct AT as [-> ->]. destruct (Nat.ltb_spec k card) as [LT|GE].
        * specialize (CO k). destruct (d_cells c k) as [|b|n sh] eqn:CK; inversion E; subst; clear E.
          -- exists (Some (DFound false)), a. split.
             ++ split; [reflexivity|]. eexists. split; [|reflexivity]. unfold dense_spec. destruct (Nat.ltb_spec k card); [|lia]. now rewrite (proj1 CO).
             ++ split; [reflexivity|]. apply dstep_quiet; auto; try (intros; rewrite PI; reflexivity). exact I.
          -- exists (Some (DFound false)), a. split.
             ++ split; [reflexivity|]. eexists. split; [|reflexivity]. unfold dense_spec. destruct (Nat.ltb_spec k card); [|lia]. now rewrite (proj1 CO).
             ++ split; [reflexivity|]. apply dstep_quiet; auto; try (intros; rewrite PI; reflexivity). exact I.
          -- destruct CO as (st & CS & _). exists (Some (DFound true)), (ad_bind i h k a). split.
             ++ split; [reflexivity|]. eexists. split; [|reflexivity]. unfold dense_spec. destruct (Nat.ltb_spec k card); [|lia]. now rewrite CS.
             ++ split; [reflexivity|]. eapply dstep_bind; eauto; try (intros; rewrite PI; reflexivity).
                ** exists sh. exact CK.
                ** intros h'. cbn. rewrite upd_same. unfold upd. rewrite <- EV. now rewrite (Nat.eqb_sym h' h).
                ** intros j h' NE. cbn. now rewrite upd_other.
        * inversion E; subst; clear E. exists (Some DBad), a. split.
          -- split; [reflexivity|]. eexists. split; [|reflexivity]. unfold dense_spec. destruct (Nat.ltb_spec k card); [lia|reflexivity].
          -- split; [reflexivity|]. apply dstep_quiet; auto; try (intros; rewrite PI; reflexivity). exact I.
      + (* NUse *)
        destruct AT as [-> ->]. destruct (d_env c i h) as [[k' n]|] eqn:DE.
        * destruct (Nat.eqb_spec k' k) as [->|NE]; cbn [negb]; inversion E; subst; clear E.
          -- destruct (di_refs _ _ _ IV _ _ _ _ DE) as [sh CK]. specialize (CO k). rewrite CK in CO. destruct CO as (st & CS & CI).
             exists None, a. split; [auto|].
             eapply dense_inv_ext.
             ++ eapply (dstep_in _ P a i k n sh sh st (Some (DUse h k u, NIn k n (m_begin O u), None))); eauto; try (intros; rewrite PI; reflexivity).
                ** intros k' NE. rewrite PI. cbn. destruct (Nat.eqb_spec k k'); [congruence|reflexivity].
                ** cbn. rewrite Nat.eqb_refl. apply (ok_begin _ _ _ _ _ _ _ O_ok); [exact CI|]. unfold dpend_in. now rewrite PI.
                ** cbn. eauto 6.
             ++ intros k'. cbn. unfold upd. destruct (Nat.eqb_spec k' k) as [->|]; [exact CK|reflexivity].
             ++ reflexivity.
             ++ intros k'. cbn. unfold upd. destruct (Nat.eqb_spec k' k) as [->|]; [exact CS|reflexivity].
             ++ reflexivity.
          -- exists (Some DBad), a. split.
             ++ split; [reflexivity|]. eexists. split; [|reflexivity]. cbn. rewrite EV, DE. cbn. destruct (Nat.eqb_spec k' k); [congruence|reflexivity].
             ++ split; [reflexivity|]. apply dstep_quiet; auto; try (intros; rewrite PI; reflexivity). exact I.
        * inversion E; subst; clear E. exists (Some DBad), a. split.
          -- split; [reflexivity|]. eexists. split; [|reflexivity]. cbn. now rewrite EV, DE.
          -- split; [reflexivity|]. apply dstep_quiet; auto; try (intros; rewrite PI; reflexivity). exact I.
      + (* NIn *)
        destruct AT as (h & u & -> & GV & DE). destruct (di_refs _ _ _ IV _ _ _ _ DE) as [sh CK]. rewrite CK, Nat.eqb_refl in *.
        specialize (CO k). rewrite CK in CO. destruct CO as (st & CS & CI).
        destruct (m_step O i ch m sh) as [[sh' nx]|] eqn:MS; [|discriminate].
        assert (PP : dpend_in P k i = Some (u, m, dinner g)) by (unfold dpend_in; rewrite PI; cbn; now rewrite Nat.eqb_refl).
        destruct (ok_step _ _ _ _ _ _ _ O_ok _ _ _ i ch u m (dinner g) sh' nx CI PP MS) as (g' & st' & LI & NX).
        assert (ABS : exists a', (if linO i ch u m sh
                   then g = None /\ exists r, dspec i (DUse h k u) a = Some (a', r) /\ option_map DVal g' = Some r
                   else option_map DVal g' = g /\ a' = a) /\
                  (forall k', ad_tab a' k' = ad_tab (ad_set k st' a) k') /\ (forall j h', ad_env a' j h' = ad_env a j h')).
        { destruct (linO i ch u m sh).
          - destruct LI as (L1 & r & L2 & ->). exists (ad_set k st' a). split; [|split; reflexivity].
            split; [destruct GV as [->|[r' ->]]; [reflexivity|discriminate]|].
            exists (DVal r). split; [|reflexivity]. cbn. rewrite EV, DE. cbn. rewrite Nat.eqb_refl, CS, L2. reflexivity.
          - destruct LI as [-> ->]. exists a. split; [split; [|reflexivity]; destruct GV as [->|[r' ->]]; reflexivity|].
            split; [|reflexivity]. intros k'. cbn. unfold upd. destruct (Nat.eqb_spec k' k) as [->|]; [exact CS|reflexivity]. }
        destruct ABS as (a' & SP & TA & GA).
        assert (IG : dinner (option_map DVal g') = g') by now destruct g'.
        destruct nx as [m'|r]; inversion E; subst c' nxt; clear E; exists (option_map DVal g'), a'; (split; [exact SP|]).
        * eapply dense_inv_ext; [|reflexivity|reflexivity|exact TA|exact GA].
          eapply (dstep_in _ P a i k n sh sh' st' (Some (DUse h k u, NIn k n m', option_map DVal g'))); eauto; try (intros; rewrite PI; reflexivity).
          -- intros k' NE. rewrite PI. cbn. destruct (Nat.eqb_spec k k'); [congruence|reflexivity].
          -- cbn. rewrite Nat.eqb_refl, IG. exact NX.
          -- cbn. exists h, u. repeat split; auto. destruct g'; cbn; eauto.
        * destruct NX as [-> NX]. split; [reflexivity|].
          eapply dense_inv_ext; [|reflexivity|reflexivity|exact TA|exact GA].
          eapply (dstep_in _ P a i k n sh sh' st' None); eauto; try (intros; rewrite PI; reflexivity).
          -- intros k' NE. rewrite PI. cbn. destruct (Nat.eqb_spec k k'); [congruence|reflexivity].
          -- exact I.
    - intros c P a IV Q k. pose proof (di_cells _ _ _ IV k) as CO. destruct (d_cells c k) as [|b|n sh]; cbn in CO.
      + tauto.
      + tauto.
      + destruct CO as (st & -> & CI). eapply (ok_rep _ _ _ _ _ _ _ O_ok); [exact CI|]. intros j. unfold dpend_in. now rewrite Q.
  Qed.
End Dense.
