(** What a call on a vec returns to a thread depends on the thread's own guards. *)
From Coq Require Import List NArith ZArith Bool Arith Lia.
From Verif Require Import Base ConcModel ConcSpec ConcProofs ConcVecModel ConcVecSpec ConcVec ConcVecTheorems.
Import ListNotations.

Section Handles.
  Context {K Op Res V St : Type}.
  Variable keqb : K -> K -> bool.
  Variable shard_of : K -> nat.
  Variable spec : nat -> Op -> St -> option (St * Res).
  Variable st_new : St.
  Variable aview : St -> V.
  Notation vspec := (vec_spec keqb shard_of spec st_new aview).

  Definition mine (i : nat) (a : avec K St) : list (nat * list K) :=
    flat_map (fun g : aguard => let '(j, h, _, ks) := g in if Nat.eqb j i then [(h, ks)] else []) (a_guards a).

  Lemma mine_find : forall i h a,
    match ag_find i h a with
    | Some (_, _, _, ks) => guard_keys h (mine i a) = Some ks
    | None => guard_keys h (mine i a) = None
    end.
  Proof.
    intros i h a. unfold ag_find, mine, guard_keys. induction (a_guards a) as [|[[[j h'] s] ks] l IH]; [reflexivity|].
    cbn [find flat_map ag_is]. destruct (Nat.eqb j i) eqn:E; cbn [andb app].
    - cbn [find fst]. destruct (Nat.eqb h' h); [reflexivity|exact IH].
    - exact IH.
  Qed.

  Lemma mine_drop : forall i h a,
    mine i {| a_tab := a_tab a; a_guards := filter (fun g => negb (ag_is i h g)) (a_guards a) |} =
    filter (fun p => negb (Nat.eqb (fst p) h)) (mine i a).
  Proof.
    intros i h a. unfold mine. cbn [a_guards]. induction (a_guards a) as [|[[[j h'] s] ks] l IH]; [reflexivity|].
    cbn [filter flat_map ag_is]. destruct (Nat.eqb j i) eqn:E; cbn [andb negb app filter fst].
    - destruct (Nat.eqb h' h); cbn [negb flat_map]; [exact IH|]. rewrite E. cbn. now rewrite IH.
    - cbn [flat_map]. rewrite E. exact IH.
  Qed.

  Lemma mine_drop_other : forall i j h a, j <> i ->
    mine i {| a_tab := a_tab a; a_guards := filter (fun g => negb (ag_is j h g)) (a_guards a) |} = mine i a.
  Proof.
    intros i j h a NE. unfold mine. cbn [a_guards]. induction (a_guards a) as [|[[[j' h'] s] ks] l IH]; [reflexivity|].
    cbn [filter flat_map ag_is]. destruct (Nat.eqb_spec j' j) as [->|N]; cbn [andb negb].
    - assert (Nat.eqb j i = false) as -> by now apply Nat.eqb_neq.
      destruct (Nat.eqb h' h); cbn [negb flat_map]; [exact IH|].
      assert (Nat.eqb j i = false) as -> by now apply Nat.eqb_neq. exact IH.
    - cbn [flat_map]. now rewrite IH.
  Qed.

  Lemma vspec_other : forall i j op a a' r, j <> i -> vspec j op a = Some (a', r) -> mine i a' = mine i a.
  Proof.
    intros i j op a a' r NE H. assert (N : Nat.eqb j i = false) by now apply Nat.eqb_neq.
    destruct op as [h k|h k u|h|k|h s]; cbn [vec_spec] in H.
    - destruct (ag_find j h a); [injection H as <- _; reflexivity|].
      destruct (aget keqb k (a_tab a (shard_of k))); [injection H as <- _; unfold mine; cbn; now rewrite N|].
      destruct (guarded (shard_of k) a); [discriminate|]. injection H as <- _. unfold mine; cbn; now rewrite N.
    - destruct (ag_find j h a) as [[[[? ?] s] ks]|]; [|injection H as <- _; reflexivity].
      destruct (existsb (fun k' => keqb k' k) ks); [|injection H as <- _; reflexivity].
      destruct (aget keqb k (a_tab a s)); [|discriminate]. destruct (spec j u s0) as [[x' r']|]; [|discriminate].
      injection H as <- _. reflexivity.
    - destruct (ag_find j h a); [|injection H as <- _; reflexivity]. injection H as <- _. now apply mine_drop_other.
    - destruct (guarded (shard_of k) a); [discriminate|]. injection H as <- _. reflexivity.
    - destruct (ag_find j h a); [injection H as <- _; reflexivity|]. injection H as <- _. unfold mine; cbn; now rewrite N.
  Qed.

  Lemma vspec_own : forall i op a a' r, vspec i op a = Some (a', r) ->
    returns keqb (mine i a) (op, r) /\ mine i a' = guards_after (mine i a) (op, r).
  Proof.
    intros i op a a' r H. destruct op as [h k|h k u|h|k|h s]; cbn [vec_spec] in H; unfold returns, guards_after; cbn [fst snd].
    - pose proof (mine_find i h a) as F. destruct (ag_find i h a) as [[[[? ?] s] ks]|].
      + injection H as <- <-. now rewrite F.
      + rewrite F. destruct (aget keqb k (a_tab a (shard_of k))).
        { injection H as <- <-. split; [reflexivity|]. unfold mine; cbn; now rewrite Nat.eqb_refl. }
        destruct (guarded (shard_of k) a); [discriminate|]. injection H as <- <-. split; [reflexivity|].
        unfold mine; cbn; now rewrite Nat.eqb_refl.
    - pose proof (mine_find i h a) as F. destruct (ag_find i h a) as [[[[? ?] s] ks]|].
      + rewrite F. destruct (existsb (fun k' => keqb k' k) ks); [|now injection H as <- <-].
        destruct (aget keqb k (a_tab a s)); [|discriminate]. destruct (spec i u s0) as [[x' r']|]; [|discriminate].
        injection H as <- <-. split; [eauto|reflexivity].
      + rewrite F. now injection H as <- <-.
    - pose proof (mine_find i h a) as F. destruct (ag_find i h a) as [[[[? ?] s] ks]|].
      + rewrite F. injection H as <- <-. split; [reflexivity|]. apply mine_drop.
      + rewrite F. injection H as <- <-. split; [reflexivity|].
        unfold guard_keys in F. destruct (find (fun p => Nat.eqb (fst p) h) (mine i a)) as [[? ?]|] eqn:FF; [discriminate|].
        symmetry. pose proof (find_none _ _ FF) as FN. clear -FN. induction (mine i a) as [|x l IH]; [reflexivity|].
        cbn [filter]. rewrite (FN x (or_introl eq_refl)). cbn. f_equal. apply IH. intros y Hy. apply FN. now right.
    - destruct (guarded (shard_of k) a); [discriminate|]. injection H as <- <-. split; [eauto|reflexivity].
    - pose proof (mine_find i h a) as F. destruct (ag_find i h a) as [[[[? ?] s'] ks]|].
      + injection H as <- <-. now rewrite F.
      + rewrite F. injection H as <- <-. split; [eauto|]. unfold mine; cbn; now rewrite Nat.eqb_refl.
  Qed.

  Lemma legal_returns : forall i a log a', legal vspec a log a' -> returns_all keqb (mine i a) (of_thread i log).
  Proof.
    intros i a log a'. induction 1 as [|a j op r a1 log a2 H L IH]; [exact I|].
    unfold of_thread. cbn [filter map fst snd]. destruct (Nat.eqb_spec j i) as [->|NE].
    - cbn [map fst snd]. destruct (vspec_own _ _ _ _ _ H) as [R E]. split; [exact R|]. rewrite <- E. exact IH.
    - rewrite <- (vspec_other i j op a a1 r NE H). exact IH.
  Qed.
End Handles.

Lemma returns_all_app : forall K Op Res V keqb gs (a b : list (vec_op K Op * vec_res K Res V)),
  returns_all keqb gs (a ++ b) <-> returns_all keqb gs a /\ returns_all keqb (fold_left guards_after a gs) b.
Proof.
  intros K Op Res V keqb gs a. revert gs. induction a as [|d a IH]; intros gs b; cbn; [tauto|]. rewrite IH. tauto.
Qed.

(** What calls on a vec return, from the guards of the thread. *)
Theorem any_handles : forall K Sh Op Res Mic V St keqb (keqb_eq : forall x y : K, keqb x y = true <-> x = y) shard_of
  (O : machine Sh Op Res Mic) sh_new (view : Sh -> V) spec (st_new : St) aview, good_metric O sh_new view spec st_new aview ->
  forall prog s i, returns_all keqb [] (t_done (c_th (run (sparse_machine keqb shard_of O sh_new view) prog s (start_config sv_new)) i)).
Proof.
  intros K Sh Op Res Mic V St keqb keqb_eq shard_of O sh_new view spec st_new aview good prog s i.
  destruct (any_linearizable keqb keqb_eq shard_of O sh_new view spec st_new aview good prog) as (L & _ & H).
  destruct (H s) as (E & a & LG & _).
  pose proof (legal_returns keqb shard_of spec st_new aview i _ _ _ LG) as RA. change (mine i av_new) with (@nil (nat * list K)) in RA.
  destruct (E i) as [E'|(op & mic & r & _ & E')]; rewrite E' in RA; [exact RA|].
  apply returns_all_app in RA. apply RA.
Qed.
