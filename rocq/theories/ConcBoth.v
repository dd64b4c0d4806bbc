(** Runs of two objects side by side, seen as runs of each. *)
From Coq Require Import List NArith ZArith Bool Arith Lia.
From Verif Require Import Base ConcModel ConcSpec ConcProofs ConcLabelProofs ConcCallModel.
Import ListNotations.

Section Part.
  (** The thread of a part. *)
  Context {Op Res Mic Op1 Res1 Mic1 : Type}.
  Variable sel_op : Op -> option Op1.
  Variable sel_res : Res -> option Res1.
  Variable sel_mic : Mic -> option Mic1.

  Definition sel_done (l : list (Op * Res)) : list (Op1 * Res1) :=
    flat_map (fun d => match sel_op (fst d), sel_res (snd d) with Some o, Some r => [(o, r)] | _, _ => [] end) l.
  Definition sel_cur (c : option (Op * Mic)) : option (Op1 * Mic1) :=
    match c with
    | Some (op, mic) => match sel_op op, sel_mic mic with Some o, Some m => Some (o, m) | _, _ => None end
    | None => None
    end.
  Definition sel_thread (t : thread Op Res Mic) : thread Op1 Res1 Mic1 :=
    {| t_cur := sel_cur (t_cur t); t_done := sel_done (t_done t) |}.

  Lemma sel_done_app : forall a b, sel_done (a ++ b) = sel_done a ++ sel_done b.
  Proof. intros a b. unfold sel_done. now rewrite flat_map_app. Qed.
End Part.

(** Programs given by lists, schedules without idle turns. *)
Section Exact.
  Context {Sh Op Res Mic : Type}.
  Variable M : machine Sh Op Res Mic.
  Variable sh0 : Sh.

  Definition extends (l l' : nat -> list Op) : Prop := forall i, exists t, l' i = l i ++ t.
  Lemma extends_refl : forall l, extends l l.
  Proof. intros l i. exists []. now rewrite app_nil_r. Qed.
  Lemma extends_trans : forall a b c, extends a b -> extends b c -> extends a c.
  Proof. intros a b c H1 H2 i. destruct (H1 i) as [t1 E1], (H2 i) as [t2 E2]. exists (t1 ++ t2). now rewrite E2, E1, app_assoc. Qed.

  (** Started calls of a thread. *)
  Definition begun (t : thread Op Res Mic) : list Op :=
    map fst (t_done t) ++ match t_cur t with Some (op, _) => [op] | None => [] end.

  (** However the lists go on, [s] leads to this state. *)
  Definition exactly (l : nat -> list Op) (s : schedule) (sh : Sh) (th : nat -> thread Op Res Mic) : Prop :=
    (forall i, l i = begun (th i)) /\
    forall l', extends l l' -> let c := run M (calls l') s (start_config sh0) in
      c_sh c = sh /\ forall i, c_th c i = th i.

  Lemma exactly_start : exactly (fun _ => []) [] sh0 (fun _ => {| t_cur := None; t_done := [] |}).
  Proof. split; [reflexivity|]. intros l' _. cbn. auto. Qed.

  Lemma exactly_ext : forall l s sh th sh' th', exactly l s sh th -> sh = sh' -> (forall i, th i = th' i) -> exactly l s sh' th'.
  Proof.
    intros l s sh th sh' th' [H1 H2] <- E. split.
    - intros i. now rewrite <- E.
    - intros l' X. destruct (H2 l' X) as [A B]. split; [exact A|]. intros i. now rewrite <- E.
  Qed.

  Lemma exactly_begin : forall l s sh th i op, exactly l s sh th -> t_cur (th i) = None ->
    exactly (upd l i (l i ++ [op])) (s ++ [(i, 0)]) sh
      (upd th i {| t_cur := Some (op, m_begin M op); t_done := t_done (th i) |}).
  Proof.
    intros l s sh th i op [H1 H2] CUR. split.
    - intros j. destruct (Nat.eq_dec j i) as [->|NE]; [rewrite !upd_same|rewrite !upd_other by exact NE; apply H1].
      rewrite H1. unfold begun. rewrite CUR. cbn. now rewrite app_nil_r.
    - intros l' X. assert (X0 : extends l l').
      { intros j. destruct (X j) as [t E]. destruct (Nat.eq_dec j i) as [->|NE].
        - rewrite upd_same in E. exists ([op] ++ t). rewrite E. now rewrite <- app_assoc.
        - rewrite upd_other in E by exact NE. eauto. }
      destruct (H2 l' X0) as [A B]. cbn zeta. rewrite run_app. set (c := run M (calls l') s (start_config sh0)) in *.
      cbn [run]. unfold step. rewrite B, CUR. unfold calls.
      assert (nth_error (l' i) (length (t_done (th i))) = Some op) as ->.
      { destruct (X i) as [t E]. rewrite upd_same in E. rewrite E. pose proof (H1 i) as Hl. unfold begun in Hl.
        rewrite CUR, app_nil_r in Hl. rewrite <- app_assoc, nth_error_app2; rewrite Hl, map_length; [|lia].
        now rewrite Nat.sub_diag. }
      cbn [c_sh c_th]. split; [exact A|]. intros j. destruct (Nat.eq_dec j i) as [->|NE]; [now rewrite !upd_same|].
      rewrite !upd_other by exact NE. apply B.
  Qed.

  Lemma exactly_step : forall l s sh th i ch op mic sh' nxt, exactly l s sh th -> t_cur (th i) = Some (op, mic) ->
    m_step M i ch mic sh = Some (sh', nxt) ->
    exactly l (s ++ [(i, ch)]) sh'
      (upd th i match nxt with
                | inl mic' => {| t_cur := Some (op, mic'); t_done := t_done (th i) |}
                | inr r => {| t_cur := None; t_done := t_done (th i) ++ [(op, r)] |}
                end).
  Proof.
    intros l s sh th i ch op mic sh' nxt [H1 H2] CUR ST. split.
    - intros j. destruct (Nat.eq_dec j i) as [->|NE]; [rewrite !upd_same|rewrite !upd_other by exact NE; apply H1].
      rewrite H1. unfold begun. rewrite CUR. destruct nxt; cbn; [reflexivity|]. now rewrite map_app, app_nil_r.
    - intros l' X. destruct (H2 l' X) as [A B]. cbn zeta. rewrite run_app.
      set (c := run M (calls l') s (start_config sh0)) in *.
      cbn [run]. unfold step. rewrite B, CUR, A, ST. destruct nxt; cbn [c_sh c_th]; (split; [reflexivity|]); intros j;
        (destruct (Nat.eq_dec j i) as [->|NE]; [now rewrite !upd_same|rewrite !upd_other by exact NE; apply B]).
  Qed.
End Exact.

Section Both.
  Context {Sh1 Op1 Res1 Mic1 Sh2 Op2 Res2 Mic2 : Type}.
  Variable M1 : machine Sh1 Op1 Res1 Mic1.
  Variable M2 : machine Sh2 Op2 Res2 Mic2.
  Variable sh1 : Sh1.
  Variable sh2 : Sh2.
  Variable prog : program (Op1 + Op2) (Res1 + Res2).
  Notation B := (both M1 M2).
  Notation cfg s := (run B prog s (start_config (sh1, sh2))).

  Definition left_of {X Y} (x : X + Y) : option X := match x with inl a => Some a | inr _ => None end.
  Definition right_of {X Y} (x : X + Y) : option Y := match x with inl _ => None | inr b => Some b end.
  Definition left_thread := @sel_thread (Op1 + Op2) (Res1 + Res2) (Mic1 + Mic2) Op1 Res1 Mic1 left_of left_of left_of.
  Definition right_thread := @sel_thread (Op1 + Op2) (Res1 + Res2) (Mic1 + Mic2) Op2 Res2 Mic2 right_of right_of right_of.

  (** Calls and the states they are in belong to the same part. *)
  Definition same_side (t : thread (Op1 + Op2) (Res1 + Res2) (Mic1 + Mic2)) : Prop :=
    match t_cur t with
    | Some (inl _, inl _) | Some (inr _, inr _) | None => True
    | _ => False
    end /\
    Forall (fun d => match d with (inl _, inl _) | (inr _, inr _) => True | _ => False end) (t_done t).

  Lemma upd_sel : forall {X Y} (f : X -> Y) (a : nat -> X) i x j, f (upd a i x j) = upd (fun k => f (a k)) i (f x) j.
  Proof. intros. destruct (Nat.eq_dec j i) as [->|NE]; [now rewrite !upd_same|now rewrite !upd_other]. Qed.

  Definition parts_at (s : schedule) (l1 : nat -> list Op1) (s1 : schedule) (l2 : nat -> list Op2) (s2 : schedule) : Prop :=
    exactly M1 sh1 l1 s1 (fst (c_sh (cfg s))) (fun i => left_thread (c_th (cfg s) i)) /\
    exactly M2 sh2 l2 s2 (snd (c_sh (cfg s))) (fun i => right_thread (c_th (cfg s) i)).

  Lemma parts_step : forall s ic l1 s1 l2 s2,
    parts_at s l1 s1 l2 s2 -> (forall i, same_side (c_th (cfg s) i)) ->
    (forall i, same_side (c_th (cfg (s ++ [ic])) i)) /\
    exists l1' t1 l2' t2, length t1 <= 1 /\ length t2 <= 1 /\ extends l1 l1' /\ extends l2 l2' /\ parts_at (s ++ [ic]) l1' (s1 ++ t1) l2' (s2 ++ t2).
  Proof.
    intros s [i ch] l1 s1 l2 s2 [P1 P2] SS. unfold parts_at. rewrite run_app.
    set (c := cfg s) in *. cbn [run]. unfold step. pose proof (SS i) as [SC SD].
    destruct (t_cur (c_th c i)) as [[op mic]|] eqn:CUR.
    - destruct op as [op|op], mic as [mic|mic]; try contradiction.
      + cbn [m_step both both_step]. destruct (m_step M1 i ch mic (fst (c_sh c))) as [[sh' nxt]|] eqn:MS.
        2:{ split; [exact SS|]. exists l1, [], l2, []. split; [cbn; lia|split; [cbn; lia|]]. rewrite !app_nil_r. split; [apply extends_refl|split; [apply extends_refl|split; [exact P1|exact P2]]]. }
        assert (C1 : t_cur (left_thread (c_th c i)) = Some (op, mic)) by (unfold left_thread, sel_thread; cbn; now rewrite CUR).
        pose proof (exactly_step _ _ _ _ _ _ i ch op mic sh' nxt P1 C1 MS) as E1.
        destruct nxt as [mic'|r]; cbn [c_sh c_th fst snd].
        * split.
          { intros j. destruct (Nat.eq_dec j i) as [->|NE]; [rewrite upd_same|rewrite upd_other by exact NE; apply SS].
            split; cbn; [exact I|exact SD]. }
          exists l1, [(i, ch)], l2, []. split; [cbn; lia|split; [cbn; lia|]]. rewrite app_nil_r. split; [apply extends_refl|]. split; [apply extends_refl|]. split.
          -- eapply exactly_ext; [exact E1|reflexivity|]. intros j. rewrite (upd_sel left_thread). reflexivity.
          -- eapply exactly_ext; [exact P2|reflexivity|]. intros j. rewrite (upd_sel right_thread).
             destruct (Nat.eq_dec j i) as [->|NE]; [rewrite upd_same|now rewrite upd_other].
             unfold right_thread, sel_thread. cbn. rewrite CUR. reflexivity.
        * split.
          { intros j. destruct (Nat.eq_dec j i) as [->|NE]; [rewrite upd_same|rewrite upd_other by exact NE; apply SS].
            split; cbn; [exact I|]. apply Forall_app. split; [exact SD|]. now constructor. }
          exists l1, [(i, ch)], l2, []. split; [cbn; lia|split; [cbn; lia|]]. rewrite app_nil_r. split; [apply extends_refl|]. split; [apply extends_refl|]. split.
          -- eapply exactly_ext; [exact E1|reflexivity|]. intros j. rewrite (upd_sel left_thread).
             destruct (Nat.eq_dec j i) as [->|NE]; [rewrite !upd_same|now rewrite !upd_other].
             unfold left_thread, sel_thread. cbn [t_cur t_done sel_cur]. now rewrite sel_done_app.
          -- eapply exactly_ext; [exact P2|reflexivity|]. intros j. rewrite (upd_sel right_thread).
             destruct (Nat.eq_dec j i) as [->|NE]; [rewrite upd_same|now rewrite upd_other].
             unfold right_thread, sel_thread. cbn [t_cur t_done]. rewrite CUR, sel_done_app. cbn. now rewrite app_nil_r.
      + cbn [m_step both both_step]. destruct (m_step M2 i ch mic (snd (c_sh c))) as [[sh' nxt]|] eqn:MS.
        2:{ split; [exact SS|]. exists l1, [], l2, []. split; [cbn; lia|split; [cbn; lia|]]. rewrite !app_nil_r. split; [apply extends_refl|split; [apply extends_refl|split; [exact P1|exact P2]]]. }
        assert (C1 : t_cur (right_thread (c_th c i)) = Some (op, mic)) by (unfold right_thread, sel_thread; cbn; now rewrite CUR).
        pose proof (exactly_step _ _ _ _ _ _ i ch op mic sh' nxt P2 C1 MS) as E1.
        destruct nxt as [mic'|r]; cbn [c_sh c_th fst snd].
        * split.
          { intros j. destruct (Nat.eq_dec j i) as [->|NE]; [rewrite upd_same|rewrite upd_other by exact NE; apply SS].
            split; cbn; [exact I|exact SD]. }
          exists l1, [], l2, [(i, ch)]. split; [cbn; lia|split; [cbn; lia|]]. rewrite app_nil_r. split; [apply extends_refl|]. split; [apply extends_refl|]. split.
          -- eapply exactly_ext; [exact P1|reflexivity|]. intros j. rewrite (upd_sel left_thread).
             destruct (Nat.eq_dec j i) as [->|NE]; [rewrite upd_same|now rewrite upd_other].
             unfold left_thread, sel_thread. cbn. rewrite CUR. reflexivity.
          -- eapply exactly_ext; [exact E1|reflexivity|]. intros j. rewrite (upd_sel right_thread). reflexivity.
        * split.
          { intros j. destruct (Nat.eq_dec j i) as [->|NE]; [rewrite upd_same|rewrite upd_other by exact NE; apply SS].
            split; cbn; [exact I|]. apply Forall_app. split; [exact SD|]. now constructor. }
          exists l1, [], l2, [(i, ch)]. split; [cbn; lia|split; [cbn; lia|]]. rewrite app_nil_r. split; [apply extends_refl|]. split; [apply extends_refl|]. split.
          -- eapply exactly_ext; [exact P1|reflexivity|]. intros j. rewrite (upd_sel left_thread).
             destruct (Nat.eq_dec j i) as [->|NE]; [rewrite upd_same|now rewrite upd_other].
             unfold left_thread, sel_thread. cbn [t_cur t_done]. rewrite CUR, sel_done_app. cbn. now rewrite app_nil_r.
          -- eapply exactly_ext; [exact E1|reflexivity|]. intros j. rewrite (upd_sel right_thread).
             destruct (Nat.eq_dec j i) as [->|NE]; [rewrite !upd_same|now rewrite !upd_other].
             unfold right_thread, sel_thread. cbn [t_cur t_done sel_cur]. now rewrite sel_done_app.
    - destruct (prog i (t_done (c_th c i))) as [op|] eqn:PR.
      2:{ split; [exact SS|]. exists l1, [], l2, []. split; [cbn; lia|split; [cbn; lia|]]. rewrite !app_nil_r. split; [apply extends_refl|split; [apply extends_refl|split; [exact P1|exact P2]]]. }
      split.
      { intros j. cbn [c_th]. destruct (Nat.eq_dec j i) as [->|NE]; [rewrite upd_same|rewrite upd_other by exact NE; apply SS].
        split; cbn; [destruct op; exact I|exact SD]. }
      cbn [c_sh c_th].
      assert (N1 : t_cur (left_thread (c_th c i)) = None) by (unfold left_thread, sel_thread; cbn; now rewrite CUR).
      assert (N2 : t_cur (right_thread (c_th c i)) = None) by (unfold right_thread, sel_thread; cbn; now rewrite CUR).
      destruct op as [op|op].
      + exists (upd l1 i (l1 i ++ [op])), [(i, 0)], l2, []. split; [cbn; lia|split; [cbn; lia|]]. rewrite app_nil_r.
        split. { intros j. destruct (Nat.eq_dec j i) as [->|NE]; [rewrite upd_same; eauto|rewrite upd_other by exact NE; apply extends_refl]. }
        split; [apply extends_refl|]. split.
        * eapply exactly_ext; [apply (exactly_begin _ _ _ _ _ _ i op P1 N1)|reflexivity|]. intros j. rewrite (upd_sel left_thread). reflexivity.
        * eapply exactly_ext; [exact P2|reflexivity|]. intros j. rewrite (upd_sel right_thread).
          destruct (Nat.eq_dec j i) as [->|NE]; [rewrite upd_same|now rewrite upd_other].
          unfold right_thread, sel_thread. cbn. rewrite CUR. reflexivity.
      + exists l1, [], (upd l2 i (l2 i ++ [op])), [(i, 0)]. split; [cbn; lia|split; [cbn; lia|]]. rewrite app_nil_r. split; [apply extends_refl|].
        split. { intros j. destruct (Nat.eq_dec j i) as [->|NE]; [rewrite upd_same; eauto|rewrite upd_other by exact NE; apply extends_refl]. }
        split.
        * eapply exactly_ext; [exact P1|reflexivity|]. intros j. rewrite (upd_sel left_thread).
          destruct (Nat.eq_dec j i) as [->|NE]; [rewrite upd_same|now rewrite upd_other].
          unfold left_thread, sel_thread. cbn. rewrite CUR. reflexivity.
        * eapply exactly_ext; [apply (exactly_begin _ _ _ _ _ _ i op P2 N2)|reflexivity|]. intros j. rewrite (upd_sel right_thread). reflexivity.
  Qed.

  Lemma sides : forall s i, same_side (c_th (cfg s) i).
  Proof.
    assert (H : forall s, (forall i, same_side (c_th (cfg s) i)) /\ exists l1 s1 l2 s2, parts_at s l1 s1 l2 s2).
    { induction s as [|ic s (SS & l1 & s1 & l2 & s2 & P)] using rev_ind.
      - split; [intros i; split; cbn; auto|]. exists (fun _ => []), [], (fun _ => []), []. split; apply exactly_start.
      - destruct (parts_step s ic l1 s1 l2 s2 P SS) as (SS' & l1' & t1 & l2' & t2 & _ & _ & _ & _ & P'). split; [exact SS'|].
        now exists l1', (s1 ++ t1), l2', (s2 ++ t2). }
    intros s. apply (H s).
  Qed.

  Lemma parts_start : parts_at [] (fun _ => []) [] (fun _ => []) [].
  Proof. split; apply exactly_start. Qed.

  Lemma parts_more : forall s' s l1 s1 l2 s2, parts_at s l1 s1 l2 s2 ->
    exists l1' t1 l2' t2, extends l1 l1' /\ extends l2 l2' /\ parts_at (s ++ s') l1' (s1 ++ t1) l2' (s2 ++ t2).
  Proof.
    induction s' as [|ic s' IH] using rev_ind; intros s l1 s1 l2 s2 P.
    - exists l1, [], l2, []. rewrite !app_nil_r. auto using extends_refl.
    - destruct (IH s l1 s1 l2 s2 P) as (a & ta & b & tb & Xa & Xb & P').
      destruct (parts_step _ ic _ _ _ _ P' (sides (s ++ s'))) as (_ & a' & ta' & b' & tb' & _ & _ & Xa' & Xb' & P'').
      exists a', (ta ++ ta'), b', (tb ++ tb'). rewrite !app_assoc in *. eauto using extends_trans.
  Qed.
End Both.
