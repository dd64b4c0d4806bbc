(** Threads that follow scripts: what their operations add up to. *)
From Coq Require Import List NArith ZArith Bool Arith Lia.
From Verif Require Import Base ConcModel ConcSpec ConcProofs ConcLabelProofs ConcCallModel.
Import ListNotations.

Section Path.
  Context {Call St Op Res : Type}.
  Variable s_init : Call -> St.
  Variable s_next : St -> option Op.
  Variable s_adv : St -> Res -> St.

  (** From state [st0] the method does [tr] and is in the last state then. *)
  Inductive path (st0 : St) : trace Op Res -> St -> Prop :=
  | path_nil : path st0 [] st0
  | path_snoc : forall tr st op r, path st0 tr st -> s_next st = Some op -> path st0 (tr ++ [(op, r)]) (s_adv st r).

  Notation h_step := (h_step s_init s_next s_adv).
  Notation history_of := (history_of s_init s_next s_adv).
  Notation after := (after s_next).

  Definition cur_trace (h : history Call St Op Res) : trace Op Res :=
    match h_cur h with Some (_, _, tr) => tr | None => [] end.

  Record good (calls : list (Call * trace Op Res) -> option Call) (done : trace Op Res) (h : history Call St Op Res) : Prop := {
    g_done : done = flat_map snd (h_done h) ++ cur_trace h;
    g_paths : forall call tr, In (call, tr) (h_done h) ->
      (exists st, path (s_init call) tr st /\ s_next st = None) /\ exists hd, calls hd = Some call;
    g_cur : match h_cur h with
            | Some (call, st, tr) => path (s_init call) tr st /\ s_next st <> None /\ exists hd, calls hd = Some call
            | None => True
            end
  }.

  Definition next_op (calls : list (Call * trace Op Res) -> option Call) (h : history Call St Op Res) : option Op :=
    match h_cur h with
    | Some (_, st, _) => s_next st
    | None => match calls (h_done h) with Some call => s_next (s_init call) | None => None end
    end.

  (** The call a thread is in or about to begin, and how far it is. *)
  Lemma next_call : forall calls done h op, good calls done h -> next_op calls h = Some op ->
    exists call tr st, path (s_init call) tr st /\ s_next st = Some op /\ tr = cur_trace h /\ exists hd, calls hd = Some call.
  Proof.
    intros calls done h op [D P C] N. unfold next_op, cur_trace in *. destruct (h_cur h) as [[[call st] tr]|].
    - destruct C as (C1 & C2 & C3). exists call, tr, st. auto.
    - destruct (calls (h_done h)) as [call|] eqn:E; [|discriminate]. exists call, [], (s_init call).
      split; [constructor|]. split; [exact N|]. split; [reflexivity|eauto].
  Qed.

  Lemma after_good : forall calls hd call st tr, (exists hd, calls hd = Some call) -> path (s_init call) tr st ->
    (forall call tr, In (call, tr) hd -> (exists st, path (s_init call) tr st /\ s_next st = None) /\ exists hd, calls hd = Some call) ->
    good calls (flat_map snd hd ++ tr) (after call st tr hd).
  Proof.
    intros calls hd call st tr HC HP HD. unfold after. destruct (s_next st) as [op|] eqn:N; split; cbn [h_done h_cur cur_trace].
    - reflexivity.
    - exact HD.
    - split; [exact HP|]. split; [congruence|exact HC].
    - unfold cur_trace. cbn. now rewrite flat_map_app, app_nil_r; cbn; rewrite app_nil_r.
    - intros c t H. apply in_app_or in H as [H|[H|[]]]; [now apply HD|]. injection H as <- <-. split; [eauto|exact HC].
    - exact I.
  Qed.

  Lemma good_step : forall calls done h op r, good calls done h -> next_op calls h = Some op ->
    good calls (done ++ [(op, r)]) (h_step calls h (op, r)).
  Proof.
    intros calls done h op r [D P C] N. unfold h_step, next_op, cur_trace in *. cbn [snd].
    destruct (h_cur h) as [[[call st] tr]|].
    - destruct C as (C1 & C2 & C3). rewrite D, <- app_assoc. apply after_good; [exact C3|now constructor|exact P].
    - destruct (calls (h_done h)) as [call|] eqn:E; [|discriminate]. rewrite D, app_nil_r. apply after_good; [eauto| |exact P].
      change [(op, r)] with ([] ++ [(op, r)]). now constructor; [constructor|].
  Qed.

  Lemma history_snoc : forall calls done d, history_of calls (done ++ [d]) = h_step calls (history_of calls done) d.
  Proof. intros. unfold history_of. now rewrite fold_left_app. Qed.

  Lemma good_start : forall calls, good calls [] (history_of calls []).
  Proof. intros calls. split; cbn; [reflexivity|easy|exact I]. Qed.

  Section Run.
    Context {Sh Mic : Type}.
    Variable M : machine Sh Op Res Mic.
    Variable sh0 : Sh.
    Variable P : nat -> list (Call * trace Op Res) -> option Call.
    Notation prog := (follow s_init s_next s_adv P).

    Definition hist (c : config Sh Op Res Mic) (i : nat) := history_of (P i) (t_done (c_th c i)).

    Lemma run_good : forall s i, let c := run M prog s (start_config sh0) in
      good (P i) (t_done (c_th c i)) (hist c i) /\
      match t_cur (c_th c i) with Some (op, _) => next_op (P i) (hist c i) = Some op | None => True end.
    Proof.
      induction s as [|[j ch] s IH] using rev_ind; intros i; cbn zeta in *.
      - split; cbn; [apply good_start|exact I].
      - rewrite run_app. set (c := run M prog s (start_config sh0)) in *. cbn [run]. unfold step.
        destruct (t_cur (c_th c j)) as [[op mic]|] eqn:CUR.
        + destruct (m_step M j ch mic (c_sh c)) as [[sh' [mic'|r]]|]; [..|apply IH]; unfold hist; cbn [c_th];
            (destruct (Nat.eq_dec i j) as [->|NE]; [rewrite upd_same|rewrite upd_other by exact NE; apply IH]); cbn [t_done t_cur].
          * specialize (IH j). rewrite CUR in IH. exact IH.
          * specialize (IH j). rewrite CUR in IH. destruct IH as [G N]. split; [|exact I].
            rewrite history_snoc. now apply good_step.
        + destruct (prog j (t_done (c_th c j))) as [op|] eqn:PR; [|apply IH]; unfold hist; cbn [c_th].
          destruct (Nat.eq_dec i j) as [->|NE]; [rewrite upd_same|rewrite upd_other by exact NE; apply IH]; cbn [t_done t_cur].
          split; [apply IH|]. exact PR.
    Qed.
  End Run.
End Path.
