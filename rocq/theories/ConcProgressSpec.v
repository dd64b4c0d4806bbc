(** Deadlocks. *)
From Coq Require Import List NArith ZArith Bool Arith.
From Verif Require Import Base FloatModel MetricModel ConcModel ConcSpec ConcProofs ConcVecModel ConcVecSpec.
Import ListNotations.

(** Thread [j] can take a step under choice [ch]: start its next call or go on
    with the one it is in. *)
Definition enabled {Sh Op Res Mic} (M : machine Sh Op Res Mic) (prog : program Op Res) (ch : nat) (c : config Sh Op Res Mic) (j : nat) : Prop :=
  match t_cur (c_th c j) with
  | None => prog j (t_done (c_th c j)) <> None
  | Some (_, mic) => m_step M j ch mic (c_sh c) <> None
  end.

(** No reachable state has something to do and nobody who can do it; the thread
    that goes on does so whatever the hardware and the locks decide. *)
Definition deadlock_free {Sh Op Res Mic} (M : machine Sh Op Res Mic) (sh0 : Sh) (prog : program Op Res) : Prop :=
  forall s, let c := run M prog s (start_config sh0) in
    (exists i, active prog c i) -> exists j, active prog c j /\ forall ch, enabled M prog ch c j.

(** A metric that is linearizable by itself and in which somebody can always go on. *)
Definition lively_metric {Sh Op Res Mic V St} (O : machine Sh Op Res Mic) (sh_new : Sh) (view : Sh -> V)
  (spec : nat -> Op -> St -> option (St * Res)) (st_new : St) (aview : St -> V) : Prop :=
  exists lin inv rep, object_ok O spec lin inv sh_new st_new rep /\ (forall sh st, rep sh st -> view sh = aview st) /\
    (forall sh P st i x, inv sh P st -> P i = Some x ->
       exists j op mic g, P j = Some (op, mic, g) /\ forall ch, m_step O j ch mic sh <> None).

Section Discipline.
  Context {K Op Res V : Type}.
  Notation vop := (vec_op K Op).
  Notation vres := (vec_res K Res V).

  (** The guards a thread has after the given calls. *)
  Definition handles (done : list (vop * vres)) : list nat :=
    fold_left (fun hs d => match d with
      | (SGet h _, RUnit) | (SOpen h _, RKeys _) => h :: hs
      | (SDrop h, RUnit) => filter (fun h' => negb (Nat.eqb h' h)) hs
      | _ => hs
      end) done [].

  (** Results a thread can get after the given calls. *)
  Definition fits (done : list (vop * vres)) (op : vop) (r : vres) : Prop :=
    match op, r with
    | SGet h _, RUnit | SOpen h _, RKeys _ | SDrop h, RBad => ~ In h (handles done)
    | SGet h _, RBad | SOpen h _, RBad | SDrop h, RUnit => In h (handles done)
    | SUse _ _ _, (RVal _ | RBad) | SRemove _, RRemoved _ => True
    | _, _ => False
    end.

  (** The histories of thread [i] under a program. *)
  Inductive history (prog : program vop vres) (i : nat) : list (vop * vres) -> Prop :=
  | History_nil : history prog i []
  | History_snoc : forall done op r, history prog i done -> prog i done = Some op -> fits done op r ->
      history prog i (done ++ [(op, r)]).

  (** A thread that has a guard next uses or drops a guard. *)
  Definition one_guard (prog : program vop vres) : Prop :=
    forall i done, history prog i done -> handles done <> [] ->
      match prog i done with Some (SUse _ _ _) | Some (SDrop _) => True | _ => False end.

  (** The same for lists of calls. *)
  Fixpoint takes_turns (held : option nat) (l : list vop) : bool :=
    match l, held with
    | [], None => true
    | SGet h _ :: t, None | SOpen h _ :: t, None => takes_turns (Some h) t
    | SRemove _ :: t, None => takes_turns None t
    | SUse h _ _ :: t, Some h' => Nat.eqb h h' && takes_turns held t
    | SDrop h :: t, Some h' => Nat.eqb h h' && takes_turns None t
    | _, _ => false
    end.
End Discipline.
