(** From an invariant with linearization points to linearizability. *)
From Coq Require Import List NArith ZArith Bool Arith Lia.
From Verif Require Import Base FloatModel MetricModel ConcModel ConcSpec.
Import ListNotations.

Lemma upd_same : forall A (f : nat -> A) i x, upd f i x i = x.
Proof. intros. unfold upd. now rewrite Nat.eqb_refl. Qed.
Lemma upd_other : forall A (f : nat -> A) i x j, j <> i -> upd f i x j = f j.
Proof. intros A f i x j N. unfold upd. now destruct (Nat.eqb_spec j i). Qed.
Lemma upd_upd : forall A (f : nat -> A) i x y j, upd (upd f i x) i y j = upd f i y j.
Proof. intros A f i x y j. unfold upd. now destruct (Nat.eqb j i). Qed.
Lemma upd_id : forall A (f : nat -> A) i j, upd f i (f i) j = f j.
Proof. intros A f i j. unfold upd. now destruct (Nat.eqb_spec j i); subst. Qed.

Section Generic.
  Context {Sh Op Res Mic St : Type}.
  Variable M : machine Sh Op Res Mic.
  Variable spec : nat -> Op -> St -> option (St * Res).
  (** Calls in progress, with the result if they have taken effect already. *)
  Definition pending := nat -> option (Op * Mic * option Res).
  (** Does this step make the call take effect? *)
  Variable lin : nat -> nat -> Op -> Mic -> Sh -> bool.
  Variable inv : Sh -> pending -> St -> Prop.

  Record object_ok (sh0 : Sh) (st0 : St) (rep : Sh -> St -> Prop) : Prop := {
    ok_init : inv sh0 (fun _ => None) st0;
    ok_ext : forall sh (P Q : pending) st, (forall i, P i = Q i) -> inv sh P st -> inv sh Q st;
    ok_begin : forall sh P st i op, inv sh P st -> P i = None ->
      inv sh (upd P i (Some (op, m_begin M op, None))) st;
    ok_step : forall sh P st i ch op mic g sh' nxt, inv sh P st -> P i = Some (op, mic, g) ->
      m_step M i ch mic sh = Some (sh', nxt) ->
      exists g' st',
        (if lin i ch op mic sh then g = None /\ exists r, spec i op st = Some (st', r) /\ g' = Some r
         else g' = g /\ st' = st) /\
        match nxt with
        | inl mic' => inv sh' (upd P i (Some (op, mic', g'))) st'
        | inr r => g' = Some r /\ inv sh' (upd P i None) st'
        end;
    ok_rep : forall sh P st, inv sh P st -> (forall i, P i = None) -> rep sh st
  }.

  Record gstate := { g_c : config Sh Op Res Mic; g_lin : nat -> option Res; g_st : St; g_log : list (@entry Op Res) }.

  Definition gstep (prog : program Op Res) (ic : nat * nat) (g : gstate) : gstate :=
    let (i, ch) := ic in
    let c := g_c g in
    let c' := step M prog ic c in
    match t_cur (c_th c i) with
    | None => {| g_c := c'; g_lin := g_lin g; g_st := g_st g; g_log := g_log g |}
    | Some (op, mic) =>
      match m_step M i ch mic (c_sh c) with
      | None => {| g_c := c'; g_lin := g_lin g; g_st := g_st g; g_log := g_log g |}
      | Some (_, nxt) =>
        let '(l, st, log) :=
          if lin i ch op mic (c_sh c) then
            match spec i op (g_st g) with
            | Some (st', r) => (Some r, st', g_log g ++ [(i, op, r)])
            | None => (g_lin g i, g_st g, g_log g)
            end
          else (g_lin g i, g_st g, g_log g) in
        {| g_c := c'; g_lin := upd (g_lin g) i (match nxt with inl _ => l | inr _ => None end);
           g_st := st; g_log := log |}
      end
    end.

  Fixpoint grun (prog : program Op Res) (s : schedule) (g : gstate) : gstate :=
    match s with
    | [] => g
    | ic :: rest => grun prog rest (gstep prog ic g)
    end.

  Lemma gstep_c : forall prog ic g, g_c (gstep prog ic g) = step M prog ic (g_c g).
  Proof.
    intros prog [i ch] g. unfold gstep. destruct (t_cur (c_th (g_c g) i)) as [[op mic]|]; [|reflexivity].
    destruct (m_step M i ch mic (c_sh (g_c g))) as [[sh nxt]|]; [|reflexivity].
    destruct (lin i ch op mic (c_sh (g_c g))); [destruct (spec i op (g_st g)) as [[? ?]|]|]; reflexivity.
  Qed.

  Lemma grun_c : forall prog s g, g_c (grun prog s g) = run M prog s (g_c g).
  Proof. intros prog s. induction s as [|ic s IH]; intros g; cbn; [reflexivity|]. now rewrite IH, gstep_c. Qed.

  Lemma grun_app : forall prog s s' g, grun prog (s ++ s') g = grun prog s' (grun prog s g).
  Proof. intros prog s. induction s as [|ic s IH]; intros s' g; cbn; [reflexivity|]. apply IH. Qed.

  Lemma gstep_log : forall prog ic g, exists more, g_log (gstep prog ic g) = g_log g ++ more.
  Proof.
    intros prog [i ch] g. unfold gstep.
    destruct (t_cur (c_th (g_c g) i)) as [[op mic]|]; [|exists []; now rewrite app_nil_r].
    destruct (m_step M i ch mic (c_sh (g_c g))) as [[sh nxt]|]; [|exists []; now rewrite app_nil_r].
    destruct (lin i ch op mic (c_sh (g_c g))); [|exists []; now rewrite app_nil_r].
    destruct (spec i op (g_st g)) as [[? ?]|]; [eexists; reflexivity|exists []; now rewrite app_nil_r].
  Qed.

  Lemma grun_log : forall prog s g, exists more, g_log (grun prog s g) = g_log g ++ more.
  Proof.
    intros prog s. induction s as [|ic s IH]; intros g; cbn; [exists []; now rewrite app_nil_r|].
    destruct (IH (gstep prog ic g)) as [m1 E1]. destruct (gstep_log prog ic g) as [m2 E2].
    rewrite E1, E2, <- app_assoc. eauto.
  Qed.

  Definition pend (g : gstate) : pending := fun i =>
    match t_cur (c_th (g_c g) i) with Some (op, mic) => Some (op, mic, g_lin g i) | None => None end.

  Definition taken (g : gstate) (i : nat) : list (Op * Res) :=
    match t_cur (c_th (g_c g) i), g_lin g i with Some (op, _), Some r => [(op, r)] | _, _ => [] end.

  Record ginv (st0 : St) (g : gstate) : Prop := {
    gi_legal : legal spec st0 (g_log g) (g_st g);
    gi_inv : inv (c_sh (g_c g)) (pend g) (g_st g);
    gi_done : forall i, of_thread i (g_log g) = t_done (c_th (g_c g) i) ++ taken g i;
    gi_idle : forall i, t_cur (c_th (g_c g) i) = None -> g_lin g i = None
  }.

  Lemma of_thread_app : forall i (a b : list (@entry Op Res)), of_thread i (a ++ b) = of_thread i a ++ of_thread i b.
  Proof. intros i a b. unfold of_thread. now rewrite filter_app, map_app. Qed.
  Lemma of_thread_one : forall i j op (r : Res), of_thread i [(j, op, r)] = if Nat.eqb j i then [(op, r)] else [] :> list (Op * Res).
  Proof. intros i j op r. unfold of_thread. cbn. now destruct (Nat.eqb j i). Qed.

  Lemma legal_snoc : forall s0 log s i op r s', legal spec s0 log s -> spec i op s = Some (s', r) ->
    legal spec s0 (log ++ [(i, op, r)]) s'.
  Proof.
    intros s0 log s i op r s' H E. induction H as [s|s j op' r' s1 log s2 E1 H IH]; cbn.
    - eapply Legal_cons; [exact E|constructor].
    - eapply Legal_cons; [exact E1|auto].
  Qed.

  Lemma gstep_inv : forall sh0 st0 rep prog ic g, object_ok sh0 st0 rep -> ginv st0 g -> ginv st0 (gstep prog ic g).
  Proof.
    intros sh0 st0 rep prog [i ch] g OK [GL GI GD GN]. unfold gstep.
    destruct (t_cur (c_th (g_c g) i)) as [[op mic]|] eqn:CUR.
    - destruct (m_step M i ch mic (c_sh (g_c g))) as [[sh nxt]|] eqn:MS.
      + assert (PI : pend g i = Some (op, mic, g_lin g i)) by (unfold pend; now rewrite CUR).
        destruct (ok_step _ _ _ OK _ _ _ i ch op mic (g_lin g i) sh nxt GI PI MS) as (g' & st' & L & N).
        assert (X : exists l st log,
          (if lin i ch op mic (c_sh (g_c g)) then
            match spec i op (g_st g) with
            | Some (st', r) => (Some r, st', g_log g ++ [(i, op, r)])
            | None => (g_lin g i, g_st g, g_log g)
            end
          else (g_lin g i, g_st g, g_log g)) = (l, st, log) /\
          l = g' /\ st = st' /\ legal spec st0 log st /\
          (forall j, of_thread j log = of_thread j (g_log g) ++ (if Nat.eqb i j then
              match g_lin g i, g' with None, Some r => [(op, r)] | _, _ => [] end else []))).
        { destruct (lin i ch op mic (c_sh (g_c g))).
          - destruct L as (L1 & r & L2 & ->). rewrite L2. eexists _, _, _. split; [reflexivity|].
            split; [reflexivity|]. split; [reflexivity|]. split; [eapply legal_snoc; eauto|].
            intros j. rewrite of_thread_app, of_thread_one, L1. reflexivity.
          - destruct L as [-> ->]. eexists _, _, _. split; [reflexivity|]. do 2 (split; [reflexivity|]).
            split; [exact GL|]. intros j. destruct (Nat.eqb i j); [|now rewrite app_nil_r].
            now destruct (g_lin g i); rewrite app_nil_r. }
        destruct X as (l & st & log & -> & -> & -> & LG & OT).
        unfold step. rewrite CUR, MS.
        assert (GM : g_lin g i <> None -> g' = g_lin g i).
        { destruct (lin i ch op mic (c_sh (g_c g))); [|now destruct L]. destruct L as [-> _]. congruence. }
        destruct nxt as [mic'|r].
        * split; cbn [g_c g_lin g_st g_log c_sh c_th].
          -- exact LG.
          -- eapply (ok_ext _ _ _ OK); [|exact N]. intros j. unfold pend. cbn [g_c g_lin c_th].
             destruct (Nat.eq_dec j i) as [->|NE].
             ++ now rewrite !upd_same.
             ++ now rewrite !upd_other.
          -- intros j. rewrite OT, GD. unfold taken. cbn [g_c g_lin c_th].
             destruct (Nat.eq_dec j i) as [->|NE].
             ++ rewrite !upd_same, Nat.eqb_refl, CUR. cbn [t_done t_cur].
                destruct (g_lin g i); [rewrite GM by discriminate; now rewrite app_nil_r|].
                destruct g'; now rewrite ?app_nil_r.
             ++ rewrite !upd_other by exact NE. destruct (Nat.eqb_spec i j); [congruence|]. now rewrite app_nil_r.
          -- intros j. destruct (Nat.eq_dec j i) as [->|NE]; [rewrite upd_same; discriminate|].
             rewrite !upd_other by exact NE. apply GN.
        * destruct N as [-> N]. split; cbn [g_c g_lin g_st g_log c_sh c_th].
          -- exact LG.
          -- eapply (ok_ext _ _ _ OK); [|exact N]. intros j. unfold pend. cbn [g_c g_lin c_th].
             destruct (Nat.eq_dec j i) as [->|NE].
             ++ now rewrite !upd_same.
             ++ now rewrite !upd_other.
          -- intros j. rewrite OT, GD. unfold taken. cbn [g_c g_lin c_th].
             destruct (Nat.eq_dec j i) as [->|NE].
             ++ rewrite !upd_same, Nat.eqb_refl, CUR. cbn [t_done t_cur].
                destruct (g_lin g i) eqn:GG; rewrite ?app_nil_r.
                ** specialize (GM ltac:(discriminate)). congruence.
                ** reflexivity.
             ++ rewrite !upd_other by exact NE. destruct (Nat.eqb_spec i j); [congruence|]. now rewrite app_nil_r.
          -- intros j. destruct (Nat.eq_dec j i) as [->|NE]; [intros _; now rewrite upd_same|].
             rewrite !upd_other by exact NE. apply GN.
      + unfold step. rewrite CUR, MS. split; assumption.
    - unfold step. rewrite CUR. destruct (prog i (t_done (c_th (g_c g) i))) as [op|] eqn:PR.
      + split; cbn [g_c g_lin g_st g_log c_sh c_th].
        * exact GL.
        * eapply (ok_ext _ _ _ OK); [|apply (ok_begin _ _ _ OK _ _ _ i op GI); unfold pend; now rewrite CUR].
          intros j. unfold pend. cbn [g_c g_lin c_th]. destruct (Nat.eq_dec j i) as [->|NE].
          -- rewrite !upd_same. cbn [t_cur]. now rewrite GN.
          -- now rewrite !upd_other.
        * intros j. rewrite GD. unfold taken. cbn [g_c g_lin c_th]. destruct (Nat.eq_dec j i) as [->|NE].
          -- rewrite !upd_same, CUR. cbn [t_cur t_done]. now rewrite (GN i CUR).
          -- now rewrite !upd_other.
        * intros j. destruct (Nat.eq_dec j i) as [->|NE]; [rewrite upd_same; discriminate|].
          rewrite !upd_other by exact NE. apply GN.
      + split; assumption.
  Qed.

  Definition gstart (sh0 : Sh) (st0 : St) : gstate :=
    {| g_c := start_config sh0; g_lin := fun _ => None; g_st := st0; g_log := [] |}.

  Lemma grun_inv : forall sh0 st0 rep prog, object_ok sh0 st0 rep -> forall s, ginv st0 (grun prog s (gstart sh0 st0)).
  Proof.
    intros sh0 st0 rep prog OK s.
    assert (H : forall g, ginv st0 g -> ginv st0 (grun prog s g)).
    { induction s as [|ic s IH]; intros g G; cbn; [exact G|]. apply IH. eapply gstep_inv; eauto. }
    apply H. split; cbn.
    - constructor.
    - eapply (ok_ext _ _ _ OK); [|apply (ok_init _ _ _ OK)]. reflexivity.
    - reflexivity.
    - reflexivity.
  Qed.

  Theorem object_linearizable : forall sh0 st0 rep, object_ok sh0 st0 rep -> linearizable spec M sh0 st0 rep.
  Proof.
    intros sh0 st0 rep OK prog. exists (fun s => g_log (grun prog s (gstart sh0 st0))). split.
    - intros s s'. rewrite grun_app. apply grun_log.
    - intros s c. destruct (grun_inv sh0 st0 rep prog OK s) as [GL GI GD GN].
      assert (C : g_c (grun prog s (gstart sh0 st0)) = c) by apply grun_c.
      rewrite C in *. split.
      + intros i. specialize (GD i). unfold taken in GD. rewrite C in GD.
        destruct (t_cur (c_th c i)) as [[op mic]|]; [|left; now rewrite app_nil_r in GD].
        destruct (g_lin (grun prog s (gstart sh0 st0)) i) as [r|]; [|left; now rewrite app_nil_r in GD].
        right. eauto.
      + eexists. split; [exact GL|]. intros Q. eapply (ok_rep _ _ _ OK); [exact GI|].
        intros i. unfold pend. rewrite C, Q. reflexivity.
  Qed.

  (** The invariant itself, for facts that are not about results. *)
  Theorem object_invariant : forall sh0 st0 rep prog s, object_ok sh0 st0 rep ->
    let c := run M prog s (start_config sh0) in
    exists g st, inv (c_sh c) (fun i => match t_cur (c_th c i) with Some (op, mic) => Some (op, mic, g i) | None => None end) st.
  Proof.
    intros sh0 st0 rep prog s OK c. destruct (grun_inv sh0 st0 rep prog OK s) as [_ GI _ _].
    assert (C : g_c (grun prog s (gstart sh0 st0)) = c) by apply grun_c.
    unfold pend in GI. rewrite C in GI. eauto.
  Qed.
End Generic.

(** ** Atomic objects *)

Definition atomic_inv {St Op Res} (sh : St) (P : @pending Op Res Op) (st : St) : Prop :=
  sh = st /\ forall i op mic g, P i = Some (op, mic, g) -> mic = op /\ g = None.

Theorem atomic_ok : forall St Op Res (eff : Op -> St -> St * Res) s0,
  object_ok (atomic_machine eff) (pure_spec eff) (fun _ _ _ _ _ => true) atomic_inv s0 s0 eq.
Proof.
  intros St Op Res eff s0. unfold atomic_inv.
  split.
  - split; [reflexivity|discriminate].
  - intros sh P Q st E [-> H]. split; [reflexivity|]. intros i op mic g. rewrite <- E. apply H.
  - intros sh P st i op [-> H] N. split; [reflexivity|]. intros j op' mic g. unfold upd.
    destruct (Nat.eqb j i); [|apply H]. intros E; inversion E. auto.
  - intros sh P st i ch op mic g sh' nxt [-> H] PI E. destruct (H _ _ _ _ PI) as [-> ->].
    cbn in E. destruct (eff op st) as [st' r] eqn:EF. inversion E; subst.
    exists (Some r), sh'. split; [split; [reflexivity|]; exists r; unfold pure_spec; now rewrite EF|].
    split; [reflexivity|]. split; [reflexivity|]. intros j op' mic g. unfold upd.
    destruct (Nat.eqb j i); [discriminate|apply H].
  - intros sh P st [-> _] _. reflexivity.
Qed.

Theorem atomic_linearizable : forall St Op Res (eff : Op -> St -> St * Res) s0,
  linearizable (pure_spec eff) (atomic_machine eff) s0 s0 eq.
Proof. intros St Op Res eff s0. eapply object_linearizable, atomic_ok. Qed.

(** ** Float gauges *)

Definition float_lin (i ch : nat) (op : float_op) (mic : float_mic) (cell : N) : bool :=
  match mic with
  | FStore _ | FGet => true
  | FLoop _ => false
  | FExchange _ current => (cell =? current)%N && Nat.eqb ch 0
  end.

(** Where a call can be. *)
Definition float_at (op : float_op) (mic : float_mic) : Prop :=
  match mic with
  | FStore x => op = FWrite (FSet x)
  | FGet => op = FRead
  | FLoop d | FExchange d _ => exists w, op = FWrite w /\ forall g, fgauge_shared w g = f_add g d
  end.

Lemma float_begin_at : forall op, float_at op (float_begin op).
Proof.
  intros [[| | | |]|]; cbn; try reflexivity; eexists; split; try reflexivity; intros g; reflexivity.
Qed.

Definition float_inv (sh : N) (P : @pending float_op N float_mic) (st : N) : Prop :=
  sh = st /\ forall i op mic g, P i = Some (op, mic, g) -> float_at op mic /\ g = None.

Theorem float_ok : forall x, object_ok float_machine float_spec float_lin float_inv x x eq.
Proof.
  intros x. unfold float_inv. split.
  - split; [reflexivity|discriminate].
  - intros sh P Q st E [-> H]. split; [reflexivity|]. intros i op mic g. rewrite <- E. apply H.
  - intros sh P st i op [-> H] N. split; [reflexivity|]. intros j op' mic g. unfold upd.
    destruct (Nat.eqb j i); [|apply H]. intros E; inversion E. split; [apply float_begin_at|reflexivity].
  - intros sh P st i ch op mic g sh' nxt [-> H] PI E. destruct (H _ _ _ _ PI) as [A ->].
    assert (K : forall mic', float_at op mic' -> st = st /\
      forall j op' m g, upd P i (Some (op, mic', None)) j = Some (op', m, g) -> float_at op' m /\ g = None).
    { intros mic' A'. split; [reflexivity|]. intros j op' m g. unfold upd.
      destruct (Nat.eqb j i); [|apply H]. intros X; inversion X; subst. auto. }
    assert (K2 : forall s : N, s = s /\
      forall j op' m g, upd P i None j = Some (op', m, g) -> float_at op' m /\ g = None).
    { intros s. split; [reflexivity|]. intros j op' m g. unfold upd.
      destruct (Nat.eqb j i); [discriminate|apply H]. }
    destruct mic as [y| |d|d cur]; cbn [m_step float_machine float_step float_lin float_at] in *.
    + inversion E; subst. exists (Some 0%N), (af_set y st). split; [|split; [reflexivity|apply K2]].
      split; [reflexivity|]. exists 0%N. split; reflexivity.
    + inversion E; subst. exists (Some sh'), sh'. split; [|split; [reflexivity|apply K2]].
      split; [reflexivity|]. exists sh'. split; reflexivity.
    + inversion E; subst. exists None, sh'. split; [auto|]. apply K. exact A.
    + destruct ((st =? cur)%N && Nat.eqb ch 0) eqn:C.
      * apply andb_prop in C as [C _]. apply N.eqb_eq in C. subst cur. inversion E; subst.
        destruct A as (w & -> & F). exists (Some 0%N), (f_add st d). split; [|split; [reflexivity|apply K2]].
        split; [reflexivity|]. exists 0%N. cbn. rewrite F. auto.
      * inversion E; subst. exists None, sh'. split; [auto|]. apply K. exact A.
  - intros sh P st [-> _] _. reflexivity.
Qed.

Theorem float_linearizable : forall x, linearizable float_spec float_machine x x eq.
Proof. intros x. eapply object_linearizable, float_ok. Qed.
