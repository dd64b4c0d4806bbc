(** Runs of machines whose calls are short come to an end. *)
From Coq Require Import List NArith ZArith Bool Arith Lia.
From Verif Require Import Base FloatModel MetricModel MetricProofs ConcModel ConcSpec ConcProofs ConcVecModel ConcVecSpec ConcProgressSpec ConcFinishSpec.
Import ListNotations.
Local Open Scope nat_scope.

Lemma sum_bound : forall (f : nat -> nat) l b, (forall i, In i l -> f i <= b) -> list_sum (map f l) <= length l * b.
Proof. intros f l b H. induction l as [|i l IH]; [apply Nat.le_refl|]. cbn. apply Nat.add_le_mono; [apply H; now left|apply IH; intros j J; apply H; now right]. Qed.

(** One summand gains, the others lose at most [d]. *)
Lemma sum_others : forall (f g : nat -> nat) l d, (forall j, In j l -> f j <= g j + d) -> list_sum (map f l) <= list_sum (map g l) + length l * d.
Proof.
  intros f g l d H. induction l as [|k l IH]; [cbn; lia|]. cbn. specialize (IH (fun j J => H j (or_intror J))).
  pose proof (H k (or_introl eq_refl)). unfold list_sum in *. lia.
Qed.
Lemma sum_change : forall (f g : nat -> nat) l i d x y, NoDup l -> In i l -> (forall j, j <> i -> f j <= g j + d) -> f i + x <= g i + y ->
  list_sum (map f l) + x <= list_sum (map g l) + length l * d + y.
Proof.
  intros f g l i d x y. induction l as [|k l IH]; intros N I E S; [contradiction|]. inversion N as [|? ? N1 N2]; subst. cbn [map length].
  destruct I as [->|I].
  - assert (H : list_sum (map f l) <= list_sum (map g l) + length l * d) by (apply sum_others; intros j J; apply E; intros ->; contradiction).
    unfold list_sum in *. cbn. lia.
  - assert (k <> i) as NE by (intros ->; contradiction). specialize (IH N2 I E S). specialize (E k NE). unfold list_sum in *. cbn. lia.
Qed.

Lemma run_split : forall Sh Op Res Mic (M : machine Sh Op Res Mic) prog s s' c, run M prog (s ++ s') c = run M prog s' (run M prog s c).
Proof. intros Sh Op Res Mic M prog s. induction s as [|ic s IH]; intros s' c; [reflexivity|]. cbn [app run]. apply IH. Qed.

(** The same for calls that can come up. *)
Definition ranked_on {Sh Op Res Mic} (M : machine Sh Op Res Mic) (sh0 : Sh) (bad : nat -> Mic -> Sh -> bool) (n most : nat)
  (rank : Mic -> Sh -> nat) (inv : Sh -> Prop) (valid : Mic -> Prop) : Prop :=
  inv sh0 /\ (forall op, valid (m_begin M op)) /\ (forall mic sh, valid mic -> inv sh -> rank mic sh <= most) /\
  forall i ch mic sh sh' x, valid mic -> inv sh -> m_step M i ch mic sh = Some (sh', x) -> inv sh' /\
    match x with inl mic' => valid mic' | inr _ => True end /\
    exists d, (forall other, valid other -> rank other sh' <= rank other sh + d) /\
      if bad ch mic sh then d = 0
      else match x with inl mic' => rank mic' sh' + n * d < rank mic sh | inr _ => n * d <= rank mic sh end.

Lemma ranked_all : forall Sh Op Res Mic (M : machine Sh Op Res Mic) sh0 bad n most rank inv, ranked M sh0 bad n most rank inv ->
  ranked_on M sh0 bad n most rank inv (fun _ => True).
Proof.
  intros Sh Op Res Mic M sh0 bad n most rank inv (A & B & C). split; [exact A|]. split; [easy|]. split; [auto|].
  intros i ch mic sh sh' x _ I ST. destruct (C _ _ _ _ _ _ I ST) as (I' & d & D & E). split; [exact I'|]. split; [now destruct x|].
  exists d. split; [auto|exact E].
Qed.

Section Ranked.
  Context {Sh Op Res Mic : Type}.
  Variable M : machine Sh Op Res Mic.
  Variable sh0 : Sh.
  Variable bad : nat -> Mic -> Sh -> bool.
  Variable n most : nat.
  Variable rank : Mic -> Sh -> nat.
  Variable inv : Sh -> Prop.
  Variable valid : Mic -> Prop.
  Hypothesis rk : ranked_on M sh0 bad n most rank inv valid.
  Variable prog : program Op Res.
  Hypothesis few : forall i, n <= i -> prog i [] = None.

  Notation cfg s := (run M prog s (start_config sh0)).
  Notation work s := (count_steps M prog (works M prog) s (start_config sh0)).
  Notation failures s := (count_steps M prog (fails bad) s (start_config sh0)).

  Definition gone (c : config Sh Op Res Mic) (i : nat) : nat :=
    (most + 2) * length (t_done (c_th c i)) + match t_cur (c_th c i) with None => 0 | Some (_, mic) => 1 + (most - rank mic (c_sh c)) end.
  Definition all_gone (c : config Sh Op Res Mic) : nat := list_sum (map (gone c) (seq 0 n)).

  Record okc (c : config Sh Op Res Mic) : Prop := {
    ok_inv : inv (c_sh c);
    ok_valid : forall i op mic, t_cur (c_th c i) = Some (op, mic) -> valid mic;
    ok_few : forall i, n <= i -> t_cur (c_th c i) = None /\ t_done (c_th c i) = []
  }.

  Lemma ok_start : okc (start_config sh0).
  Proof. destruct rk as (inv0 & _). split; cbn; [exact inv0|discriminate|auto]. Qed.

  Lemma one_step : forall ic c, okc c -> okc (step M prog ic c) /\
    all_gone c + (if works M prog ic c then 1 else 0) <=
    all_gone (step M prog ic c) + (if fails bad ic c then most + 1 else 0).
  Proof.
    intros [i ch] c [I VA F]. destruct rk as (_ & beg & top & stp). unfold works, fails, step. cbn [fst snd].
    assert (NF : t_cur (c_th c i) <> None \/ prog i (t_done (c_th c i)) <> None -> i < n).
    { intros H. destruct (Nat.lt_ge_cases i n) as [|GE]; [assumption|]. destruct (F i GE) as [F1 F2]. rewrite F1, F2, (few i GE) in H.
      destruct H; contradiction. }
    assert (CH : forall sh' t d y, inv sh' -> (forall op mic, t_cur t = Some (op, mic) -> valid mic) -> i < n ->
      (forall m, valid m -> rank m sh' <= rank m (c_sh c) + d) ->
      let c' := {| c_sh := sh'; c_th := upd (c_th c) i t |} in gone c i + (1 + n * d) <= gone c' i + y -> okc c' /\ all_gone c + 1 <= all_gone c' + y).
    { intros sh' t d y I' V' L D c' H. split.
      - split; cbn [c_sh c_th c']; [exact I'| |].
        + intros j op mic. destruct (Nat.eq_dec j i) as [->|NE]; [rewrite upd_same; apply V'|rewrite upd_other by exact NE; apply VA].
        + intros j GE. rewrite upd_other by lia. now apply F.
      - unfold all_gone. pose proof (sum_change (gone c) (gone c') (seq 0 n) i d (1 + n * d) y (seq_NoDup _ _)) as S.
        rewrite in_seq, seq_length in S. enough (E : forall j, j <> i -> gone c j <= gone c' j + d) by (specialize (S ltac:(lia) E H); lia).
        intros j NE. unfold gone, c'. cbn [c_th c_sh]. rewrite upd_other by exact NE. destruct (t_cur (c_th c j)) as [[op mic]|] eqn:CJ; [|lia].
        specialize (D mic (VA _ _ _ CJ)). lia. }
    destruct (t_cur (c_th c i)) as [[op mic]|] eqn:CUR.
    - specialize (NF ltac:(left; discriminate)). pose proof (VA _ _ _ CUR) as V. pose proof (top mic _ V I) as RB.
      destruct (m_step M i ch mic (c_sh c)) as [[sh' x]|] eqn:ST; [|split; [split; assumption|lia]].
      destruct (stp _ _ _ _ _ _ V I ST) as (I' & V' & d & D & RK). destruct x as [mic'|r].
      + apply (CH sh' _ d); try assumption; [cbn; intros ? ? E; injection E as <- <-; exact V'|].
        unfold gone; cbn [c_th c_sh]; rewrite upd_same; cbn [t_cur t_done]; rewrite CUR.
        pose proof (top mic' _ V' I'). destruct (bad ch mic (c_sh c)); [subst d|]; lia.
      + apply (CH sh' _ d); try assumption; [discriminate|].
        unfold gone; cbn [c_th c_sh]; rewrite upd_same; cbn [t_cur t_done]; rewrite CUR.
        rewrite app_length. cbn [length]. destruct (bad ch mic (c_sh c)); [subst d|]; lia.
    - destruct (prog i (t_done (c_th c i))) as [op|] eqn:PR; [|split; [split; assumption|lia]].
      specialize (NF ltac:(right; discriminate)). apply (CH (c_sh c) _ 0); [exact I|cbn; intros ? ? E; injection E as <- <-; apply beg|exact NF|intros; lia|].
      unfold gone. cbn [c_th c_sh]. rewrite upd_same. cbn [t_cur t_done]. rewrite CUR. lia.
  Qed.

  Lemma steps_gone : forall s c, okc c -> okc (run M prog s c) /\
    all_gone c + count_steps M prog (works M prog) s c <= all_gone (run M prog s c) + (most + 1) * count_steps M prog (fails bad) s c.
  Proof.
    induction s as [|ic s IH]; intros c OK; [split; [exact OK|cbn; lia]|].
    destruct (one_step ic c OK) as [OK1 L1]. destruct (IH _ OK1) as [OK2 L2]. cbn [run]. split; [exact OK2|].
    cbn [count_steps]. destruct (works M prog ic c), (fails bad ic c); lia.
  Qed.

  Variable most_done : nat.
  Hypothesis done_bound : forall s i, i < n -> length (t_done (c_th (cfg s) i)) <= most_done.

  Theorem work_bounded : forall s, work s <= n * ((most + 2) * most_done + most + 1) + (most + 1) * failures s.
  Proof.
    intros s. destruct (steps_gone s _ ok_start) as [OK L].
    assert (U : all_gone (cfg s) <= n * ((most + 2) * most_done + most + 1)).
    { unfold all_gone. rewrite <- (seq_length n 0) at 2. apply sum_bound. intros i I. apply in_seq in I. unfold gone.
      pose proof (done_bound s i ltac:(lia)) as D. apply (Nat.mul_le_mono_l _ _ (most + 2)) in D.
      destruct (t_cur (c_th (cfg s) i)) as [[op mic]|]; lia. }
    lia.
  Qed.

  (** *** Without end *)
  Lemma count_app : forall p s s' c, count_steps M prog p (s ++ s') c = count_steps M prog p s c + count_steps M prog p s' (run M prog s c).
  Proof. intros p s. induction s as [|ic s IH]; intros s' c; [reflexivity|]. cbn. rewrite IH. lia. Qed.

  Lemma up_to_S : forall f t, up_to f (S t) = up_to f t ++ [f t].
  Proof. intros f t. unfold up_to. rewrite seq_S, map_app. reflexivity. Qed.
  Lemma up_to_add : forall f t d, up_to f (t + d) = up_to f t ++ map f (seq t d).
  Proof. intros f t d. unfold up_to. now rewrite seq_app, map_app. Qed.

  Lemma still : forall ic c, works M prog ic c = false -> step M prog ic c = c.
  Proof.
    intros [i ch] c H. unfold works, step in *. cbn [fst snd] in H. destruct (t_cur (c_th c i)) as [[op mic]|].
    - now destruct (m_step M i ch mic (c_sh c)).
    - now destruct (prog i (t_done (c_th c i))).
  Qed.

  Lemma idle_still : forall s c, (forall i, ~ active prog c i) -> run M prog s c = c.
  Proof.
    induction s as [|ic s IH]; intros c H; [reflexivity|]. cbn [run]. rewrite still; [now apply IH|].
    specialize (H (fst ic)). unfold active in H. unfold works. destruct (t_cur (c_th c (fst ic))) as [[op mic]|].
    - exfalso. apply H. left. discriminate.
    - destruct (prog (fst ic) (t_done (c_th c (fst ic)))); [|reflexivity]. exfalso. apply H. right. discriminate.
  Qed.

  Lemma active_few : forall s i, active prog (cfg s) i -> i < n.
  Proof.
    intros s i AC. destruct (steps_gone s _ ok_start) as [[_ _ F] _]. destruct (Nat.lt_ge_cases i n) as [L|L]; [exact L|].
    destruct (F i L) as [F1 F2]. unfold active in AC. rewrite F1, F2, (few i L) in AC. destruct AC; contradiction.
  Qed.

  Lemma some_active : forall s, (exists i, active prog (cfg s) i) \/ forall i, ~ active prog (cfg s) i.
  Proof.
    intros s.
    assert (D : forall i, active prog (cfg s) i \/ ~ active prog (cfg s) i).
    { intros i. unfold active. destruct (t_cur (c_th (cfg s) i)); [left; left; discriminate|].
      destruct (prog i (t_done (c_th (cfg s) i))); [left; right; discriminate|right; intros [H|H]; contradiction]. }
    assert (H : forall m, (exists i, active prog (cfg s) i) \/ forall i, i < m -> ~ active prog (cfg s) i).
    { induction m as [|m IH]; [right; lia|]. destruct IH as [IH|IH]; [now left|]. destruct (D m) as [A|A]; [left; eauto|].
      right. intros i L. destruct (Nat.eq_dec i m) as [->|NE]; [exact A|apply IH; lia]. }
    destruct (H n) as [A|A]; [now left|]. right. intros i AC. exact (A i (active_few s i AC) AC).
  Qed.

  Hypothesis free : deadlock_free M sh0 prog.

  Lemma next_move : forall f t, fair n f -> (exists i, active prog (cfg (up_to f t)) i) ->
    exists t', t < t' /\ work (up_to f t) < work (up_to f t').
  Proof.
    intros f t FA AC. destruct (free (up_to f t) AC) as (j & AJ & EN). destruct (FA j t (active_few _ _ AJ)) as (t1 & L & FJ).
    assert (H : forall d, (exists t', t < t' /\ work (up_to f t) < work (up_to f t')) \/ cfg (up_to f (t + d)) = cfg (up_to f t)).
    { induction d as [|d IH]; [right; now rewrite Nat.add_0_r|]. destruct IH as [IH|IH]; [now left|].
      destruct (works M prog (f (t + d)) (cfg (up_to f (t + d)))) eqn:MV.
      - left. exists (S (t + d)). split; [lia|]. rewrite up_to_S, count_app, up_to_add, count_app. cbn [count_steps].
        rewrite <- up_to_add, MV. lia.
      - right. rewrite <- IH, Nat.add_succ_r, up_to_S, run_split. cbn [run]. now apply still. }
    destruct (H (t1 - t)) as [X|X]; [exact X|]. replace (t + (t1 - t)) with t1 in X by lia.
    exists (S t1). split; [lia|]. rewrite up_to_S, count_app. cbn [count_steps]. rewrite X.
    assert (MV : works M prog (f t1) (cfg (up_to f t)) = true).
    { specialize (EN (snd (f t1))). unfold enabled in EN. unfold works. rewrite FJ. destruct (t_cur (c_th (cfg (up_to f t)) j)) as [[op mic]|].
      - now destruct (m_step M j (snd (f t1)) mic (c_sh (cfg (up_to f t)))).
      - now destruct (prog j (t_done (c_th (cfg (up_to f t)) j))). }
    rewrite MV. replace t1 with (t + (t1 - t)) by lia. rewrite up_to_add, count_app. lia.
  Qed.

  Theorem all_finish : forall f, fair n f -> (exists r, forall t, failures (up_to f t) <= r) ->
    exists T, forall t, T <= t -> forall i, ~ active prog (cfg (up_to f t)) i.
  Proof.
    intros f FA (r & RT).
    assert (BD : forall t, work (up_to f t) <= n * ((most + 2) * most_done + most + 1) + (most + 1) * r).
    { intros t. pose proof (work_bounded (up_to f t)) as MB. specialize (RT t). nia. }
    set (top := n * ((most + 2) * most_done + most + 1) + (most + 1) * r) in *. clearbody top.
    assert (H : forall k t, top - work (up_to f t) <= k -> exists T, forall i, ~ active prog (cfg (up_to f T)) i).
    { induction k as [|k IH]; intros t LE; (destruct (some_active (up_to f t)) as [A|A]; [|now exists t]);
        destruct (next_move f t FA A) as (t' & L & MV); pose proof (BD t') as B'.
      - lia.
      - apply (IH t'). lia. }
    destruct (H top 0) as (T & HT); [lia|]. exists T. intros t L i. replace t with (T + (t - T)) by lia.
    rewrite up_to_add, run_split, idle_still by exact HT. apply HT.
  Qed.
End Ranked.

(** ** Metrics *)
Lemma atomic_brief : forall St Op Res (eff : Op -> St -> St * Res) v, brief_metric (atomic_machine eff) v never.
Proof.
  intros St Op Res eff v n. exists 0, (fun _ _ => 0), (fun _ => True). split; [exact I|]. split; [lia|].
  intros i ch mic sh sh' x _ H. split; [exact I|]. exists 0. split; [lia|]. cbn in *. destruct (eff mic sh). injection H as _ <-. lia.
Qed.

Definition float_rank (n : nat) (mic : float_mic) (cell : N) : nat :=
  match mic with
  | FStore _ => 2 * n
  | FGet => 0
  | FLoop _ => 2 * n + 1
  | FExchange _ current => 2 * n + if N.eqb cell current then 0 else 2
  end.
Lemma float_brief : forall v, brief_metric float_machine v float_spurious.
Proof.
  intros v n. exists (2 * n + 2), (float_rank n), (fun _ => True). split; [exact I|]. split.
  - intros [x| |x|x c] cell _; cbn [float_rank]; try destruct (N.eqb cell c); lia.
  - intros i ch mic sh sh' x _ H. split; [exact I|].
    destruct mic as [y| |y|y cur]; cbn [m_step float_machine float_step float_spurious] in *.
    + injection H as <- <-. exists 2. split; [|cbn; lia].
      intros [z| |z|z c]; cbn [float_rank]; try destruct (N.eqb _ c); try destruct (N.eqb sh c); lia.
    + injection H as <- <-. exists 0. split; [lia|]. cbn. lia.
    + injection H as <- <-. exists 0. split; [lia|]. cbn [float_rank]. rewrite N.eqb_refl. lia.
    + destruct (N.eqb sh cur) eqn:E, (Nat.eqb ch 0); cbn [andb negb] in *; injection H as <- <-.
      * exists 2. split; [|cbn [float_rank]; rewrite E; lia].
        intros [z| |z|z c]; cbn [float_rank]; try destruct (N.eqb _ c); try destruct (N.eqb sh c); lia.
      * exists 0. split; [lia|reflexivity].
      * exists 0. split; [lia|]. cbn [float_rank]. rewrite E. lia.
      * exists 0. split; [lia|]. cbn [float_rank]. rewrite E. lia.
Qed.

Definition hist_rank (n b : nat) (mic : hist_mic) (c : chist) : nat :=
  match mic with
  | HRead _ _ => 2 * n + 5
  | HAdd _ _ => 2 * n + 4
  | HLoad _ => 2 * n + 3
  | HExchange _ current => 2 * n + 2 + if N.eqb (h_sum (ch_state c)) current then 0 else 2
  | HUnread _ => 1
  | HRequest => b + 6
  | HWrite => b + 5
  | HBuckets k _ => 4 + (b - k)
  | HInf _ => 3
  | HSum _ _ => 2
  | HUnwrite _ => 1
  end.
Lemma hist_brief : forall b, brief_metric hist_machine {| ch_lock := rw_free; ch_state := hist_new b |} hist_spurious.
Proof.
  intros b n. exists (2 * n + b + 6), (hist_rank n b), (fun c => length (h_buckets (ch_state c)) = b). split.
  { cbn. apply repeat_length. }
  split.
  { intros mic c _. destruct mic; cbn [hist_rank]; try destruct (N.eqb _ _); lia. }
  intros i ch mic c c' x LB H.
  assert (SAME : forall l, h_sum l = h_sum (ch_state c) -> forall lk other, hist_rank n b other {| ch_lock := lk; ch_state := l |} <= hist_rank n b other c + 0).
  { intros l E lk other. destruct other; cbn [hist_rank ch_state]; try rewrite E; lia. }
  assert (SAME0 : forall other, hist_rank n b other c <= hist_rank n b other c + 0) by (intros; lia).
  assert (MOVED : forall l lk other, hist_rank n b other {| ch_lock := lk; ch_state := l |} <= hist_rank n b other c + 2).
  { intros l lk other. destruct other as [| | |y cur| | | | | | |]; cbn [hist_rank ch_state]; try lia. destruct (N.eqb _ cur), (N.eqb _ cur); lia. }
  destruct mic as [q y|q y|y|y cur|r| | |k acc|bs|bs inf|r]; cbn [m_step hist_machine hist_step hist_spurious] in *.
  - destruct (rw_read i ch (ch_lock c)) as [l|]; [|discriminate]. injection H as <- <-. split; [exact LB|]. exists 0. split; [now apply SAME|cbn; lia].
  - destruct (Nat.leb q _); [destruct (Nat.ltb q _)|]; injection H as <- <-; (split; [cbn; try rewrite update_nth_length; exact LB|]); exists 0.
    + split; [now apply SAME|cbn; lia].
    + split; [now apply SAME|cbn; lia].
    + split; [exact SAME0|cbn; lia].
  - injection H as <- <-. split; [exact LB|]. exists 0. split; [exact SAME0|]. cbn [hist_rank]. rewrite N.eqb_refl. lia.
  - destruct (N.eqb (h_sum (ch_state c)) cur) eqn:E, (Nat.eqb ch 0); cbn [andb negb] in *; injection H as <- <-; (split; [exact LB|]).
    + exists 2. split; [apply MOVED|]. cbn [hist_rank]. rewrite E. lia.
    + exists 0. split; [exact SAME0|reflexivity].
    + exists 0. split; [exact SAME0|]. cbn [hist_rank]. rewrite E. lia.
    + exists 0. split; [exact SAME0|]. cbn [hist_rank]. rewrite E. lia.
  - injection H as <- <-. split; [exact LB|]. exists 0. split; [now apply SAME|cbn; lia].
  - injection H as <- <-. split; [exact LB|]. exists 0. split; [now apply SAME|cbn; lia].
  - destruct (rw_write i (ch_lock c)) as [l|]; [|discriminate]. injection H as <- <-. split; [exact LB|]. exists 0. split; [now apply SAME|cbn; lia].
  - destruct (nth_error (h_buckets (ch_state c)) k) as [v|] eqn:E; injection H as <- <-; (split; [exact LB|]); exists 0; (split; [exact SAME0|]); cbn [hist_rank].
    + assert (k < b) by (rewrite <- LB; apply nth_error_Some; congruence). lia.
    + lia.
  - injection H as <- <-. split; [exact LB|]. exists 0. split; [exact SAME0|cbn; lia].
  - injection H as <- <-. split; [exact LB|]. exists 0. split; [exact SAME0|cbn; lia].
  - injection H as <- <-. split; [exact LB|]. exists 0. split; [now apply SAME|cbn; lia].
Qed.
