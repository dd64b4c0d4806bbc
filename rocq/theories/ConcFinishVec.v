(** Operations on vecs and on label sets are short. *)
From Coq Require Import List NArith ZArith Bool Arith Lia Permutation.
From Verif Require Import Base FloatModel MetricModel LabelModel ConcModel ConcSpec ConcProofs ConcVecModel ConcVecSpec ConcLabelModel ConcDenseModel ConcCallModel
  ConcFinishSpec ConcFinish.
Import ListNotations.
Local Open Scope nat_scope.
Local Set Asymmetric Patterns.

(** ** Label sets *)
Definition label_rank (dyn : nat) (mic : label_mic) (_ : interners) : nat :=
  match mic with
  | JFixed _ | JDecode _ => 2 + dyn
  | JDynamic _ ds _ _ | JResolve _ ds _ _ => 1 + length ds
  | JIntern _ _ => 1
  end.
Definition label_valid (dyn : nat) (mic : label_mic) : Prop :=
  match mic with JDynamic _ ds _ _ | JResolve _ ds _ _ => length ds <= dyn | _ => True end.
Lemma label_ranked : forall bd fields loc accepts m0 n,
  ranked_on (label_machine bd fields loc accepts) m0 never n (2 + length (dynamics fields)) (label_rank (length (dynamics fields)))
    (fun _ => True) (label_valid (length (dynamics fields))).
Proof.
  intros bd fields loc accepts m0 n. set (D := length (dynamics fields)). split; [exact I|]. split; [now intros []|]. split.
  { intros [g|k ds g a|u|v ds k a|l v] sh V _; cbn in *; lia. }
  intros i ch mic sh sh' x V _ H. split; [exact I|]. unfold never.
  enough (X : match x with inl mic' => label_valid D mic' /\ label_rank D mic' sh' < label_rank D mic sh | inr _ => True end).
  { split; [destruct x; [apply X|exact I]|]. exists 0. split; [intros [] _; cbn; lia|]. destruct x; lia. }
  cbn [m_step label_machine] in H. unfold label_step in H. destruct mic as [g|k [|f ds] g a|u|v [|f ds] k a|l v]; cbn [label_rank label_valid length] in *.
  - destruct (encode_fixed bd (fixed fields) g 0 1) as [[idx|]|]; injection H as <- <-; try exact I. cbn. unfold D. lia.
  - injection H as <- <-. exact I.
  - destruct (intern accepts (loc (f_name f)) (get_field g f) sh) as [m' [r|]]; injection H as <- <-; try exact I. cbn. lia.
  - destruct (decode_fixed (fixed fields) (fst u)) as [p|]; cbn [obind] in H; [|injection H as <- <-; exact I].
    destruct (debug_assert bd (fst p =? 0)%N); cbn [obind] in H; injection H as <- <-; try exact I. cbn. unfold D. lia.
  - injection H as <- <-. exact I.
  - destruct k as [|i0 k]; [injection H as <- <-; exact I|].
    destruct (resolve accepts (loc (f_name f)) i0 sh); injection H as <- <-; try exact I. cbn. lia.
  - destruct (intern accepts l v sh) as [m' r]. injection H as <- <-. exact I.
Qed.

(** ** Two objects *)
Section Both.
  Context {Sh1 Op1 Res1 Mic1 Sh2 Op2 Res2 Mic2 : Type}.
  Definition both_rank (r1 : Mic1 -> Sh1 -> nat) (r2 : Mic2 -> Sh2 -> nat) (mic : Mic1 + Mic2) (sh : Sh1 * Sh2) : nat :=
    match mic with inl m => r1 m (fst sh) | inr m => r2 m (snd sh) end.
  Definition both_valid (v1 : Mic1 -> Prop) (v2 : Mic2 -> Prop) (mic : Mic1 + Mic2) : Prop :=
    match mic with inl m => v1 m | inr m => v2 m end.

  Lemma both_ranked : forall (M1 : machine Sh1 Op1 Res1 Mic1) (M2 : machine Sh2 Op2 Res2 Mic2) sh1 sh2 bad n t1 t2 r1 r2 i1 i2 v1 v2,
    ranked_on M1 sh1 never n t1 r1 i1 v1 -> ranked_on M2 sh2 bad n t2 r2 i2 v2 ->
    ranked_on (both M1 M2) (sh1, sh2) (right_spurious bad) n (t1 + t2) (both_rank r1 r2) (fun sh => i1 (fst sh) /\ i2 (snd sh)) (both_valid v1 v2).
  Proof.
    intros M1 M2 sh1 sh2 bad n t1 t2 r1 r2 i1 i2 v1 v2 (I1 & B1 & T1 & S1) (I2 & B2 & T2 & S2).
    split; [now split|]. split; [intros [op|op]; cbn; auto|]. split.
    { intros [m|m] [s1 s2] V [J1 J2]; cbn in *; [pose proof (T1 m s1 V J1)|pose proof (T2 m s2 V J2)]; lia. }
    intros i ch mic [s1 s2] sh' x V [J1 J2] H. cbn [fst snd] in *. cbn [m_step both] in H.
    destruct mic as [m|m]; cbn [both_step both_valid right_spurious fst snd] in *.
    - destruct (m_step M1 i ch m s1) as [[s' [m'|r]]|] eqn:E; [..|discriminate]; injection H as <- <-;
        destruct (S1 _ _ _ _ _ _ V J1 E) as (J' & V' & d & D & R); cbn [never] in R; (split; [now split|]); (split; [exact V' || exact I|]);
        exists d; (split; [|exact R]); intros [o|o] W; cbn in *; [now apply D|lia|now apply D|lia].
    - destruct (m_step M2 i ch m s2) as [[s' [m'|r]]|] eqn:E; [..|discriminate]; injection H as <- <-;
        destruct (S2 _ _ _ _ _ _ V J2 E) as (J' & V' & d & D & R); (split; [now split|]); (split; [exact V' || exact I|]);
        exists d; (split; [|exact R]); intros [o|o] W; cbn in *; [lia|now apply D|lia|now apply D].
  Qed.
End Both.

(** ** Dense vecs *)
Section Dense.
  Context {Sh Op Res Mic : Type}.
  Variable O : machine Sh Op Res Mic.
  Variable sh_new : Sh.
  Variable card : nat.
  Variable bad : nat -> Mic -> Sh -> bool.
  Variable n most : nat.
  Variable rank : Mic -> Sh -> nat.
  Variable inv : Sh -> Prop.
  Hypothesis rk : ranked O sh_new bad n most rank inv.

  Definition dense_rank (mic : dense_mic Op Mic) (c : dvec Sh) : nat :=
    match mic with
    | NGet _ _ => 4
    | NOnce _ _ => 3
    | NInit _ _ => 2
    | NBind _ _ => 1
    | NPeek _ _ => 1
    | NUse _ _ _ => 2 + most
    | NIn k id m =>
      if Nat.leb (d_next c) id then 1 + most
      else match d_cells c k with CFull id' sh => if Nat.eqb id' id then 1 + rank m sh else 1 | _ => 1 end
    end.
  Definition dense_inv (c : dvec Sh) : Prop := forall k id sh, d_cells c k = CFull id sh -> id < d_next c /\ inv sh.

  Lemma dense_ranked : ranked_on (dense_machine O sh_new card) dv_new (dense_spurious bad) n (4 + most) dense_rank dense_inv (fun _ => True).
  Proof.
    destruct rk as (inv0 & top & stp). split; [intros k id sh; discriminate|]. split; [easy|].
    assert (TOP : forall m k id c, dense_inv c -> dense_rank (NIn k id m) c <= 1 + most).
    { intros m k id c IC. cbn [dense_rank]. destruct (Nat.leb (d_next c) id); [lia|]. destruct (d_cells c k) as [| |id' sh] eqn:CE; [lia|lia|].
      destruct (Nat.eqb id' id); [|lia]. pose proof (top m sh (proj2 (IC _ _ _ CE))). lia. }
    split.
    { intros mic c _ IC. destruct mic as [h k|h k|h k|h k|h k|h k u|k id m]; cbn [dense_rank]; try lia. pose proof (TOP m k id c IC) as T. cbn [dense_rank] in T. lia. }
    intros i ch mic c c' x _ IC H.
    assert (SAME : forall other, True -> dense_rank other c <= dense_rank other c + 0) by (intros; lia).
    assert (BIND : forall h k id, dense_inv (bind i h k id c) /\ forall other, True -> dense_rank other (bind i h k id c) <= dense_rank other c + 0).
    { intros h k id. split; [exact IC|]. intros [] _; cbn; lia. }
    cbn [m_step dense_machine] in H. destruct mic as [h k|h k|h k|h k|h k|h k u|k id m]; cbn [dense_step dense_spurious] in *.
    - destruct (Nat.ltb k card); [destruct (d_cells c k) as [|j|id sh] eqn:CE|]; injection H as <- <-; (split; [assumption || apply BIND|]); (split; [exact I|]); exists 0;
        (split; [exact SAME || apply BIND|cbn; lia]).
    - destruct (d_cells c k) as [|j|id sh] eqn:CE; [..|]; try discriminate; injection H as <- <-.
      + split; [|split; [exact I|]].
        * intros k' id sh. cbn. destruct (Nat.eq_dec k' k) as [->|NE]; [rewrite upd_same; discriminate|rewrite upd_other by exact NE; apply IC].
        * exists 0. split; [|cbn; lia]. intros other _. destruct other as [h' k'|h' k'|h' k'|h' k'|h' k'|h' k' u|k' id m]; cbn; try lia.
          destruct (Nat.leb (d_next c) id); [lia|]. destruct (Nat.eq_dec k' k) as [->|NE]; [rewrite upd_same, CE; lia|rewrite upd_other by exact NE; lia].
      + split; [assumption|]. split; [exact I|]. exists 0. split; [exact SAME|cbn; lia].
    - injection H as <- <-. split; [|split; [exact I|]].
      + intros k' id sh. cbn. destruct (Nat.eq_dec k' k) as [->|NE]; [rewrite upd_same|rewrite upd_other by exact NE; intros E; apply IC in E; split; [lia|apply E]].
        intros E. injection E as <- <-. split; [lia|exact inv0].
      + exists 0. split; [|cbn; lia]. intros other _. destruct other as [h' k'|h' k'|h' k'|h' k'|h' k'|h' k' u|k' id m]; cbn [dense_rank fresh_cell d_next d_cells]; try lia.
        destruct (Nat.leb_spec (S (d_next c)) id) as [L|L], (Nat.leb_spec (d_next c) id) as [L'|L']; try lia.
        * destruct (Nat.eq_dec k' k) as [->|NE]; [rewrite upd_same|rewrite upd_other by exact NE].
          -- destruct (Nat.eqb (d_next c) id); [|lia]. pose proof (top m sh_new inv0). lia.
          -- destruct (d_cells c k') as [| |id' sh] eqn:CE; [lia|lia|]. destruct (Nat.eqb id' id); [|lia]. pose proof (top m sh (proj2 (IC _ _ _ CE))). lia.
        * destruct (Nat.eq_dec k' k) as [->|NE]; [rewrite upd_same|rewrite upd_other by exact NE; lia].
          destruct (Nat.eqb_spec (d_next c) id); [lia|]. destruct (d_cells c k) as [| |id' sh]; try lia. destruct (Nat.eqb id' id); lia.
    - destruct (d_cells c k) as [|j|id sh] eqn:CE; injection H as <- <-; (split; [assumption || apply BIND|]); (split; [exact I|]); exists 0;
        (split; [exact SAME || apply BIND|cbn; lia]).
    - destruct (Nat.ltb k card); [destruct (d_cells c k) as [|j|id sh] eqn:CE|]; injection H as <- <-; (split; [assumption || apply BIND|]); (split; [exact I|]); exists 0;
        (split; [exact SAME || apply BIND|cbn; lia]).
    - destruct (d_env c i h) as [[k' id]|]; [destruct (Nat.eqb k' k)|]; injection H as <- <-; (split; [assumption|]); (split; [exact I|]); exists 0;
        (split; [exact SAME|]); try (cbn; lia). pose proof (TOP (m_begin O u) k id c IC) as T. cbn [dense_rank] in *. lia.
    - destruct (d_cells c k) as [|j|id' sh] eqn:CE.
      1,2: injection H as <- <-; split; [assumption|]; split; [exact I|]; exists 0; split; [exact SAME|cbn; lia].
      destruct (Nat.eqb_spec id' id) as [->|NI]; cbn [andb].
      2:{ injection H as <- <-. split; [assumption|]. split; [exact I|]. exists 0. split; [exact SAME|cbn; lia]. }
      destruct (IC _ _ _ CE) as [LT IS]. destruct (m_step O i ch m sh) as [[sh' y]|] eqn:ST; [|discriminate].
      destruct (stp _ _ _ _ _ _ IS ST) as (IS' & d & D & RK).
      assert (NB : Nat.leb (d_next c) id = false) by (apply Nat.leb_gt; exact LT).
      assert (IC' : dense_inv (set_cell k (CFull id sh') c)).
      { intros k' id' sh'' E. cbn in *. destruct (Nat.eq_dec k' k) as [->|NE]; [rewrite upd_same in E; now injection E as <- <-|rewrite upd_other in E by exact NE; now apply IC in E]. }
      assert (DD : forall other, True -> dense_rank other (set_cell k (CFull id sh') c) <= dense_rank other c + d).
      { intros other _. destruct other as [h' k'|h' k'|h' k'|h' k'|h' k'|h' k' u|k' id' m']; cbn; try lia.
        destruct (Nat.leb (d_next c) id'); [lia|]. destruct (Nat.eq_dec k' k) as [->|NE]; [rewrite upd_same, CE|rewrite upd_other by exact NE; lia].
        destruct (Nat.eqb id id'); [|lia]. pose proof (D m'). lia. }
      assert (RK1 : dense_rank (NIn k id m) c = 1 + rank m sh) by (cbn; now rewrite NB, CE, Nat.eqb_refl).
      destruct y as [m'|r]; injection H as <- <-; (split; [exact IC'|]); (split; [exact I|]); exists d; (split; [exact DD|]);
        (destruct (bad ch m sh); [exact RK|]); rewrite RK1; [|lia].
      cbn [dense_rank set_cell d_next d_cells]. rewrite NB, upd_same, Nat.eqb_refl. lia.
  Qed.
End Dense.

(** ** Sparse vecs *)
Section Sparse.
  Context {K Sh Op Res Mic V : Type}.
  Variable keqb : K -> K -> bool.
  Variable shard_of : K -> nat.
  Variable O : machine Sh Op Res Mic.
  Variable sh_new : Sh.
  Variable view : Sh -> V.
  Variable bad : nat -> Mic -> Sh -> bool.
  Variable n most : nat.
  Variable rank : Mic -> Sh -> nat.
  Variable inv : Sh -> Prop.
  Hypothesis rk : ranked O sh_new bad n most rank inv.
  Notation M := (sparse_machine (V := V) keqb shard_of O sh_new view).
  Notation vec_mic := (vec_mic K Op Res Mic V).

  Definition in_rank (id : nat) (m : Mic) (next : nat) (t : list (row K Sh)) : nat :=
    if Nat.leb next id then 1 + most else match find_id id t with Some e => 1 + rank m (e_sh e) | None => 1 end.
  Definition vec_rank (mic : vec_mic) (c : svec K Sh) : nat :=
    match mic with
    | MGet _ _ => 9
    | MLook _ _ => 8
    | MUnread _ _ => 7
    | MReq _ _ => 6
    | MWrite _ _ => 5
    | MIns _ _ => 4
    | MDown _ _ => 3
    | MFind _ _ => 2
    | MUse _ _ _ => 2 + most
    | MIn s id m => in_rank id m (v_next c) (tab_of s c)
    | MDrop _ => 1
    | MRReq _ => 4
    | MRWrite _ => 3
    | MRDo _ => 2
    | MRUnwrite _ _ => 1
    | MOpen _ _ => 2
    | MKeys _ _ => 1
    end.

  Definition tab_ok (next : nat) (t : list (row K Sh)) : Prop :=
    NoDup (map e_id t) /\ forall e, In e t -> e_id e < next /\ inv (e_sh e).
  Definition vec_inv (c : svec K Sh) : Prop := forall s, tab_ok (v_next c) (tab_of s c).

  (** At most as many rows as there were insertions. *)
  Lemma rows_next : forall c s, vec_inv c -> length (tab_of s c) <= v_next c.
  Proof.
    intros c s IC. destruct (IC s) as [ND B]. rewrite <- (map_length e_id), <- (seq_length (v_next c) 0). apply NoDup_incl_length; [exact ND|].
    intros id I. apply in_map_iff in I as (e & <- & I). apply in_seq. apply B in I. split; [apply Nat.le_0_l|apply I].
  Qed.

  Lemma find_id_in : forall id (t : list (row K Sh)) e, find_id id t = Some e -> In e t /\ e_id e = id.
  Proof. intros id t e H. apply find_some in H as [I E]. now apply Nat.eqb_eq in E. Qed.

  Lemma in_top : forall id m next t, tab_ok next t -> in_rank id m next t <= 1 + most.
  Proof.
    intros id m next t [_ B]. unfold in_rank. destruct (Nat.leb next id); [lia|]. destruct (find_id id t) as [e|] eqn:E; [|lia].
    apply find_id_in in E as [I _]. destruct rk as (_ & top & _). pose proof (top m (e_sh e) (proj2 (B e I))). lia.
  Qed.

  Lemma find_set : forall id sh (t : list (row K Sh)) id', find_id id' (set_sh id sh t) =
    match find_id id' t with
    | Some e => Some (if Nat.eqb (e_id e) id then {| e_key := e_key e; e_id := e_id e; e_sh := sh |} else e)
    | None => None
    end.
  Proof.
    intros id sh t id'. unfold find_id, set_sh. induction t as [|e t IH]; [reflexivity|]. cbn [map find].
    assert (E : e_id (if Nat.eqb (e_id e) id then {| e_key := e_key e; e_id := e_id e; e_sh := sh |} else e) = e_id e) by (destruct (Nat.eqb (e_id e) id); reflexivity).
    rewrite E. destruct (Nat.eqb (e_id e) id'); [reflexivity|exact IH].
  Qed.

  Lemma set_ids : forall id sh (t : list (row K Sh)), map e_id (set_sh id sh t) = map e_id t.
  Proof. intros id sh t. unfold set_sh. rewrite map_map. apply map_ext. intros e. now destruct (Nat.eqb (e_id e) id). Qed.

  Lemma nodup_filter : forall A B (g : A -> B) p l, NoDup (map g l) -> NoDup (map g (filter p l)).
  Proof.
    intros A B g p l. induction l as [|a l IH]; intros N; [exact N|]. inversion N as [|? ? N1 N2]; subst. cbn. destruct (p a); [|auto].
    cbn. constructor; [|auto]. intros I. apply N1. apply in_map_iff in I as (b & E & I). apply filter_In in I as [I _]. rewrite <- E. now apply in_map.
  Qed.

  Lemma find_filter : forall id p (t : list (row K Sh)), NoDup (map e_id t) -> find_id id (filter p t) = None \/ find_id id (filter p t) = find_id id t.
  Proof.
    intros id p t. unfold find_id. induction t as [|e t IH]; intros N; [now left|]. inversion N as [|? ? N1 N2]; subst. cbn [filter find].
    destruct (p e); cbn [find]; destruct (Nat.eqb_spec (e_id e) id) as [E|E]; auto.
    left. destruct (find _ (filter p t)) as [x|] eqn:F; [|reflexivity]. exfalso. apply find_some in F as [I E']. apply Nat.eqb_eq in E'.
    apply filter_In in I as [I _]. apply N1. rewrite E, <- E'. now apply in_map.
  Qed.

  Lemma find_snoc : forall id (t : list (row K Sh)) e, e_id e <> id -> find_id id (t ++ [e]) = find_id id t.
  Proof.
    intros id t e NE. unfold find_id. induction t as [|x t IH]; cbn.
    - destruct (Nat.eqb_spec (e_id e) id); [contradiction|reflexivity].
    - destruct (Nat.eqb (e_id x) id); [reflexivity|exact IH].
  Qed.

  Lemma tab_lock : forall s l (c : svec K Sh) s', tab_of s' (set_shard_lock s l c) = tab_of s' c.
  Proof.
    intros s l c s'. unfold tab_of, set_shard_lock. cbn. destruct (Nat.eq_dec s' s) as [->|NE]; [now rewrite upd_same|now rewrite upd_other].
  Qed.
  Lemma tab_tab : forall s t (c : svec K Sh) s', tab_of s' (set_shard_tab s t c) = if Nat.eqb s' s then t else tab_of s' c.
  Proof. intros s t c s'. unfold tab_of, set_shard_tab, upd. cbn. now destruct (Nat.eqb s' s). Qed.

  (** Steps that leave the rows alone. *)
  Lemma quiet : forall c c', v_next c' = v_next c -> (forall s, tab_of s c' = tab_of s c) -> vec_inv c ->
    vec_inv c' /\ forall other, True -> vec_rank other c' <= vec_rank other c + 0.
  Proof.
    intros c c' N T IC. split.
    - intros s. rewrite N, T. apply IC.
    - intros other _. destruct other; cbn [vec_rank]; try lia. rewrite N, T. lia.
  Qed.

  (** Steps that change the rows of one shard. *)
  Lemma change : forall c c' s t d, (forall s', tab_of s' c' = if Nat.eqb s' s then t else tab_of s' c) -> v_next c <= v_next c' -> vec_inv c ->
    tab_ok (v_next c') t -> (forall id m, in_rank id m (v_next c') t <= in_rank id m (v_next c) (tab_of s c) + d) ->
    (forall s' id m, s' <> s -> in_rank id m (v_next c') (tab_of s' c) <= in_rank id m (v_next c) (tab_of s' c) + d) ->
    vec_inv c' /\ forall other, True -> vec_rank other c' <= vec_rank other c + d.
  Proof.
    intros c c' s t d T N IC OK R R'. split.
    - intros s'. rewrite T. destruct (Nat.eqb s' s); [exact OK|]. destruct (IC s') as [A B]. split; [exact A|]. intros e I. apply B in I. split; [lia|apply I].
    - intros other _. destruct other as [| | | | | | | | |s' id m| | | | | | |]; cbn [vec_rank]; try lia. rewrite T. destruct (Nat.eqb_spec s' s) as [->|NE]; auto.
  Qed.

  Lemma vec_ranked : ranked_on M sv_new (sparse_spurious bad) n (9 + most) vec_rank vec_inv (fun _ => True).
  Proof.
    pose proof rk as RKK. destruct RKK as (inv0 & top & stp). split; [intros s; split; [constructor|intros e []]|]. split; [easy|]. split.
    { intros mic c _ IC. destruct mic as [| | | | | | | | |s id m| | | | | | |]; cbn [vec_rank]; try lia. pose proof (in_top id m _ _ (IC s)). lia. }
    intros i ch mic c c' x _ IC H.
    assert (QUIET : forall c1, v_next c1 = v_next c -> (forall s, tab_of s c1 = tab_of s c) -> c1 = c' ->
      match x with inl mic' => vec_rank mic' c1 < vec_rank mic c | inr _ => True end ->
      vec_inv c' /\ match x with inl _ => True | inr _ => True end /\ exists d, (forall other, True -> vec_rank other c' <= vec_rank other c + d) /\
        match x with inl mic' => vec_rank mic' c' + n * d < vec_rank mic c | inr _ => n * d <= vec_rank mic c end).
    { intros c1 N T <- R. destruct (quiet c c1 N T IC) as [A B]. split; [exact A|]. split; [now destruct x|]. exists 0. split; [exact B|]. destruct x; lia. }
    cbn [m_step sparse_machine] in H. destruct mic as [h k|h k|h k|h k|h k|h k|h k|h k|h k u|s id m|h|k|k|k|s r|h s|h s]; cbn [vec_step sparse_spurious] in *.
    - destruct (held i h c); [|destruct (rw_read i ch (lock_of (shard_of k) c)) as [l|]; [|discriminate]]; injection H as <- <-;
        (eapply QUIET; [| |reflexivity|cbn; lia]; [reflexivity|]); intros; [reflexivity|apply tab_lock].
    - destruct (find_key keqb k (tab_of (shard_of k) c)) as [e|]; injection H as <- <-; (eapply QUIET; [| |reflexivity|cbn; lia]; [reflexivity|]); reflexivity.
    - injection H as <- <-. eapply QUIET; [| |reflexivity|cbn; lia]; [reflexivity|]. intros. apply tab_lock.
    - injection H as <- <-. eapply QUIET; [| |reflexivity|cbn; lia]; [reflexivity|]. intros. apply tab_lock.
    - destruct (rw_write i (lock_of (shard_of k) c)) as [l|]; [|discriminate]. injection H as <- <-. eapply QUIET; [| |reflexivity|cbn; lia]; [reflexivity|]. intros. apply tab_lock.
    - destruct (find_key keqb k (tab_of (shard_of k) c)) as [e|]; injection H as <- <-; [eapply QUIET; [| |reflexivity|cbn; lia]; reflexivity|].
      enough (X : vec_inv (add_guard i h (shard_of k) [(k, v_next c)] (next_id (set_shard_tab (shard_of k)
          (tab_of (shard_of k) c ++ [{| e_key := k; e_id := v_next c; e_sh := sh_new |}]) c))) /\
        forall other, True -> vec_rank other (add_guard i h (shard_of k) [(k, v_next c)] (next_id (set_shard_tab (shard_of k)
          (tab_of (shard_of k) c ++ [{| e_key := k; e_id := v_next c; e_sh := sh_new |}]) c))) <= vec_rank other c + 0).
      { destruct X as [A B]. split; [exact A|]. split; [exact I|]. exists 0. split; [exact B|]. cbn. lia. }
      destruct (IC (shard_of k)) as [ND BD].
      eapply (change c _ (shard_of k)).
      + intros s'. apply tab_tab.
      + cbn. lia.
      + exact IC.
      + cbn [v_next add_guard set_guards next_id set_shard_tab]. split.
        * rewrite map_app. cbn [map e_id]. apply (Permutation.Permutation_NoDup (Permutation.Permutation_cons_append _ _)). constructor; [|exact ND].
          intros I. apply in_map_iff in I as (e & E & I). apply BD in I. lia.
        * intros e I. apply in_app_or in I as [I|[<-|[]]]; [apply BD in I; split; [lia|apply I]|cbn; split; [lia|exact inv0]].
      + intros id m. unfold in_rank. cbn [v_next add_guard set_guards next_id set_shard_tab].
        destruct (Nat.leb_spec (S (v_next c)) id) as [L|L], (Nat.leb_spec (v_next c) id) as [L'|L']; try lia.
        * destruct (find_id id _) as [e|] eqn:F; [|lia]. apply find_id_in in F as [I _]. apply in_app_or in I as [I|[<-|[]]].
          -- pose proof (top m (e_sh e) (proj2 (BD e I))). lia.
          -- cbn [e_sh]. pose proof (top m sh_new inv0). lia.
        * rewrite find_snoc by (cbn; lia). lia.
      + intros s' id m NE. unfold in_rank. cbn [v_next add_guard set_guards next_id set_shard_tab].
        destruct (Nat.leb_spec (S (v_next c)) id) as [L|L], (Nat.leb_spec (v_next c) id) as [L'|L']; try lia.
        destruct (find_id id (tab_of s' c)) as [e|] eqn:F; [|lia]. apply find_id_in in F as [I EI]. apply (IC s') in I. lia.
    - injection H as <- <-. eapply QUIET; [| |reflexivity|cbn; lia]; [reflexivity|]. intros. apply tab_lock.
    - destruct (find_key keqb k (tab_of (shard_of k) c)) as [e|]; injection H as <- <-; eapply QUIET; reflexivity || exact I.
    - destruct (find_guard i h c) as [g|]; [destruct (ref_of keqb k g) as [id|]|]; injection H as <- <-;
        (eapply QUIET; [reflexivity|reflexivity|reflexivity|]); try exact I. cbn [vec_rank]. pose proof (in_top id (m_begin O u) _ _ (IC (g_shard g))). lia.
    - destruct (find_id id (tab_of s c)) as [e|] eqn:F; [|injection H as <- <-; eapply QUIET; reflexivity || exact I].
      destruct (find_id_in _ _ _ F) as [IE EI]. destruct (IC s) as [ND BD]. destruct (BD e IE) as [LT IS].
      destruct (m_step O i ch m (e_sh e)) as [[sh' y]|] eqn:ST; [|discriminate].
      destruct (stp _ _ _ _ _ _ IS ST) as (IS' & d & D & RK).
      assert (X : vec_inv (set_shard_tab s (set_sh id sh' (tab_of s c)) c) /\
        forall other, True -> vec_rank other (set_shard_tab s (set_sh id sh' (tab_of s c)) c) <= vec_rank other c + d).
      { eapply (change c _ s).
        - intros s'. apply tab_tab.
        - cbn. lia.
        - exact IC.
        - cbn [v_next set_shard_tab]. split; [now rewrite set_ids|]. intros e' I. unfold set_sh in I. apply in_map_iff in I as (e0 & <- & I).
          apply BD in I. destruct (Nat.eqb (e_id e0) id); cbn; [split; [apply I|exact IS']|exact I].
        - intros id' m'. unfold in_rank. cbn [v_next set_shard_tab]. destruct (Nat.leb (v_next c) id'); [lia|]. rewrite find_set.
          destruct (find_id id' (tab_of s c)) as [e'|] eqn:F'; [|lia]. destruct (Nat.eqb_spec (e_id e') id) as [E|E]; [|lia]. cbn [e_sh].
          destruct (find_id_in _ _ _ F') as [_ E']. assert (id' = id) as -> by congruence. rewrite F in F'. injection F' as <-. pose proof (D m'). lia.
        - intros s' id' m' _. cbn [v_next set_shard_tab]. lia. }
      assert (NB : Nat.leb (v_next c) id = false) by (apply Nat.leb_gt; lia).
      assert (RK1 : vec_rank (MIn s id m) c = 1 + rank m (e_sh e)) by (cbn [vec_rank]; unfold in_rank; now rewrite NB, F).
      destruct X as [A B]. destruct y as [m'|r]; injection H as <- <-; (split; [exact A|]); (split; [exact I|]); exists d; (split; [exact B|]);
        (destruct (bad ch m (e_sh e)); [exact RK|]); rewrite RK1; [|lia].
      cbn [vec_rank]. unfold in_rank. rewrite tab_tab, Nat.eqb_refl. cbn [v_next set_shard_tab]. rewrite NB, find_set, F, EI, Nat.eqb_refl. cbn [e_sh]. lia.
    - destruct (find_guard i h c) as [g|]; injection H as <- <-; (eapply QUIET; [| |reflexivity|exact I]; [reflexivity|]); intros; [apply (tab_lock (g_shard g) _ (set_guards (drop_guard i h (v_guards c)) c))|reflexivity].
    - injection H as <- <-. eapply QUIET; [| |reflexivity|cbn; lia]; [reflexivity|]. intros. apply tab_lock.
    - destruct (rw_write i (lock_of (shard_of k) c)) as [l|]; [|discriminate]. injection H as <- <-. eapply QUIET; [| |reflexivity|cbn; lia]; [reflexivity|]. intros. apply tab_lock.
    - destruct (find_key keqb k (tab_of (shard_of k) c)) as [e|]; injection H as <- <-; [|eapply QUIET; [| |reflexivity|cbn; lia]; reflexivity].
      enough (X : vec_inv (set_shard_tab (shard_of k) (remove_key keqb k (tab_of (shard_of k) c)) c) /\
        forall other, True -> vec_rank other (set_shard_tab (shard_of k) (remove_key keqb k (tab_of (shard_of k) c)) c) <= vec_rank other c + 0).
      { destruct X as [A B]. split; [exact A|]. split; [exact I|]. exists 0. split; [exact B|]. cbn. lia. }
      destruct (IC (shard_of k)) as [ND BD]. eapply (change c _ (shard_of k)).
      + intros s'. apply tab_tab.
      + cbn. lia.
      + exact IC.
      + cbn [v_next set_shard_tab]. split; [now apply nodup_filter|]. intros e' I. apply filter_In in I as [I _]. now apply BD.
      + intros id m. unfold in_rank. cbn [v_next set_shard_tab]. destruct (Nat.leb (v_next c) id); [lia|].
        destruct (find_filter id (fun e => negb (keqb (e_key e) k)) _ ND) as [E|E]; unfold remove_key; rewrite E; [|lia].
        destruct (find_id id (tab_of (shard_of k) c)); lia.
      + intros s' id m _. cbn [v_next set_shard_tab]. lia.
    - injection H as <- <-. eapply QUIET; [| |reflexivity|exact I]; [reflexivity|]. intros. apply tab_lock.
    - destruct (held i h c); [|destruct (rw_read i ch (lock_of s c)) as [l|]; [|discriminate]]; injection H as <- <-;
        (eapply QUIET; [| |reflexivity|cbn; lia || exact I]; [reflexivity|]); intros; [reflexivity|apply tab_lock].
    - injection H as <- <-. eapply QUIET; [| |reflexivity|exact I]; reflexivity.
  Qed.
End Sparse.
