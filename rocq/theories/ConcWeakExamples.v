(** Executions the memory model allows. *)
From Coq Require Import List NArith ZArith Bool Arith Lia.
From Verif Require Import Base FloatModel MetricModel ConcModel ConcWeakModel ConcWeakSpec.
Import ListNotations.

(** ** Executions given by lists, and a check of the axioms *)

Record finite_execution (V : Type) := {
  fx_accesses : list (nat * access V);
  fx_init : V;
  fx_rf : list (option nat);
  fx_mo : list (list nat);               (* per cell *)
  fx_hb : list (nat * nat) }.
Arguments fx_accesses {V}. Arguments fx_init {V}. Arguments fx_rf {V}. Arguments fx_mo {V}. Arguments fx_hb {V}.

Definition execution_of {V} (F : finite_execution V) : execution V :=
  {| x_accesses := fx_accesses F; x_init := fun _ => fx_init F; x_rf := fun e => nth e (fx_rf F) None;
     x_mo := fun c => nth c (fx_mo F) []; x_hb := fun a b => In (a, b) (fx_hb F) |}.

Definition pair_eqb (p q : nat * nat) : bool := Nat.eqb (fst p) (fst q) && Nat.eqb (snd p) (snd q).
Definition inb (p : nat * nat) (l : list (nat * nat)) : bool := existsb (pair_eqb p) l.

Section Check.
  Context {V : Type} (eqb : V -> V -> bool) (EQB : forall a b, eqb a b = true -> a = b).
  Variable F : finite_execution V.
  Let E := execution_of F.
  Let at_ (e : nat) : option (nat * access V) := nth_error (fx_accesses F) e.
  Definition wrote (e c : nat) : option V :=
    match at_ e with Some (c', a) => if Nat.eqb c' c then value_written a else None | None => None end.
  Definition reads_of (e : nat) : option (nat * V) :=
    match at_ e with Some (c, a) => match value_read a with Some v => Some (c, v) | None => None end | None => None end.
  Fixpoint nodupb (l : list nat) : bool := match l with [] => true | x :: t => negb (existsb (Nat.eqb x) t) && nodupb t end.

  Definition check : bool :=
    forallb (fun p => forallb (fun q => negb (Nat.eqb (snd p) (fst q)) || inb (fst p, snd q) (fx_hb F)) (fx_hb F)) (fx_hb F) &&
    forallb (fun p => negb (Nat.eqb (fst p) (snd p))) (fx_hb F) &&
    forallb nodupb (fx_mo F) &&
    forallb (fun c => forallb (fun e => match wrote e c with Some _ => true | None => false end) (nth c (fx_mo F) [])) (seq 0 (length (fx_mo F))) &&
    forallb (fun e => match at_ e with
                      | Some (c, a) => match value_written a with Some _ => existsb (Nat.eqb e) (nth c (fx_mo F) []) | None => true end
                      | None => true end) (seq 0 (length (fx_accesses F))) &&
    forallb (fun e => match reads_of e with
                      | Some (c, v) => match nth e (fx_rf F) None with
                                       | None => eqb v (fx_init F)
                                       | Some w => match wrote w c with Some v' => eqb v' v | None => false end
                                       end
                      | None => true end) (seq 0 (length (fx_accesses F))) &&
    forallb (fun p =>
      let (a, b) := p : nat * nat in
      forallb (fun c =>
        (* write-write *)
        match wrote a c, wrote b c with Some _, Some _ => Nat.ltb (rank E c (Some a)) (rank E c (Some b)) | _, _ => true end &&
        match reads_of a, wrote b c with Some (c', _), Some _ => negb (Nat.eqb c' c) || Nat.ltb (rank E c (x_rf E a)) (rank E c (Some b)) | _, _ => true end &&
        match wrote a c, reads_of b with Some _, Some (c', _) => negb (Nat.eqb c' c) || Nat.leb (rank E c (Some a)) (rank E c (x_rf E b)) | _, _ => true end &&
        match reads_of a, reads_of b with
        | Some (c', _), Some (c'', _) => negb (Nat.eqb c' c) || negb (Nat.eqb c'' c) || Nat.leb (rank E c (x_rf E a)) (rank E c (x_rf E b))
        | _, _ => true end)
        (map fst (fx_accesses F))) (fx_hb F) &&
    forallb (fun e => match at_ e with
                      | Some (c, AUpdate _ _) => Nat.eqb (rank E c (Some e)) (S (rank E c (x_rf E e)))
                      | _ => true end) (seq 0 (length (fx_accesses F))).

  Lemma nodupb_ok : forall l, nodupb l = true -> NoDup l.
  Proof.
    induction l as [|x l IH]; intros H; constructor; cbn in H; apply andb_true_iff in H as [A B].
    - intros I. apply negb_true_iff in A. assert (existsb (Nat.eqb x) l = true) by (apply existsb_exists; exists x; split; [exact I|apply Nat.eqb_refl]). congruence.
    - now apply IH.
  Qed.

  Lemma inb_ok : forall p l, inb p l = true -> In p l.
  Proof.
    intros [a b] l H. apply existsb_exists in H as ([c d] & I & Q). unfold pair_eqb in Q. cbn in Q. apply andb_true_iff in Q as [X Y].
    apply Nat.eqb_eq in X, Y. now subst.
  Qed.

  Lemma at_bound : forall e c a, access_at E e c a -> In e (seq 0 (length (fx_accesses F))) /\ In c (map fst (fx_accesses F)).
  Proof.
    intros e c a H. unfold access_at in H. split.
    - apply in_seq. assert (e < length (fx_accesses F)) by (apply nth_error_Some; cbn in H; congruence). lia.
    - apply in_map_iff. exists (c, a). split; [reflexivity|]. eapply nth_error_In, H.
  Qed.

  Lemma check_ok : check = true -> consistent E.
  Proof.
    unfold check. rewrite !andb_true_iff. intros (((((((T & I) & ND) & MW) & WM) & RF) & CO) & AT).
    rewrite forallb_forall in T, I, ND, MW, WM, RF, CO, AT.
    assert (MO : forall c e, In e (x_mo E c) -> exists a w, access_at E e c a /\ value_written a = Some w).
    { intros c e H. cbn in H. destruct (Nat.lt_ge_cases c (length (fx_mo F))) as [L|L]; [|rewrite nth_overflow in H by lia; destruct H].
      specialize (MW c ltac:(apply in_seq; lia)). rewrite forallb_forall in MW. specialize (MW e H). unfold wrote, at_ in MW.
      destruct (nth_error (fx_accesses F) e) as [[c' a]|] eqn:A; [|discriminate]. destruct (Nat.eqb_spec c' c) as [->|]; [|discriminate].
      destruct (value_written a) as [w|] eqn:VW; [|discriminate]. exists a, w. now split. }
    assert (WROTE : forall c e, In e (x_mo E c) -> exists w, wrote e c = Some w /\ In c (map fst (fx_accesses F))).
    { intros c e H. destruct (MO c e H) as (a & w & A & VW). exists w. split; [|now apply at_bound in A].
      unfold wrote, at_. unfold access_at in A. cbn in A. rewrite A, Nat.eqb_refl. exact VW. }
    assert (READ : forall e c a v, access_at E e c a -> value_read a = Some v -> reads_of e = Some (c, v)).
    { intros e c a v A R. unfold reads_of, at_. unfold access_at in A. cbn in A. now rewrite A, R. }
    constructor.
    - intros a b c AB BC. specialize (T _ AB). rewrite forallb_forall in T. specialize (T _ BC). cbn in T. rewrite Nat.eqb_refl in T. now apply inb_ok.
    - intros a A. specialize (I _ A). cbn in I. now rewrite Nat.eqb_refl in I.
    - intros c. cbn. destruct (Nat.lt_ge_cases c (length (fx_mo F))) as [L|L]; [|rewrite nth_overflow by lia; constructor].
      apply nodupb_ok, ND, nth_In, L.
    - intros c e. split; [apply MO|]. intros (a & w & A & VW). destruct (at_bound _ _ _ A) as [B _]. specialize (WM e B). unfold at_ in WM.
      unfold access_at in A. cbn in A. rewrite A, VW in WM. apply existsb_exists in WM as (x & X & Q). apply Nat.eqb_eq in Q. now subst.
    - intros e c a v A R. destruct (at_bound _ _ _ A) as [B _]. specialize (RF e B). rewrite (READ _ _ _ _ A R) in RF. cbn.
      destruct (nth e (fx_rf F) None) as [w|]; [|now apply EQB]. unfold wrote, at_ in RF.
      destruct (nth_error (fx_accesses F) w) as [[c' b]|] eqn:W; [|discriminate]. destruct (Nat.eqb_spec c' c) as [->|]; [|discriminate].
      destruct (value_written b) as [v'|] eqn:VW; [|discriminate]. apply EQB in RF as ->. exists b. now split.
    - intros c a b MA MB H. specialize (CO _ H). cbn in CO. rewrite forallb_forall in CO.
      destruct (WROTE _ _ MA) as (wa & WA & IA). destruct (WROTE _ _ MB) as (wb & WB & _). specialize (CO c IA). rewrite WA, WB in CO.
      rewrite !andb_true_iff in CO. now apply Nat.ltb_lt.
    - intros c r a v w A R MB H. specialize (CO _ H). cbn beta iota in CO. rewrite forallb_forall in CO. destruct (WROTE _ _ MB) as (wb & WB & IB).
      specialize (CO c IB). rewrite (READ _ _ _ _ A R), WB in CO. rewrite !andb_true_iff, Nat.eqb_refl in CO. now apply Nat.ltb_lt.
    - intros c w r a v MA A R H. specialize (CO _ H). cbn beta iota in CO. rewrite forallb_forall in CO. destruct (WROTE _ _ MA) as (wa & WA & IA).
      specialize (CO c IA). rewrite (READ _ _ _ _ A R), WA in CO. rewrite !andb_true_iff, Nat.eqb_refl in CO. now apply Nat.leb_le.
    - intros c r s a b v w A R B S H. specialize (CO _ H). cbn beta iota in CO. rewrite forallb_forall in CO. destruct (at_bound _ _ _ A) as [_ IC].
      specialize (CO c IC). rewrite (READ _ _ _ _ A R), (READ _ _ _ _ B S) in CO. rewrite !andb_true_iff, Nat.eqb_refl in CO. now apply Nat.leb_le.
    - intros c e v w A. destruct (at_bound _ _ _ A) as [B _]. specialize (AT e B). unfold at_ in AT. unfold access_at in A. cbn in A. rewrite A in AT.
      now apply Nat.eqb_eq.
  Qed.
End Check.

(** Every pair of a list in its order; every pair from one list to another. *)
Fixpoint chain (l : list nat) : list (nat * nat) := match l with [] => [] | x :: t => map (fun y => (x, y)) t ++ chain t end.

Lemma z_eqb_ok : forall a b : Z, Z.eqb a b = true -> a = b. Proof. intros a b. apply Z.eqb_eq. Qed.
Lemma n_eqb_ok : forall a b : N, N.eqb a b = true -> a = b. Proof. intros a b. apply N.eqb_eq. Qed.

Definition call {Op Res} (op : Op) (r : Res) (es : list nat) : wcall Op Res := {| k_op := op; k_res := r; k_accesses := es |}.

(** ** A counter: two threads increment and read; a read after both *)
Definition ex_counter_F : finite_execution N :=
  {| fx_accesses := [(0%nat, AUpdate 0 2); (0%nat, AUpdate 2 3); (0%nat, ARead 2); (0%nat, ARead 3); (0%nat, ARead 3)]%N;
     fx_init := 0%N; fx_rf := [None; Some 0; Some 0; Some 1; Some 1]; fx_mo := [[0; 1]];
     fx_hb := [(0, 2); (1, 3); (0, 4); (1, 4); (2, 4); (3, 4)] |}.
Definition ex_counter_ks : list (wcall counter_op N) :=
  [call (KIncBy 2) 0%N [0]; call KInc 0%N [1]; call KRead 2%N [2]; call KRead 3%N [3]; call KRead 3%N [4]].

Ltac all_calls := let k := fresh in let H := fresh in
  intros k H; cbn in H; repeat destruct H as [<-|H]; [..|destruct H]; cbn.
Ltac mo_cells := intros [|[|[|c]]] e H; cbn in H |- *; try tauto; destruct c; destruct H.
Ltac nodup := repeat (constructor; [cbn; intuition discriminate|]); constructor.

Lemma ex_counter_ok : consistent (execution_of ex_counter_F) /\ calls_of counter_does (execution_of ex_counter_F) ex_counter_ks.
Proof.
  split; [apply (check_ok N.eqb n_eqb_ok); vm_compute; reflexivity|]. constructor.
  - all_calls; (eexists; split; [constructor; [reflexivity|constructor]|]); constructor.
  - cbn. nodup.
  - mo_cells.
Qed.

(** ** A gauge: inc_by and dec concurrently, and set *)
Definition ex_gauge_F : finite_execution Z :=
  {| fx_accesses := [(0%nat, AUpdate 0 5); (0%nat, AUpdate 5 4); (0%nat, ARead 4); (0%nat, AWrite 7); (0%nat, ARead 4)]%Z;
     fx_init := 0%Z; fx_rf := [None; Some 0; Some 1; None; Some 1]; fx_mo := [[0; 1; 3]];
     fx_hb := [(0, 2); (1, 2); (0, 4); (1, 4); (2, 4)] |}.
Definition ex_gauge_ks : list (wcall igauge_op Z) :=
  [call (IWrite (GIncBy 5)) 0%Z [0]; call (IWrite GDec) 0%Z [1]; call IRead 4%Z [2]; call (IWrite (GSet 7)) 0%Z [3]; call IRead 4%Z [4]].

Lemma ex_gauge_ok : consistent (execution_of ex_gauge_F) /\ calls_of igauge_does (execution_of ex_gauge_F) ex_gauge_ks.
Proof.
  split; [apply (check_ok Z.eqb z_eqb_ok); vm_compute; reflexivity|]. constructor.
  - all_calls; (eexists; split; [constructor; [reflexivity|constructor]|]);
      [apply (ID_update (GIncBy 5) 0); discriminate|apply (ID_update GDec 5); discriminate|constructor|constructor|constructor].
  - cbn. nodup.
  - mo_cells.
Qed.

Definition ex_gauge_sum_F : finite_execution Z :=
  {| fx_accesses := [(0%nat, AUpdate 0 5); (0%nat, AUpdate 5 4); (0%nat, ARead 4)]%Z;
     fx_init := 0%Z; fx_rf := [None; Some 0; Some 1]; fx_mo := [[0; 1]]; fx_hb := [(0, 2); (1, 2)] |}.
Definition ex_gauge_sum_ks : list (wcall igauge_op Z) :=
  [call (IWrite (GIncBy 5)) 0%Z [0]; call (IWrite GDec) 0%Z [1]; call IRead 4%Z [2]].

Lemma ex_gauge_sum_ok : consistent (execution_of ex_gauge_sum_F) /\ calls_of igauge_does (execution_of ex_gauge_sum_F) ex_gauge_sum_ks.
Proof.
  split; [apply (check_ok Z.eqb z_eqb_ok); vm_compute; reflexivity|]. constructor.
  - all_calls; (eexists; split; [constructor; [reflexivity|constructor]|]);
      [apply (ID_update (GIncBy 5) 0); discriminate|apply (ID_update GDec 5); discriminate|constructor].
  - cbn. nodup.
  - mo_cells.
Qed.

(** ** A float gauge: two inc_by, one of which fails once *)
Definition ex_float_F : finite_execution N :=
  {| fx_accesses := [(0%nat, ARead (0%N)); (0%nat, ARead f_one); (0%nat, ARead f_one); (0%nat, AUpdate f_one (f_of_Z 3));
                     (0%nat, ARead (0%N)); (0%nat, AUpdate (0%N) f_one); (0%nat, ARead (f_of_Z 3))];
     fx_init := (0%N); fx_rf := [None; Some 5; Some 5; Some 5; None; None; Some 3]; fx_mo := [[5; 3]];
     fx_hb := chain [0; 1; 2; 3; 6] ++ chain [4; 5] |}.
Definition ex_float_ks : list (wcall float_op N) :=
  [call (FWrite (FIncBy (f_of_Z 2))) 0%N [0; 1; 2; 3]; call (FWrite FInc) 0%N [4; 5]; call FRead (f_of_Z 3) [6]].

Lemma ex_float_ok : consistent (execution_of ex_float_F) /\ calls_of float_does (execution_of ex_float_F) ex_float_ks.
Proof.
  split; [apply (check_ok N.eqb n_eqb_ok); vm_compute; reflexivity|]. constructor.
  - all_calls; (eexists; split; [repeat (constructor; [reflexivity|]); constructor|]).
    + apply (FD_loop (FIncBy (f_of_Z 2)) (f_of_Z 2)); [reflexivity|]. apply LD_again.
      replace (f_of_Z 3) with (f_add f_one (f_of_Z 2)) by (vm_compute; reflexivity). apply LD_done.
    + apply (FD_loop FInc f_one); [reflexivity|]. replace f_one with (f_add (0%N) f_one) by (vm_compute; reflexivity). apply LD_done.
    + constructor.
  - cbn. nodup.
  - mo_cells.
Qed.

(** ** A histogram with one bucket: two observations concurrently, a sample, an observation *)
Definition ex_hist_F : finite_execution N :=
  {| fx_accesses := [(0%nat, AUpdate 0 1); (2%nat, ARead (0%N)); (2%nat, ARead (f_of_Z 2)); (2%nat, ARead (f_of_Z 2)); (2%nat, AUpdate (f_of_Z 2) (f_of_Z 3));
                     (1%nat, AUpdate 0 1); (2%nat, ARead (0%N)); (2%nat, AUpdate (0%N) (f_of_Z 2));
                     (0%nat, ARead 1); (1%nat, ARead 1); (2%nat, ARead (f_of_Z 3));
                     (0%nat, AUpdate 1 2); (2%nat, ARead (f_of_Z 3)); (2%nat, AUpdate (f_of_Z 3) (f_of_Z 4))]%N;
     fx_init := 0%N;
     fx_rf := [None; None; Some 7; Some 7; Some 7; None; None; None; Some 0; Some 5; Some 4; Some 0; Some 4; Some 4];
     fx_mo := [[0; 11]; [5]; [7; 4; 13]];
     fx_hb := chain [0; 1; 2; 3; 4] ++ chain [5; 6; 7] ++ chain [8; 9; 10; 11; 12; 13] ++
              list_prod [0; 1; 2; 3; 4; 5; 6; 7] [8; 9; 10; 11; 12; 13] |}.
Definition ex_hist_ks : list (wcall hist_op hist_res) :=
  [call (HObserve 0 f_one) (Some ([], 0, 0)%N) [0; 1; 2; 3; 4]; call (HObserve 1 (f_of_Z 2)) (Some ([], 0, 0)%N) [5; 6; 7];
   call HSample (Some ([1], 1, f_of_Z 3)%N) [8; 9; 10]; call (HObserve 0 f_one) (Some ([], 0, 0)%N) [11; 12; 13]].

Lemma ex_hist_ok : consistent (execution_of ex_hist_F) /\ calls_of (hist_does 1) (execution_of ex_hist_F) ex_hist_ks /\
  locked (execution_of ex_hist_F) ex_hist_ks.
Proof.
  split; [apply (check_ok N.eqb n_eqb_ok); vm_compute; reflexivity|]. split; [constructor|].
  - all_calls; (eexists; split; [repeat (constructor; [reflexivity|]); constructor|]).
    + apply (HD_observe 1 0 f_one 0); [lia|]. apply LD_again. replace (f_of_Z 3) with (f_add (f_of_Z 2) f_one) by (vm_compute; reflexivity). apply LD_done.
    + apply (HD_observe 1 1 (f_of_Z 2) 0); [lia|]. replace (f_of_Z 2) with (f_add (0%N) (f_of_Z 2)) by (vm_compute; reflexivity). apply LD_done.
    + apply (HD_sample 1 [1%N] 1 (f_of_Z 3)). reflexivity.
    + apply (HD_observe 1 0 f_one 1); [lia|]. replace (f_of_Z 4) with (f_add (f_of_Z 3) f_one) by (vm_compute; reflexivity). apply LD_done.
  - cbn. nodup.
  - mo_cells.
  - intros p q k k' P Q NE S.
    assert (q = 2) as ->.
    { destruct q as [|[|[|[|q]]]]; cbn in Q; try (injection Q as <-; discriminate); [reflexivity|destruct q; discriminate]. }
    injection Q as <-.
    destruct p as [|[|[|[|p]]]]; cbn in P; [| |contradiction| |destruct p; discriminate]; injection P as <-; [left|left|right];
      intros e f I J; apply inb_ok; repeat destruct I as [<-|I]; try (now destruct I); repeat destruct J as [<-|J]; try (now destruct J); reflexivity.
Qed.

(** ** Two counters: no order of all accesses *)

(** Calls on counters in several cells. *)
Definition counters_do (op : nat * counter_op) (r : N) (l : list (nat * access N)) : Prop :=
  exists a, counter_does (snd op) r [(0, a)] /\ l = [(fst op, a)].

(** One thread increments counter 0 and then counter 1; another reads counter 1
    and then counter 0. *)
Definition ex_two_F : finite_execution N :=
  {| fx_accesses := [(0%nat, AUpdate 0 1); (1%nat, AUpdate 0 1); (1%nat, ARead 1); (0%nat, ARead 0)]%N;
     fx_init := 0%N; fx_rf := [None; None; Some 1; None]; fx_mo := [[0]; [1]]; fx_hb := [(0, 1); (2, 3)] |}.
Definition ex_two_ks : list (wcall (nat * counter_op) N) :=
  [call (0, KInc) 0%N [0]; call (1, KInc) 0%N [1]; call (1, KRead) 1%N [2]; call (0, KRead) 0%N [3]].

Lemma ex_two_ok : consistent (execution_of ex_two_F) /\ calls_of counters_do (execution_of ex_two_F) ex_two_ks.
Proof.
  split; [apply (check_ok N.eqb n_eqb_ok); vm_compute; reflexivity|]. constructor.
  - all_calls; (eexists; split; [constructor; [reflexivity|constructor]|]); (eexists; split; [|reflexivity]); constructor.
  - cbn. nodup.
  - mo_cells.
Qed.

Lemma two_counters_apart : exists E (ks : list (wcall (nat * counter_op) N)) k0 k1 k2 k3,
  consistent E /\ calls_of counters_do E ks /\ ks = [k0; k1; k2; k3] /\
  (k_op k0 = (0, KInc) /\ k_op k1 = (1, KInc) /\ before E k0 k1) /\
  (k_op k2 = (1, KRead) /\ k_op k3 = (0, KRead) /\ before E k2 k3) /\
  k_res k2 = 1%N /\ k_res k3 = 0%N.
Proof.
  eexists (execution_of ex_two_F), ex_two_ks, _, _, _, _. split; [apply ex_two_ok|]. split; [apply ex_two_ok|]. split; [reflexivity|].
  split; [|split; [|split; reflexivity]]; (split; [reflexivity|]); (split; [reflexivity|]); intros e f [<-|[]] [<-|[]]; apply inb_ok; reflexivity.
Qed.
