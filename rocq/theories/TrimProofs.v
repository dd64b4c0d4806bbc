(** [trim] removes exactly the surrounding white space. *)
From Coq Require Import List NArith Bool Lia.
From Verif Require Import Base EncoderModel TextSpec.
Import ListNotations.
Local Open Scope N_scope.

Lemma strip_prefix_some : forall p s r, strip_prefix p s = Some r <-> s = p ++ r.
Proof.
  induction p as [|x p IH]; intros s r; cbn [strip_prefix app].
  - split; congruence.
  - destruct s as [|y s]; [split; discriminate|]. destruct (N.eqb_spec x y) as [->|N].
    + rewrite IH. split; congruence.
    + split; congruence.
Qed.

Section Strip.
  Variable ps : list bytes.
  Hypothesis NE : Forall (fun p => p <> []) ps.
  (** No pattern begins another. *)
  Hypothesis CODE : forall p q x y, In p ps -> In q ps -> p ++ x = q ++ y -> p = q.

  Definition starts (s : bytes) : Prop := exists p r, In p ps /\ s = p ++ r.
  Definition run (s : bytes) : Prop := exists l, Forall (fun p => In p ps) l /\ s = concat l.

  Lemma strip_one_some : forall l s r, strip_one l s = Some r -> exists p, In p l /\ s = p ++ r.
  Proof.
    induction l as [|p l IH]; intros s r E; cbn [strip_one] in E; [discriminate|].
    destruct (strip_prefix p s) as [r'|] eqn:P.
    - injection E as ->. apply strip_prefix_some in P. exists p. split; [now left|exact P].
    - destruct (IH s r E) as (q & I & Q). exists q. split; [now right|exact Q].
  Qed.
  Lemma strip_one_none : forall l s, strip_one l s = None -> forall p r, In p l -> s <> p ++ r.
  Proof.
    induction l as [|q l IH]; intros s E p r I F; cbn [strip_one] in E; [destruct I|].
    destruct (strip_prefix q s) as [r'|] eqn:P; [discriminate|]. destruct I as [->|I].
    - apply strip_prefix_some in F. congruence.
    - exact (IH s E p r I F).
  Qed.

  Lemma strip_all_split : forall n s, (length s <= n)%nat ->
    exists a, s = a ++ strip_all ps n s /\ run a /\ ~ starts (strip_all ps n s).
  Proof.
    induction n as [|n IH]; intros s L; cbn [strip_all].
    - destruct s; [|cbn in L; lia]. exists []. split; [reflexivity|]. split; [exists []; auto|].
      intros (p & r & I & E). rewrite Forall_forall in NE. specialize (NE p I). destruct p; [now apply NE|discriminate].
    - destruct (strip_one ps s) as [r|] eqn:O.
      + apply strip_one_some in O as (p & I & ->).
        assert (LP : (1 <= length p)%nat). { rewrite Forall_forall in NE. specialize (NE p I). destruct p; [congruence|cbn; lia]. }
        rewrite app_length in L. destruct (IH r ltac:(lia)) as (a & E & (l & F & ->) & S).
        exists (p ++ concat l). split; [now rewrite <- app_assoc, <- E|]. split; [|exact S]. exists (p :: l). split; [now constructor|reflexivity].
      + exists []. split; [reflexivity|]. split; [exists []; auto|].
        intros (p & r & I & E). exact (strip_one_none _ _ O p r I E).
  Qed.

  Lemma strip_all_exact : forall l u n, Forall (fun p => In p ps) l -> ~ starts u -> (length (concat l ++ u) <= n)%nat ->
    strip_all ps n (concat l ++ u) = u.
  Proof.
    induction l as [|p l IH]; intros u n F S L.
    - cbn [concat app] in *. destruct n as [|n]; cbn [strip_all]; [reflexivity|].
      destruct (strip_one ps u) as [r|] eqn:O; [|reflexivity]. apply strip_one_some in O as (p & I & E). exfalso. apply S. now exists p, r.
    - inversion F as [|? ? I F']; subst. cbn [concat] in *. rewrite <- app_assoc in *.
      assert (LP : (1 <= length p)%nat). { rewrite Forall_forall in NE. specialize (NE p I). destruct p; [congruence|cbn; lia]. }
      rewrite app_length in L. destruct n as [|n]; [lia|]. cbn [strip_all].
      destruct (strip_one ps (p ++ concat l ++ u)) as [r|] eqn:O.
      + apply strip_one_some in O as (q & J & E). pose proof (CODE p q _ _ I J E) as X. subst q. apply app_inv_head in E. subst r.
        apply IH; [assumption|assumption|lia].
      + exfalso. exact (strip_one_none _ _ O p _ I eq_refl).
  Qed.
End Strip.

(** ** The white characters *)

Lemma code_check : forall ps,
  forallb (fun p => forallb (fun q => match strip_prefix p q with Some r => match r with [] => true | _ => false end | None => true end) ps) ps = true ->
  forall p q x y, In p ps -> In q ps -> p ++ x = q ++ y -> p = q.
Proof.
  intros ps C p q x y I J E. rewrite forallb_forall in C.
  assert (H : forall p q, In p ps -> In q ps -> forall r, q = p ++ r -> p = q).
  { clear - C. intros p q I J r E. specialize (C p I). rewrite forallb_forall in C. specialize (C q J).
    rewrite (proj2 (strip_prefix_some p q r) E) in C. destruct r; [now rewrite app_nil_r in E|discriminate]. }
  apply app_eq_app in E. destruct E as (l & [[E _]|[E _]]).
  - symmetry. exact (H q p J I l E).
  - exact (H p q I J l E).
Qed.
Lemma white_code : forall p q x y, In p white_chars -> In q white_chars -> p ++ x = q ++ y -> p = q.
Proof. apply code_check. vm_compute. reflexivity. Qed.
Lemma white_rev_code : forall p q x y, In p (map (@rev N) white_chars) -> In q (map (@rev N) white_chars) -> p ++ x = q ++ y -> p = q.
Proof. apply code_check. vm_compute. reflexivity. Qed.
Lemma white_nonempty : Forall (fun p => p <> []) white_chars /\ Forall (fun p => p <> []) (map (@rev N) white_chars).
Proof. split; (cbn [map white_chars]; repeat (apply Forall_cons; [discriminate|])); apply Forall_nil. Qed.

Lemma white_char_iff : forall p, In p white_chars <-> exists c, white_space c /\ p = utf8_form c.
Proof.
  intros p. split.
  - intros I. cbn [In white_chars] in I.
    assert (H : exists c, In c [9; 10; 11; 12; 13; 0x20; 0x85; 0xA0; 0x1680; 0x2000; 0x2001; 0x2002; 0x2003; 0x2004; 0x2005; 0x2006; 0x2007; 0x2008; 0x2009; 0x200A;
      0x2028; 0x2029; 0x202F; 0x205F; 0x3000] /\ p = utf8_form c).
    { repeat (destruct I as [<-|I]; [match goal with |- exists c, In c ?l /\ ?w = _ =>
        let rec go l := lazymatch l with ?x :: ?l' => first [exists x; split; [cbn [In]; tauto|vm_compute; reflexivity]|go l'] end in go l end|]). destruct I. }
    destruct H as (c & J & E). exists c. split; [|exact E]. unfold white_space. cbn [In] in *. lia.
  - intros (c & W & ->).
    assert (H : In c [9; 10; 11; 12; 13; 0x20; 0x85; 0xA0; 0x1680; 0x2000; 0x2001; 0x2002; 0x2003; 0x2004; 0x2005; 0x2006; 0x2007; 0x2008; 0x2009; 0x200A;
      0x2028; 0x2029; 0x202F; 0x205F; 0x3000]) by (unfold white_space in W; cbn [In] in *; lia).
    clear W. cbn [In] in H. repeat (destruct H as [<-|H]; [vm_compute; tauto|]). destruct H.
Qed.

Lemma white_run : forall s, white s <-> run white_chars s.
Proof.
  intros s. split.
  - intros (cs & F & ->). exists (map utf8_form cs). split; [|reflexivity]. apply Forall_forall. intros p I. apply in_map_iff in I as (c & <- & J).
    apply white_char_iff. exists c. split; [|reflexivity]. rewrite Forall_forall in F. auto.
  - intros (l & F & ->). induction F as [|p l I F (cs & G & E)]; [now exists []|].
    apply white_char_iff in I as (c & W & ->). exists (c :: cs). split; [now constructor|]. cbn [concat map]. now rewrite E.
Qed.

Lemma run_rev : forall ps s, run ps s <-> run (map (@rev N) ps) (rev s).
Proof.
  assert (H : forall ps s, run ps s -> run (map (@rev N) ps) (rev s)).
  { intros ps s (l & F & ->). exists (rev (map (@rev N) l)). split.
    - apply Forall_rev, Forall_forall. intros q I. apply in_map_iff in I as (p & <- & J). rewrite Forall_forall in F. apply in_map. auto.
    - clear F. induction l as [|p l IH]; [reflexivity|]. cbn [concat map rev]. rewrite rev_app_distr, concat_app, IH. cbn [concat]. now rewrite app_nil_r. }
  intros ps s. split; [apply H|]. intros R. apply H in R. rewrite rev_involutive, map_map in R.
  now rewrite (map_ext _ (fun x => x)), map_id in R by apply rev_involutive.
Qed.

Lemma trim_trimmed : forall s, trimmed s (trim s).
Proof.
  intros s. unfold trim. destruct white_nonempty as [N1 N2].
  destruct (strip_all_split white_chars N1 (length s) s (le_n _)) as (a & E & R & S).
  set (u := strip_all white_chars (length s) s) in *.
  destruct (strip_all_split (map (@rev N) white_chars) N2 (length u) (rev u)) as (b & E' & R' & S'); [now rewrite rev_length|].
  set (v := strip_all (map (@rev N) white_chars) (length u) (rev u)) in *. clearbody u v.
  assert (Eu : u = rev v ++ rev b) by (rewrite <- rev_app_distr, <- E', rev_involutive; reflexivity).
  exists a, (rev b). split; [now rewrite E, Eu|]. split; [now apply white_run|].
  split; [apply white_run, run_rev; now rewrite rev_involutive|]. split.
  - intros c r W F. apply S. exists (utf8_form c), (r ++ rev b). split; [apply white_char_iff; eauto|]. rewrite Eu, F. now rewrite app_assoc.
  - intros c r W F. apply S'. exists (rev (utf8_form c)), (rev r). split; [apply in_map, white_char_iff; eauto|].
    apply (f_equal (@rev N)) in F. now rewrite rev_involutive, rev_app_distr in F.
Qed.

(** A white character does not begin inside another. *)
Lemma white_sync : forall p1 x p2, In (p1 ++ x :: p2) white_chars -> p1 <> [] -> forall q, In (x :: q) white_chars -> False.
Proof.
  intros p1 x p2 I N q J.
  assert (H : forallb (fun w => match w with [] => true | _ :: t => forallb (fun y => forallb (fun v => match v with z :: _ => negb (z =? y) | [] => true end) white_chars) t end) white_chars = true)
    by (vm_compute; reflexivity).
  rewrite forallb_forall in H. specialize (H _ I). destruct p1 as [|y p1]; [congruence|]. cbn [app] in H.
  rewrite forallb_forall in H. specialize (H x ltac:(apply in_or_app; right; now left)).
  rewrite forallb_forall in H. specialize (H _ J). cbn in H. rewrite N.eqb_refl in H. discriminate.
Qed.

Lemma trimmed_trim : forall s t, trimmed s t -> t = trim s.
Proof.
  intros s t (a & b & -> & A & B & H1 & H2). apply white_run in A as (la & FA & ->). apply white_run in B.
  destruct white_nonempty as [N1 N2]. unfold trim.
  destruct t as [|x t'].
  { destruct B as (lb & FB & ->). cbn [app].
    assert (E : concat la ++ concat lb = concat (la ++ lb) ++ []) by (rewrite concat_app, app_nil_r; reflexivity).
    rewrite E, (strip_all_exact white_chars N1 white_code (la ++ lb) [] (length (concat (la ++ lb) ++ []))).
    - reflexivity.
    - now apply Forall_app.
    - intros (p & r & I & F). rewrite Forall_forall in N1. specialize (N1 p I). destruct p; [now apply N1|discriminate].
    - apply le_n. }
  rewrite (strip_all_exact white_chars N1 white_code la ((x :: t') ++ b)); [|assumption| |apply le_n].
  2:{ intros (p & r & I & E). apply app_eq_app in E. destruct E as (l & [[E F]|[E F]]).
      - apply white_char_iff in I as (c & W & ->). exact (H1 c l W E).
      - destruct l as [|y l].
        + rewrite app_nil_r in E. subst p. apply white_char_iff in I as (c & W & E). apply (H1 c [] W). now rewrite app_nil_r.
        + destruct B as (lb & FB & ->). subst p. cbn [app] in F.
          destruct lb as [|q lb]; [discriminate F|]. inversion FB as [|? ? J _]; subst. rewrite Forall_forall in N1. specialize (N1 q J).
          destruct q as [|z q]; [congruence|]. cbn [concat app] in F. injection F as -> _. eapply white_sync; [exact I|discriminate|exact J]. }
  rewrite rev_app_distr. apply run_rev in B. destruct B as (lb & FB & EB). rewrite EB.
  rewrite (strip_all_exact (map (@rev N) white_chars) N2 white_rev_code lb (rev (x :: t'))).
  - now rewrite rev_involutive.
  - assumption.
  - intros (p & r & I & E). apply in_map_iff in I as (w & <- & I). apply white_char_iff in I as (c & W & ->).
    apply (H2 c (rev r) W). apply (f_equal (@rev N)) in E. now rewrite rev_involutive, rev_app_distr, rev_involutive in E.
  - rewrite <- EB, !app_length, !rev_length. lia.
Qed.

Lemma trimmed_unique : forall s t t', trimmed s t -> trimmed s t' -> t = t'.
Proof. intros s t t' A B. now rewrite (trimmed_trim _ _ A), (trimmed_trim _ _ B). Qed.
