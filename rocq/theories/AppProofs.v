(** The example server's invariant (C67). *)
From Coq Require Import String List NArith ZArith Bool Lia Permutation.
From Verif Require Import Base BaseFacts Writer NameModel NameSpec LabelModel LabelSpec LabelProofs GroupProofs LawProofs VecModel VecSpec VecProofs VecTheorems
  FloatModel FloatFacts FloatArith EncoderModel FamilyModel TextModel TextSpec EncoderSpec EncoderProofs TextTheorems MetricModel MetricSpec MetricProofs MetricTheorems HistTheorems
  ScrapeSpec ScrapeProofs ScrapeTheorems ScrapeVec CallModel EndSpec EndProofs EndTheorems AppModel AppSpec AppVec AppLives.
Import ListNotations.
Local Open Scope N_scope.

(* ------------------------------------------------------------------ *)
(** ** Status codes *)

Lemma nnth_seq : forall {A} (f : nat -> A) i, nnth (map f (seq 100 900)) i = if i <? 900 then Some (f (100 + N.to_nat i)%nat) else None.
Proof.
  intros A f i. rewrite nnth_nth_error. destruct (N.ltb_spec i 900) as [L|G].
  - rewrite (map_nth_error f (N.to_nat i) (seq 100 900) (d := (100 + N.to_nat i)%nat)); [reflexivity|].
    rewrite nth_error_nth' with (d := O) by (rewrite seq_length; lia). now rewrite seq_nth by lia.
  - apply nth_error_None. rewrite map_length, seq_length. lia.
Qed.

Lemma status_elements : elements (SStatic status_enum) = map (fun i => status_value (N.of_nat i)) (seq 100 900).
Proof. unfold elements, status_enum. cbn [en_variants]. now rewrite map_map. Qed.
Lemma status_nodup : NoDup (elements (SStatic status_enum)).
Proof.
  rewrite status_elements. apply FinFun.Injective_map_NoDup; [|apply seq_NoDup]. intros i j E. injection E as E. now apply Nnat.Nat2N.inj.
Qed.
Lemma status_in : forall c, In (status_value c) (elements (SStatic status_enum)) <-> 100 <= c <= 999.
Proof.
  intros c. rewrite status_elements, in_map_iff. split.
  - intros (i & E & I). injection E as <-. apply in_seq in I. lia.
  - intros B. exists (N.to_nat c). split; [unfold status_value; now rewrite Nnat.N2Nat.id|]. apply in_seq. lia.
Qed.

Lemma find_seq : forall {A} (f : nat -> A) (P : A -> bool) n len, (forall i, P (f i) = true <-> i = n) ->
  forall s, (s <= n < s + len)%nat -> find P (map f (seq s len)) = Some (f n).
Proof.
  intros A f P n len H. induction len as [|len IH]; intros s B; [lia|]. cbn [seq map find].
  destruct (P (f s)) eqn:E; [apply H in E; now subst|]. apply IH. assert (s <> n) by (intros ->; rewrite (proj2 (H n) eq_refl) in E; discriminate). lia.
Qed.

Theorem status_represented : forall bd heck,
  enum_cardinality status_enum = status_cardinality /\
  (forall c, 100 <= c <= 999 ->
     status_encode bd c = match enum_encode status_enum (status_value c) with Some i => Done i | None => Panic end /\
     enum_visit heck status_enum (status_value c) = Some (status_visit c)) /\
  (forall v, enum_decode status_enum v = match status_decode bd v with Done c => Done (status_value c) | Panic => Panic end).
Proof.
  intros bd heck. split; [reflexivity|]. split.
  - intros c B. split.
    + assert (E : enum_encode status_enum (status_value c) = Some (c - 100)).
      { unfold enum_encode. 
        assert (X : nnth (map v_ident (en_variants status_enum)) (c - 100) = Some (status_value c)).
        { cbn [status_enum en_variants]. rewrite map_map. cbn [v_ident]. rewrite nnth_seq. destruct (N.ltb_spec (c - 100) 900); [|lia]. f_equal.
          unfold status_value. f_equal. lia. }
        pose proof (nfind_beqb_NoDup _ _ _ status_nodup X) as Y. cbn [elements] in Y. rewrite <- Y. clear.
        generalize (en_variants status_enum) as l. induction l as [|v l IH]; [reflexivity|]. cbn [nfind map]. now rewrite IH. }
      rewrite E. unfold status_encode. destruct bd.
      * destruct (N.leb_spec 100 c); [reflexivity|lia].
      * f_equal. replace (c + W64 - 100) with (c - 100 + 1 * W64) by (unfold W64; lia). rewrite N.mod_add by (unfold W64; lia). apply N.mod_small. unfold W64; lia.
    + unfold enum_visit. cbn [status_enum en_variants].
      rewrite (find_seq _ _ (N.to_nat c) 900); [cbn [v_value]; unfold status_visit; now rewrite N_nat_Z| |lia].
      intros i. cbn [v_ident]. rewrite beqb_spec. unfold status_value. split; [intros E; injection E as ->; lia|intros ->; f_equal; lia].
  - intros v. unfold enum_decode. cbn [status_enum en_variants]. rewrite nnth_seq. unfold status_decode, http_from_u16.
    change (2 ^ 16) with 65536. destruct (N.ltb_spec v 900) as [L|G].
    + cbn [v_ident]. destruct (N.ltb_spec v 65536); [|lia].
      destruct bd; [destruct (N.ltb_spec (v + 100) 65536); [|lia]|rewrite N.mod_small by lia]; cbn [obind];
        destruct (N.leb_spec 100 (v + 100)), (N.leb_spec (v + 100) 999); try lia; cbn [andb]; unfold status_value; do 2 f_equal; lia.
    + destruct (N.ltb_spec v 65536); [|reflexivity].
      destruct bd; [destruct (N.ltb_spec (v + 100) 65536); [|reflexivity]|]; cbn [obind].
      * destruct (N.leb_spec 100 (v + 100)), (N.leb_spec (v + 100) 999); try lia; reflexivity.
      * destruct (N.lt_ge_cases (v + 100) 65536).
        -- rewrite N.mod_small by lia. destruct (N.leb_spec 100 (v + 100)), (N.leb_spec (v + 100) 999); try lia; reflexivity.
        -- replace (v + 100) with (v + 100 - 65536 + 1 * 65536) by lia. rewrite N.mod_add, N.mod_small by lia.
           destruct (N.leb_spec 100 (v + 100 - 65536)); [lia|reflexivity].
Qed.

(* ------------------------------------------------------------------ *)
(** ** The label sets *)

Section Sets.
  Variable acc : list bytes -> bytes -> bool.
  Notation P l := (SInterner acc l).

  Lemma method_nodup : NoDup (elements (SStatic method_enum)).
  Proof. cbn. repeat constructor; cbn; intuition discriminate. Qed.

  Lemma requests_sound : forall l, NoDup l -> sound_set (requests_set (P l)).
  Proof.
    intros l N. split; [split|split; [reflexivity|vm_compute; reflexivity]].
    - cbn. repeat constructor; cbn; intuition discriminate.
    - constructor; [exact N|]. constructor; [exact method_nodup|constructor].
  Qed.
  Lemma responses_sound : forall l, NoDup l -> sound_set (responses_set (P l)).
  Proof.
    intros l N.
    assert (C : combinations (responses_set (P l)) = 2700).
    { cbn [combinations responses_set fold_right path_field method_field status_field f_set is_dynamic]. rewrite status_elements, map_length, seq_length. reflexivity. }
    split; [split|rewrite C; split; [reflexivity|vm_compute; reflexivity]].
    - cbn. repeat constructor; cbn; intuition discriminate.
    - constructor; [exact N|]. constructor; [exact method_nodup|]. constructor; [exact status_nodup|constructor].
  Qed.

  Lemma path_ext : forall l t, NoDup (l ++ t) -> field_ext (path_field (P l)) (path_field (P (l ++ t))).
  Proof. intros l t N. unfold field_ext. cbn. do 3 (split; [reflexivity|]). split; [discriminate|]. split; [auto|]. now exists t. Qed.
  Lemma requests_ext : forall l t, NoDup (l ++ t) -> set_ext (requests_set (P l)) (requests_set (P (l ++ t))).
  Proof. intros l t N. constructor; [now apply path_ext|]. apply set_ext_refl. Qed.
  Lemma responses_ext' : forall l t, NoDup (l ++ t) -> set_ext (responses_set (P l)) (responses_set (P (l ++ t))).
  Proof. intros l t N. constructor; [now apply path_ext|]. apply set_ext_refl. Qed.

  Lemma intern : forall l v s' r, NoDup l -> set_encode (P l) v = (s', r) ->
    exists t, s' = P (l ++ t) /\ NoDup (l ++ t) /\ (t = [] \/ t = [v]) /\ (r <> None -> In v (l ++ t)).
  Proof.
    intros l v s' r N E. cbn [set_encode] in E. destruct (nfind (beqb v) l) eqn:F.
    - injection E as <- <-. exists []. rewrite app_nil_r. do 3 (split; [auto|]). intros _.
      destruct (in_dec (list_eq_dec N.eq_dec) v l) as [I|I]; [exact I|exfalso].
      assert (X : nfind (beqb v) l = None); [|congruence]. apply nfind_None. intros x J. destruct (beqb v x) eqn:B; [|reflexivity]. apply beqb_spec in B. now subst.
    - destruct (acc l v); injection E as <- <-.
      + exists [v]. split; [reflexivity|]. split.
        * apply NoDup_app_intro; [exact N|repeat constructor; intros []|].
          intros x I [<-|[]]. rewrite nfind_None in F. apply F in I. now rewrite beqb_refl in I.
        * split; [auto|]. intros _. apply in_or_app. right. now left.
      + exists []. rewrite app_nil_r. do 3 (split; [auto|]). intros []. reflexivity.
  Qed.

  (** A lookup changes nothing but the interner. *)
  Lemma requests_encode : forall bd l p m s' u, NoDup l -> group_encode bd (requests_set (P l)) (request_group p m) = Done (s', u) ->
    exists t, s' = requests_set (P (l ++ t)) /\ NoDup (l ++ t) /\ (t = [] \/ t = [p]) /\ (u <> None -> In p (l ++ t)).
  Proof.
    intros bd l p m s' u N E. unfold group_encode in E. destruct (encode_fixed _ _ _ _ _) as [[i|]|]; cbn [obind] in E; [| |discriminate].
    - change (dynamics (requests_set (P l))) with [path_field (P l)] in E. cbn [encode_dynamic] in E.
      change (get_field (request_group p m) (path_field (P l))) with p in E. change (f_set (path_field (P l))) with (P l) in E.
      destruct (set_encode (P l) p) as [s1 r] eqn:SE. destruct (intern l p s1 r N SE) as (t & -> & ND & T & I).
      exists t. destruct r; injection E as <- <-; (split; [reflexivity|]); (split; [exact ND|]); (split; [exact T|]); [intros _; now apply I|intros []; reflexivity].
    - injection E as <- <-. exists []. rewrite app_nil_r. do 3 (split; [auto|]). intros []. reflexivity.
  Qed.
  Lemma responses_encode : forall bd l p m c s' u, NoDup l -> group_encode bd (responses_set (P l)) (response_group p m c) = Done (s', u) ->
    exists t, s' = responses_set (P (l ++ t)) /\ NoDup (l ++ t) /\ (t = [] \/ t = [p]) /\ (u <> None -> In p (l ++ t)).
  Proof.
    intros bd l p m c s' u N E. unfold group_encode in E. destruct (encode_fixed _ _ _ _ _) as [[i|]|]; cbn [obind] in E; [| |discriminate].
    - change (dynamics (responses_set (P l))) with [path_field (P l)] in E. cbn [encode_dynamic] in E.
      change (get_field (response_group p m c) (path_field (P l))) with p in E. change (f_set (path_field (P l))) with (P l) in E.
      destruct (set_encode (P l) p) as [s1 r] eqn:SE. destruct (intern l p s1 r N SE) as (t & -> & ND & T & I).
      exists t. destruct r; injection E as <- <-; (split; [reflexivity|]); (split; [exact ND|]); (split; [exact T|]); [intros _; now apply I|intros []; reflexivity].
    - injection E as <- <-. exists []. rewrite app_nil_r. do 3 (split; [auto|]). intros []. reflexivity.
  Qed.

  Definition is_method (m : bytes) : Prop := In m (elements (SStatic method_enum)).

  Lemma requests_refused : forall bd l p m s', NoDup l -> is_method m ->
    group_encode bd (requests_set (P l)) (request_group p m) = Done (s', None) -> ~ In p l /\ acc l p = false.
  Proof.
    intros bd l p m s' N IM E. destruct (rejection bd (requests_set (P l)) (request_group p m) (requests_sound l N) eq_refl) as (s1 & r & E1 & R & _).
    rewrite E in E1. injection E1 as <- <-. destruct (proj1 R eq_refl) as (f & v & IF & FV & [NI RF]).
    destruct IF as [<-|[<-|[]]].
    - destruct FV as [FV|[FV|[]]]; [|discriminate]. injection FV as <-. cbn in NI, RF. auto.
    - exfalso. destruct FV as [FV|[FV|[]]]; [discriminate|]. injection FV as <-. now apply NI.
  Qed.
  Lemma responses_refused : forall bd l p m c s', NoDup l -> is_method m -> 100 <= c <= 999 ->
    group_encode bd (responses_set (P l)) (response_group p m c) = Done (s', None) -> ~ In p l /\ acc l p = false.
  Proof.
    intros bd l p m c s' N IM CB E. destruct (rejection bd (responses_set (P l)) (response_group p m c) (responses_sound l N) eq_refl) as (s1 & r & E1 & R & _).
    rewrite E in E1. injection E1 as <- <-. destruct (proj1 R eq_refl) as (f & v & IF & FV & [NI RF]).
    destruct IF as [<-|[<-|[<-|[]]]].
    - destruct FV as [FV|[FV|[FV|[]]]]; try discriminate. injection FV as <-. cbn in NI, RF. auto.
    - exfalso. destruct FV as [FV|[FV|[FV|[]]]]; try discriminate. injection FV as <-. now apply NI.
    - exfalso. destruct FV as [FV|[FV|[FV|[]]]]; try discriminate. injection FV as <-. apply NI. now apply status_in.
  Qed.
End Sets.
