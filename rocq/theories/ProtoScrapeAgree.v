From Coq Require Import String List NArith ZArith Bool Permutation Lia.
From Verif Require Import Base BaseFacts Writer NameModel NameSpec LabelModel LabelSpec FloatModel FloatOrder EncoderModel TextModel TextSpec
  EncoderSpec EncoderProofs TextTheorems ScrapeSpec ScrapeProofs ScrapeTheorems
  ProtoModel ProtoSpec ProtoProofs ProtoTheorems ProtoErrors ProtoEndSpec ProtoEndTheorems ProtoScrapeSpec ProtoScrapeProofs.
Import ListNotations.
Local Open Scope N_scope.

Lemma trimmed_no_blank : forall s h, trimmed s h -> skip_blanks h = h.
Proof.
  intros s [|b t] (a & c & _ & _ & _ & L & _); [reflexivity|]. cbn. destruct (blank b) eqn:B; [|reflexivity]. exfalso.
  unfold blank in B. apply orb_true_iff in B. destruct B as [B|B]; apply N.eqb_eq in B; subst b.
  - apply (L 32 t); [|reflexivity]. right. right. now left.
  - apply (L 9 t); [|reflexivity]. left. split; discriminate.
Qed.

Section Agree.
  Variable ryu : f64 -> bytes.
  Let shows := family_shows ryu (fun z x => x = f_of_Z z).

  Lemma labels_agree : forall ls ts qs, labels_show ryu ls ts -> Forall2 (pair_shows ryu) ls qs -> same_labels ts qs.
  Proof.
    intros ls ts qs A. revert qs. unfold same_labels. induction A as [|l t ls ts [A1 A2] A IH]; intros qs B; inversion B as [|? q ? qs' (N & u & V & S) B']; subst;
      constructor; [|now apply IH]. rewrite A1. split; [exact N|]. exists u. split; [exact V|].
    unfold same_value, label_shows in *. destruct (snd l) as [z|x|s]; [right; eauto| |left; congruence].
    left. destruct (f_decode x) as [?|[]| |]; congruence.
  Qed.

  Lemma sample_agree : forall nss base k s items m, k <> KHistogram -> metric_kind (snd s) = k -> metric_in_range (snd s) ->
    event_lines ryu (EvSample nss base (fst s) (snd s)) items -> sample_shows ryu (fun z x => x = f_of_Z z) s m ->
    exists i, items = [i] /\ same_sample ryu (full_name nss base []) (kind_number k) i m.
  Proof.
    intros nss base k [ls a] items m NH K R E [L V]. cbn in *. destruct a as [c|z|x|th bs inf sum]; cbn in *.
    - destruct E as (i & -> & ts & v & -> & S & RI). exists (Sample (full_name nss base []) ts v None). split; [reflexivity|].
      exists ts, v. split; [reflexivity|]. split; [eapply labels_agree; eassumption|]. subst k. cbn. destruct V as (G & x & C & ->).
      split; [exact G|]. exists (Z.of_N c), (f_of_Z (Z.of_N c)). split; [exact RI|]. split; [exact C|]. apply of_Z_int_double.
      change (2 ^ 63) with 9223372036854775808 in R. change (2 ^ 64)%Z with 18446744073709551616%Z. lia.
    - destruct E as (i & -> & ts & v & -> & S & RI). exists (Sample (full_name nss base []) ts v None). split; [reflexivity|].
      exists ts, v. split; [reflexivity|]. split; [eapply labels_agree; eassumption|]. subst k. cbn. destruct V as (G & x & C & ->).
      split; [exact G|]. exists (f_of_Z z). split; [exact C|]. left. exists z. split; [exact RI|]. apply of_Z_int_double.
      change (2 ^ 63)%Z with 9223372036854775808%Z in R. change (2 ^ 64)%Z with 18446744073709551616%Z. lia.
    - destruct E as (i & -> & ts & -> & S). exists (Sample (full_name nss base []) ts (ryu x) None). split; [reflexivity|].
      exists ts, (ryu x). split; [reflexivity|]. split; [eapply labels_agree; eassumption|]. subst k. cbn. destruct V as (G & C).
      split; [exact G|]. exists x. split; [exact C|]. now right.
    - contradiction.
  Qed.

  Lemma block_agree : forall nss base k samples parts ms, k <> KHistogram -> Forall (fun p => metric_kind (snd p) = k) samples ->
    Forall event_ok (map (fun p => EvSample nss base (fst p) (snd p)) samples) ->
    Forall2 (event_lines ryu) (map (fun p => EvSample nss base (fst p) (snd p)) samples) parts ->
    Forall2 (sample_shows ryu (fun z x => x = f_of_Z z)) samples ms ->
    Forall2 (same_sample ryu (full_name nss base []) (kind_number k)) (concat parts) ms /\
    filter sample_line (concat parts) = concat parts.
  Proof.
    intros nss base k samples parts ms NH K. revert parts ms. induction K as [|s l K0 K IH]; intros parts ms O F S; cbn in *.
    - inversion F; inversion S; subst. cbn. split; [constructor|reflexivity].
    - inversion F as [|? p ? parts' F0 F']; inversion S as [|? m ? ms' S0 S']; inversion O as [|? ? O0 O']; subst.
      destruct (IH parts' ms' O' F' S') as [A B].
      destruct (sample_agree nss base _ s p m NH eq_refl (proj2 (proj2 O0)) F0 S0) as (i & -> & Q).
      cbn. split; [constructor; assumption|]. destruct Q as (ts & v & -> & _). cbn. now rewrite B.
  Qed.

  Lemma Forall2_split : forall {A B} (R : A -> B -> Prop) a b l, Forall2 R (a ++ b) l ->
    exists x y, l = x ++ y /\ Forall2 R a x /\ Forall2 R b y.
  Proof.
    intros A B R a b l F. apply Forall2_app_inv_l in F. destruct F as (x & y & X & Y & ->). eauto.
  Qed.

  Lemma header_lines : forall r parts,
    Forall2 (event_lines ryu) (match rf_help r with Some h => [EvHelp (rf_namespaces r) (rf_base r) h] | None => [] end ++
       match rf_kind r with Some k => [EvType (rf_namespaces r) (rf_base r) k] | None => [] end) parts ->
    filter sample_line (concat parts) = [].
  Proof.
    intros r parts F. destruct (rf_help r), (rf_kind r); cbn in F; repeat (match goal with H : Forall2 _ (_ :: _) _ |- _ => inversion H; clear H; subst
      | H : Forall2 _ [] _ |- _ => inversion H; clear H; subst end); cbn in *; subst; reflexivity.
  Qed.

  Lemma agree_samples : forall fs parts ps, Forall2 (event_lines ryu) (concat (map rf_events fs)) parts ->
    Forall rf_ok fs -> Forall event_ok (concat (map rf_events fs)) -> Forall2 shows (with_samples fs) ps ->
    samples_agree ryu (concat parts) ps.
  Proof.
    induction fs as [|r fs IH]; intros parts ps F O E S; cbn in *.
    - inversion F; inversion S; subst. exists []. split; [reflexivity|constructor].
    - apply Forall2_split in F. destruct F as (p1 & p2 & -> & F1 & F2). apply Forall_app in E. destruct E as [E1 E2].
      inversion O as [|? ? O1 O2]; subst. unfold rf_events in F1, E1. rewrite app_assoc in F1, E1.
      apply Forall2_split in F1. destruct F1 as (h & b & -> & H & B). apply Forall_app in E1. destruct E1 as [_ E1].
      apply header_lines in H. rewrite !concat_app.
      destruct (rf_samples r) as [|s0 ss] eqn:SS.
      + cbn in B. inversion B; subst. destruct (IH p2 ps F2 O2 E2 S) as (blocks & X & Y). exists blocks.
        rewrite !filter_app, H, X. auto.
      + inversion S as [|? p ? ps' S1 S2]; subst. destruct (IH p2 ps' F2 O2 E2 S2) as (blocks & X & Y).
        destruct S1 as (NM & _ & T & SH). unfold rf_ok in O1. destruct (rf_kind r) as [k|] eqn:K; [|congruence].
        destruct O1 as [NH KS]. rewrite SS in KS, SH. destruct (block_agree _ _ _ _ _ _ NH KS E1 B SH) as [Q R].
        exists (concat b :: blocks). rewrite !filter_app, H, R, X. split; [reflexivity|]. constructor; [|exact Y].
        split.
        * intros Z. rewrite Z in Q. inversion Q. subst. inversion SH; congruence.
        * exists (full_name (rf_namespaces r) (rf_base r) []), (kind_number k). auto.
  Qed.

  Lemma sample_line_meaningful : forall items, filter sample_line items = filter sample_line (filter meaningful items).
  Proof.
    induction items as [|i items IH]; [reflexivity|]. destruct i; cbn; try exact IH; now rewrite IH.
  Qed.

  Lemma part_of : forall evs parts i, Forall2 (event_lines ryu) evs parts -> In i (concat parts) ->
    exists e q, In e evs /\ event_lines ryu e q /\ In i q.
  Proof.
    intros evs parts i F. induction F as [|e q evs parts L F IH]; cbn; [contradiction|]. intros I. apply in_app_iff in I.
    destruct I as [I|I]; [exists e, q; auto|]. destruct (IH I) as (e' & q' & A & B & C). exists e', q'. auto.
  Qed.
  Lemma of_part : forall evs parts e i, Forall2 (event_lines ryu) evs parts -> In e evs -> (forall q, event_lines ryu e q -> q = [i]) ->
    In i (concat parts).
  Proof.
    intros evs parts e i F. induction F as [|e' q evs parts L F IH]; cbn; [contradiction|]. intros I H. apply in_app_iff.
    destruct I as [->|I]; [left; rewrite (H _ L); now left|right; auto].
  Qed.

  Lemma headers_in : forall fs items, exposes ryu (concat (map rf_events fs)) items ->
    (forall n h, In (Help n h) items <-> exists r h0, In r fs /\ rf_name r = n /\ rf_help r = Some h0 /\ h = skip_blanks h0) /\
    (forall n t, In (Type_ n t) items <-> exists r k, In r fs /\ rf_name r = n /\ rf_kind r = Some k /\ t = kind_word k).
  Proof.
    intros fs items (parts & F & E).
    assert (M : forall i, meaningful i = true -> (In i items <-> In i (concat parts))).
    { intros i I. rewrite <- E, filter_In. tauto. }
    assert (EV : forall e, In e (concat (map rf_events fs)) <-> exists r, In r fs /\ In e (rf_events r)).
    { intros e. rewrite in_concat. split.
      - intros (l & L & I). apply in_map_iff in L. destruct L as (r & <- & R). eauto.
      - intros (r & R & I). exists (rf_events r). split; [now apply in_map|exact I]. }
    split.
    - intros n h. rewrite (M (Help n h)) by reflexivity. split.
      + intros I. destruct (part_of _ _ _ F I) as (e & q & A & B & C). apply EV in A. destruct A as (r & R & A).
        destruct e as [nss base h0|nss base k|nss base ls m|]; cbn in B.
        * subst q. destruct C as [C|[]]. injection C as <- <-. exists r, h0. split; [exact R|].
          unfold rf_events in A. apply in_app_iff in A. destruct A as [A|A].
          -- destruct (rf_help r); [|contradiction]. destruct A as [A|[]]. injection A as <- <- <-. auto.
          -- apply in_app_iff in A. destruct A as [A|A]; [destruct (rf_kind r); [destruct A as [A|[]]; discriminate|contradiction]|].
             apply in_map_iff in A. destruct A as (? & A & _). discriminate.
        * subst q. destruct C as [C|[]]. discriminate.
        * apply metric_lines_of in B. rewrite Forall_forall in B. specialize (B _ C). inversion B.
        * contradiction.
      + intros (r & h0 & R & <- & H & ->). apply (of_part _ _ (EvHelp (rf_namespaces r) (rf_base r) h0) _ F).
        * apply EV. exists r. split; [exact R|]. unfold rf_events. rewrite H. now left.
        * intros q Q. exact Q.
    - intros n t. rewrite (M (Type_ n t)) by reflexivity. split.
      + intros I. destruct (part_of _ _ _ F I) as (e & q & A & B & C). apply EV in A. destruct A as (r & R & A).
        destruct e as [nss base h0|nss base k|nss base ls m|]; cbn in B.
        * subst q. destruct C as [C|[]]. discriminate.
        * subst q. destruct C as [C|[]]. injection C as <- <-. exists r, k. split; [exact R|].
          unfold rf_events in A. apply in_app_iff in A. destruct A as [A|A].
          -- destruct (rf_help r); [|contradiction]. destruct A as [A|[]]. discriminate.
          -- apply in_app_iff in A. destruct A as [A|A]; [destruct (rf_kind r); [destruct A as [A|[]]; injection A as <- <- <-; auto|contradiction]|].
             apply in_map_iff in A. destruct A as (? & A & _). discriminate.
        * apply metric_lines_of in B. rewrite Forall_forall in B. specialize (B _ C). inversion B.
        * contradiction.
      + intros (r & k & R & <- & H & ->). apply (of_part _ _ (EvType (rf_namespaces r) (rf_base r) k) _ F).
        * apply EV. exists r. split; [exact R|]. unfold rf_events. rewrite H. apply in_app_iff. right. now left.
        * intros q Q. exact Q.
  Qed.

  Lemma NoDup_map_eq : forall {A B} (f : A -> B) l x y, NoDup (map f l) -> In x l -> In y l -> f x = f y -> x = y.
  Proof.
    intros A B f l. induction l as [|a l IH]; cbn; [contradiction|]. intros x y N X Y E. apply NoDup_cons_iff in N. destruct N as [I N].
    destruct X as [->|X], Y as [->|Y]; auto; exfalso; apply I; apply in_map_iff; [exists y|exists x]; auto.
  Qed.

  Lemma agree_headers : forall g fs items ps, group_families [] g fs -> exposes ryu (concat (map rf_events fs)) items ->
    Forall rf_ok fs -> NoDup (map fst (named_families [] g)) -> Forall2 shows (with_samples fs) ps -> headers_agree items ps.
  Proof.
    intros g fs items ps G X O N S p n I P. rewrite <- (rf_names _ _ G) in N.
    destruct (Forall2_In_r _ _ _ _ S I) as (r & R & (HN & HH & HT & _)). apply with_samples_In in R. destruct R as [R NE].
    assert (n = rf_name r) as -> by (unfold rf_name; congruence).
    destruct (headers_in _ _ X) as [A B]. split.
    - intros h. rewrite A, HH. split.
      + intros (r' & h0 & R' & E & H & ->). apply (NoDup_map_eq _ _ _ _ N R' R) in E. subst r'.
        destruct (proj1 help_trimmed _ _ _ G _ _ R H) as (s & T). now rewrite (trimmed_no_blank _ _ T).
      + intros H. exists r, h. split; [exact R|]. split; [reflexivity|]. split; [exact H|].
        destruct (proj1 help_trimmed _ _ _ G _ _ R H) as (s & T). now rewrite (trimmed_no_blank _ _ T).
    - assert (exists k, rf_kind r = Some k /\ k <> KHistogram) as (k & K & NH).
      { pose proof (proj1 (Forall_forall _ _) O r R) as Q. unfold rf_ok in Q. destruct (rf_kind r) as [k|]; [|congruence]. exists k. tauto. }
      rewrite K in HT. cbn in HT. intros t. rewrite B, HT. split.
      + intros (r' & k' & R' & E & H & ->). apply (NoDup_map_eq _ _ _ _ N R' R) in E. subst r'. rewrite K in H. injection H as <-.
        destruct k; cbn; auto. congruence.
      + intros H. exists r, k. split; [exact R|]. split; [reflexivity|]. split; [exact K|].
        destruct k; cbn in *; destruct H as [[H ->]|[H ->]]; try discriminate; try reflexivity; congruence.
  Qed.
End Agree.

Theorem formats_agree : forall ryu bd bd' g fs w w', float_text_ok ryu -> group_families [] g fs ->
  Forall event_ok (concat (map rf_events fs)) -> Forall rf_ok fs -> Forall rf_bits_ok fs -> ~ misleading fs ->
  reliable w -> reliable w' -> w_out w = [] -> w_out w' = [] ->
  exists s items s', collect_group (text_encoder ryu bd) g (text_new w) = (s, ROk) /\ parse (w_out (te_writer s)) = Some items /\
    proto_scrapes ryu bd' [g] (proto_new w') = (s', ROk) /\
    (nlen (w_out (pe_writer s')) < 2 ^ 64 ->
     exists ps, read_stream (w_out (pe_writer s')) = Some ps /\ samples_agree ryu items ps /\
       (NoDup (map fst (named_families [] g)) -> headers_agree items ps)).
Proof.
  intros ryu bd bd' g fs w w' RY G EV OK B M R R' W W'.
  destruct (text_round_trip ryu bd g _ w RY (families_events _ _ G) EV R) as (s & out & items & E & O & P & X & _).
  rewrite W in O. cbn in O.
  destruct (proto_round_trip ryu bd' [g] [fs] w') as (s' & E' & H); cbn; rewrite ?app_nil_r; auto.
  exists s, items, s'. split; [exact E|]. split; [now rewrite O|]. split; [exact E'|]. intros L. destruct (H L) as (ps & P' & F).
  cbn in F. rewrite app_nil_r in F. exists ps. split; [exact P'|]. split.
  - destruct X as (parts & X1 & X2). destruct (agree_samples ryu fs parts ps X1 OK EV F) as (blocks & Y & Z).
    exists blocks. rewrite sample_line_meaningful, X2. auto.
  - intros N. eapply agree_headers; eassumption.
Qed.
