(** Scrapes of a vec that threads use. *)
From Coq Require Import String List NArith ZArith Bool Arith Lia.
From Verif Require Import Base BaseFacts Writer NameModel NameSpec FloatModel MetricModel LabelModel LabelSpec LabelProofs GroupProofs LawProofs EncoderModel TextModel TextSpec
  EncoderSpec ScrapeSpec ScrapeProofs ScrapeVec EndSpec TextParseProofs TextTheorems TextExact
  ConcModel ConcSpec ConcVecModel ConcVecSpec ConcVecTheorems ConcLabelModel ConcLabelSpec ConcLabelProofs ConcCallModel ConcCallSpec ConcCallProofs ConcCallTheorems ConcCallOrder ConcWithin
  ConcScrapeModel ConcScrapeSpec.
Import ListNotations.

(** ** Any collection *)
Section Collected.
  Variable ryu : f64 -> bytes.
  Variable bd : build.
  Hypothesis RYU : float_text_ok ryu.
  Context {G R : Type}.
  Variable visit : G -> labels.
  Variable k : kind.
  Variable read : R -> metric.

  Definition row_items (nss : list bytes) (base : bytes) (p : G * R) : list item :=
    metric_items ryu nss base (visit (fst p)) (read (snd p)).
  Definition block (nss : list bytes) (base : bytes) (l : list (G * R)) : list item :=
    Type_ (full_name nss base []) (kind_word k) :: concat (map (row_items nss base) l).

  Lemma collected_lines : forall l, (forall g r, In (g, r) l -> labels_valid (visit g) /\ metric_in_range (read r)) ->
    forall nss base sc, scrape_of nss base (collected_family visit k read l) sc -> scrape_shows ryu bd sc (block nss base l).
  Proof.
    intros l OK nss base [grp pre post w] (GE & EV & NM & RW). cbn [sc_group sc_before sc_behind sc_writer] in *.
    unfold collected_family in GE. cbn [family_events] in GE. rewrite map_map in GE. cbn [fst snd] in GE.
    apply Forall_app in EV as [E1 E2].
    assert (EV' : Forall event_ok (pre ++ (EvType nss base k :: map (fun q => EvSample nss base (visit (fst q)) (read (snd q))) l) ++ post)).
    { apply Forall_app. split; [exact E1|]. apply Forall_app. split; [|exact E2].
      constructor; [exact NM|]. apply Forall_forall. intros e I. apply in_map_iff in I. destruct I as ([g r] & <- & I). cbn [event_ok fst snd].
      split; [exact NM|]. now apply OK. }
    destruct (text_exact ryu bd RYU grp _ w GE EV' RW) as (st & out & items & X1 & X2 & X3 & X4).
    exists st, out, items, (concat (map (written ryu) pre)), (concat (map (written ryu) post)).
    split; [exact X1|]. split; [exact X2|]. split; [exact X3|]. split.
    - rewrite X4, map_app, concat_app. f_equal. cbn [app map concat written]. unfold block, row_items. cbn [app]. f_equal. rewrite map_app, concat_app. f_equal.
      now rewrite map_map.
    - split; now apply written_exposes.
  Qed.

  Lemma in_block : forall nss base l n ls v t, In (Sample n ls v t) (block nss base l) <->
    exists p, In p l /\ In (Sample n ls v t) (row_items nss base p).
  Proof.
    intros nss base l n ls v t. unfold block. cbn [In]. rewrite in_concat. split.
    - intros [X|(x & I & J)]; [discriminate|]. apply in_map_iff in I as (p & <- & I). eauto.
    - intros (p & I & J). right. eexists. split; [apply in_map_iff; exists p; split; [reflexivity|exact I]|exact J].
  Qed.

  Lemma block_text : forall nss base l (about : G -> list item -> Prop),
    (forall g r part, In (g, r) l -> metric_lines ryu nss base (visit g) (read r) part -> about g part) ->
    (forall g r, In (g, r) l -> metric_in_range (read r)) ->
    family_text (full_name nss base []) k about (map fst l) (block nss base l).
  Proof.
    intros nss base l about AB RG. exists (map (row_items nss base) l). split; [reflexivity|].
    assert (X : forall l', incl l' l -> Forall2 about (map fst l') (map (row_items nss base) l')).
    { clear - RG AB. induction l' as [|[g r] l' IH]; intros S; constructor; [|apply IH; intros q I; apply S; now right].
      apply (AB g r); [apply S; now left|]. apply metric_items_lines. apply (RG g). apply S. now left. }
    apply X, incl_refl.
  Qed.
End Collected.

(** ** Two collections *)
Lemma count_total : forall ts bs inf sum, metric_in_range (MHistogram ts bs inf sum) ->
  (hist_count (bs, inf, sum) mod 2 ^ 64 = Z.of_N (first_buckets (length bs) bs + inf))%Z.
Proof.
  intros ts bs inf sum [_ T]. unfold hist_count. cbn [fst snd].
  assert (E : (sum_over Z.of_N bs = Z.of_N (first_buckets (length bs) bs))%Z).
  { unfold first_buckets, sum_over. rewrite firstn_all. clear. induction bs as [|b bs IH]; [reflexivity|]. cbn [fold_right]. rewrite IH. lia. }
  rewrite E, <- N2Z.inj_add. apply Z.mod_small. lia.
Qed.
Lemma sum_grows : forall bs0 bs, Forall2 N.le bs0 bs -> (fold_right N.add 0 bs0 <= fold_right N.add 0 bs)%N.
Proof. intros bs0 bs F. induction F as [|x y bs0 bs L F IH]; cbn [fold_right]; [apply N.le_refl|]. lia. Qed.

Lemma smaller_in_range : forall G ts (l : list (G * hist_res)), (forall g r, In (g, r) l -> metric_in_range (read_histogram ts r)) ->
  forall g r0, (exists bs0 inf0 sum0 bs inf sum, r0 = Some (bs0, inf0, sum0) /\ In (g, Some (bs, inf, sum)) l /\ Forall2 N.le bs0 bs /\ (inf0 <= inf)%N) ->
  metric_in_range (read_histogram ts r0).
Proof.
  intros G ts l RG g r0 (bs0 & inf0 & sum0 & bs & inf & sum & -> & J & F & LE). specialize (RG g _ J). cbn [read_histogram metric_in_range] in *.
  destruct RG as [LN T]. unfold first_buckets in *. rewrite firstn_all in *. pose proof (sum_grows bs0 bs F). split; [rewrite LN; clear - F; induction F; cbn; congruence|lia].
Qed.

Section Grow.
  Variable ryu : f64 -> bytes.
  Context {G : Type}.
  Variable visit : G -> labels.

  Lemma counters_grow : forall nss base (l0 l : list (G * N)),
    (forall g r0, In (g, r0) l0 -> exists r, In (g, r) l /\ (r0 <= r)%N) ->
    series_grow [] (block ryu visit KCounter MCounter nss base l0) (block ryu visit KCounter MCounter nss base l).
  Proof.
    intros nss base l0 l H n ls v I. apply in_block in I as ([g r0] & I & J). cbn in J. destruct J as [J|[]]. injection J as <- <- <-.
    destruct (H g r0 I) as (r & K & LE). exists (itoa (Z.of_N r)). split.
    - apply in_block. exists (g, r). split; [exact K|]. now left.
    - intros _. eexists _, _. split; [apply read_itoa|]. split; [apply read_itoa|]. lia.
  Qed.

  Lemma buckets_grow_items : forall name ls ts bs0 bs, Forall2 N.le bs0 bs -> forall v0 v1, (v0 <= v1)%N ->
    forall n ls' v, In (Sample n ls' v None) (bucket_items ryu name ls ts bs0 v0) ->
    exists v', In (Sample n ls' v' None) (bucket_items ryu name ls ts bs v1) /\
      exists z z', read_int v = Some z /\ read_int v' = Some z' /\ (z <= z')%Z.
  Proof.
    intros name ls ts bs0 bs F. revert ts. induction F as [|x y bs0 bs L F IH]; intros [|t ts] v0 v1 LE n ls' v I; cbn [bucket_items] in *; try contradiction.
    destruct I as [I|I].
    - injection I as <- <- <-. eexists. split; [left; reflexivity|]. eexists _, _. split; [apply read_itoa|]. split; [apply read_itoa|]. lia.
    - destruct (IH ts (v0 + x)%N (v1 + y)%N ltac:(lia) n ls' v I) as (v' & A & B). exists v'. split; [now right|exact B].
  Qed.

  Lemma histograms_grow : forall nss base ts (l0 l : list (G * hist_res)),
    (forall g r0, In (g, r0) l0 -> exists bs0 inf0 sum0 bs inf sum, r0 = Some (bs0, inf0, sum0) /\ In (g, Some (bs, inf, sum)) l /\
       Forall2 N.le bs0 bs /\ (inf0 <= inf)%N) ->
    series_grow [full_name nss base [str "sum"]] (block ryu visit KHistogram (read_histogram ts) nss base l0) (block ryu visit KHistogram (read_histogram ts) nss base l).
  Proof.
    intros nss base ts l0 l H n ls v I. apply in_block in I as ([g r0] & I & J).
    destruct (H g r0 I) as (bs0 & inf0 & sum0 & bs & inf & sum & -> & K & LE & LI). unfold row_items in J. cbn [fst snd read_histogram metric_items] in J.
    pose proof (sum_grows bs0 bs LE) as LS.
    assert (X : forall v', In (Sample n ls v' None) (metric_items ryu nss base (visit g) (read_histogram ts (Some (bs, inf, sum)))) ->
      In (Sample n ls v' None) (block ryu visit KHistogram (read_histogram ts) nss base l)).
    { intros v' A. apply in_block. eexists. split; [exact K|exact A]. }
    cbn [read_histogram metric_items] in X. apply in_app_or in J as [J|[J|[J|[J|[]]]]].
    - destruct (buckets_grow_items _ _ ts bs0 bs LE 0%N 0%N (N.le_refl 0) n ls v J) as (v' & A & B).
      exists v'. split; [apply X, in_or_app; now left|now intros _].
    - injection J as <- <- <-. eexists. split; [apply X, in_or_app; right; left; reflexivity|]. intros _.
      eexists _, _. split; [apply read_itoa|]. split; [apply read_itoa|]. lia.
    - injection J as <- <- <-. eexists. split; [apply X, in_or_app; right; right; left; reflexivity|]. intros N. destruct N. now left.
    - injection J as <- <- <-. eexists. split; [apply X, in_or_app; right; right; right; left; reflexivity|]. intros _.
      eexists _, _. split; [apply read_itoa|]. split; [apply read_itoa|]. lia.
  Qed.
End Grow.

(** ** Label values of a sparse vec *)
Section Visits.
  Variable heck : rename_all -> bytes -> bytes.

  Lemma current_shown : forall fields loc accepts m g ls, group_shown heck (current fields loc accepts m) g ls -> group_shown heck fields g ls.
  Proof.
    intros fields loc accepts m. unfold current. induction fields as [|f fields IH]; intros g ls H; cbn [map] in H; inversion H; subst; [constructor| |].
    - assert (E : f_rename f = Some n /\ value_shown heck (f_set f) v x /\ f_name (if is_dynamic (f_set f) then {| f_name := f_name f; f_rename := f_rename f; f_set := SInterner (accepts (loc (f_name f))) (m (loc (f_name f))) |} else f) = f_name f).
      { destruct (is_dynamic (f_set f)) eqn:D; [|auto]. cbn in *. split; [assumption|]. split; [|reflexivity].
        match goal with V : value_shown _ _ _ _ |- _ => inversion V; subst end. destruct (f_set f); try discriminate. constructor. }
      destruct E as (E1 & E2 & ->). apply GS_renamed; auto.
    - assert (E : f_rename f = None /\ value_shown heck (f_set f) v x /\ f_name (if is_dynamic (f_set f) then {| f_name := f_name f; f_rename := f_rename f; f_set := SInterner (accepts (loc (f_name f))) (m (loc (f_name f))) |} else f) = f_name f).
      { destruct (is_dynamic (f_set f)) eqn:D; [|auto]. cbn in *. split; [assumption|]. split; [|reflexivity].
        match goal with V : value_shown _ _ _ _ |- _ => inversion V; subst end. destruct (f_set f); try discriminate. constructor. }
      destruct E as (E1 & E2 & ->). apply GS_named; auto.
  Qed.

  Lemma current_visit : forall fields loc accepts m g, group_visit heck (current fields loc accepts m) g = group_visit heck fields g.
  Proof.
    intros fields loc accepts m g. unfold group_visit, current. rewrite map_map. apply map_ext. intros f.
    destruct (is_dynamic (f_set f)) eqn:D; [|reflexivity]. unfold field_label, get_field. cbn. f_equal. now destruct (f_set f).
  Qed.
End Visits.

Section Any.
  Context {Sh Op Res Mic V St : Type}.
  Variable heck : rename_all -> bytes -> bytes.
  Variable w : setup.
  Variable m : metric_code Sh Op Res Mic V.
  Variable spec : nat -> Op -> St -> option (St * Res).
  Variable st_new : St.
  Variable aview : St -> V.
  Variable P : call_program Op Res V.
  Hypothesis ok : setup_ok w.
  Hypothesis shaped : calls_shaped (su_fields w) P.
  Hypothesis good : good_metric (mc_machine m) (mc_new m) (mc_view m) spec st_new aview.

  Lemma collected_shown : forall s i tr l, In (CCollect, tr) (finished_calls w m P s i) -> result_of CCollect tr = Collected l ->
    forall g r, In (g, r) l -> group_shown heck (su_fields w) g (group_visit heck (su_fields w) g).
  Proof.
    intros s i tr l I RC g r J. pose proof (collected_is w m spec st_new aview P ok shaped good s i tr l I RC) as E. subst l.
    destruct (collect_facts (su_build w) (su_fields w) (su_loc w) (su_accepts w) (su_shard_of w) (mc_machine m) (mc_new m) (mc_view m)
      spec st_new aview (su_shards w) (mc_read m) P (su_strings w) (proj1 ok) (proj2 ok) shaped good s i tr I) as (_ & _ & R & _ & _ & EN & _).
    rewrite groups_decoded, values_read in J. apply in_collected in J as (k & J1 & _); [|exact R].
    destruct (EN k g J1) as (j & EK).
    destruct (encode_ok (su_build w) (su_fields w) (su_loc w) (su_accepts w) (su_shard_of w) (mc_machine m) (mc_new m) (mc_view m)
      (su_shards w) (mc_read m) P (su_strings w) (proj1 ok) (proj2 ok) shaped s j g _ EK) as [X|(k' & X & D & E)]; [discriminate|]. injection X as <-.
    pose proof (now_ok (su_build w) (su_fields w) (su_loc w) (su_accepts w) (su_shard_of w) (mc_machine m) (mc_new m) (mc_view m)
      (su_shards w) (mc_read m) P (su_strings w) (proj1 ok) (proj2 ok) shaped s) as NO.
    unfold labels_now in NO. set (at_end := fst _) in D, E, NO.
    apply (current_shown heck _ (su_loc w) (su_accepts w) at_end). rewrite <- (current_visit heck _ (su_loc w) (su_accepts w) at_end).
    set (now := current _ _ _ _) in *. clearbody now. apply (visit_exact heck now g (proj1 NO)); [|reflexivity].
    assert (WS : well_shaped now g).
    { destruct k as [n ds]. cbn [group_decode] in D. destruct (decode_fixed _ _) as [[n' fv]|]; [|discriminate]. cbn [obind] in D.
      destruct (debug_assert _ _); [|discriminate]. cbn [obind] in D. destruct (decode_dynamic _ _) as [dv|]; [|discriminate]. cbn [obind] in D.
      injection D as <-. unfold well_shaped. now rewrite map_map. }
    destruct (law_encode_some _ _ _ _ (derived_lawful (su_build w)) now g now k NO WS E) as [VD _].
    destruct (valid_digits now k (proj1 NO) VD) as (g' & ds & Wt & D1 & D2 & EQ).
    pose proof (group_decode_digits (su_build w) now g' ds (snd k) (proj1 NO) Wt D1 D2) as GD. rewrite <- EQ in GD. rewrite <- surjective_pairing in GD.
    rewrite GD in D. injection D as ->. eapply digits_member; [exact (proj1 NO)|exact Wt|exact D1|exact D2].
  Qed.

  Variable ryu : f64 -> bytes.
  Hypothesis RYU : float_text_ok ryu.
  Hypothesis names : Forall (fun f => valid_label_name (field_label f)) (su_fields w).

  Lemma visit_valid : forall g, labels_valid (group_visit heck (su_fields w) g).
  Proof. intros g. unfold labels_valid, group_visit. apply Forall_map. cbn [fst]. exact names. Qed.

  Theorem scrape_text : forall s i tr l, In (CCollect, tr) (finished_calls w m P s i) -> result_of CCollect tr = Collected l ->
    forall k read, (forall g r, In (g, r) l -> metric_in_range (read r)) ->
    forall nss base sc, scrape_of nss base (collected_family (group_visit heck (su_fields w)) k read l) sc ->
    exists lines, scrape_shows ryu (su_build w) sc lines /\ NoDup (map fst l) /\
      family_text (full_name nss base []) k
        (fun g part => exists ls r, group_shown heck (su_fields w) g ls /\ In (g, r) l /\ metric_lines ryu nss base ls (read r) part) (map fst l) lines.
  Proof.
    intros s i tr l I RC k read RG nss base sc SC. exists (block ryu (group_visit heck (su_fields w)) k read nss base l). split; [|split].
    - apply collected_lines; [exact RYU| |exact SC]. intros g r J. split; [apply visit_valid|exact (RG g r J)].
    - destruct (all_collections w m spec st_new aview P ok shaped good s i tr I) as (l' & E & ND & _). rewrite RC in E. now injection E as <-.
    - apply block_text; [|exact RG]. intros g r part J ML. exists (group_visit heck (su_fields w) g), r. split; [|now split].
      exact (collected_shown s i tr l I RC g r J).
  Qed.
End Any.

Section Sparse.
  Variable heck : rename_all -> bytes -> bytes.
  Variable ryu : f64 -> bytes.
  Hypothesis RYU : float_text_ok ryu.
  Variable w : setup.
  Hypothesis ok : setup_ok w.
  Hypothesis shards : forall k, (su_shard_of w k < su_shards w)%nat.
  Hypothesis names : Forall (fun f => valid_label_name (field_label f)) (su_fields w).

  Theorem counter_text : forall P : call_program counter_op N N, calls_shaped (su_fields w) P ->
    forall s0 s1 i tr rest n, call_underway w counter_code P s0 i = None ->
    finished_calls w counter_code P (s0 ++ s1) i = finished_calls w counter_code P s0 i ++ (CCollect, tr) :: rest ->
    (forall j, (n <= j)%nat -> finished_calls w counter_code P (s0 ++ s1) j = [] /\ call_underway w counter_code P (s0 ++ s1) j = None) ->
    forall l, result_of CCollect tr = Collected l -> (forall g, In g (map fst l) -> forall j hd, P j hd <> Some (CDelete g)) ->
    (forall g, In g (map fst l) -> (sum_begun w counter_code P (fun u _ => counter_delta u) Z.of_N counter_delta g n (s0 ++ s1) < 2 ^ 63)%Z) ->
    forall nss base sc, scrape_of nss base (collected_family (group_visit heck (su_fields w)) KCounter MCounter l) sc ->
    exists lines, scrape_shows ryu (su_build w) sc lines /\ NoDup (map fst l) /\
      family_text (full_name nss base []) KCounter
        (fun g part => exists ls z i, group_shown heck (su_fields w) g ls /\ part = [i] /\ int_sample ryu (full_name nss base []) ls z i /\
           (sum_finished w counter_code P (fun u _ => counter_delta u) Z.of_N g n s0 <= z <=
            sum_begun w counter_code P (fun u _ => counter_delta u) Z.of_N counter_delta g n (s0 ++ s1))%Z) (map fst l) lines /\
      (forall g, (forall j hd, P j hd <> Some (CDelete g)) -> forall j u t r, In (CUpdate g u, t) (finished_calls w counter_code P s0 j) -> result_of (CUpdate g u) t = Returned r -> In g (map fst l)) /\
      (forall g, In g (map fst l) -> exists j u, call_begun w counter_code P (s0 ++ s1) j (CUpdate g u)).
  Proof.
    intros P shaped s0 s1 i tr rest n ID LA BE l RC KP LT nss base sc SC.
    assert (FST : forall g r, In (g, r) l -> In g (map fst l)) by (intros g r J; apply in_map_iff; now exists (g, r)).
    assert (IN : In (CCollect, tr) (finished_calls w counter_code P (s0 ++ s1) i)) by (rewrite LA; apply in_or_app; right; now left).
    assert (BR : forall g r, In (g, r) l ->
      (sum_finished w counter_code P (fun u _ => counter_delta u) Z.of_N g n s0 <= Z.of_N r <=
            sum_begun w counter_code P (fun u _ => counter_delta u) Z.of_N counter_delta g n (s0 ++ s1))%Z).
    { intros g r J. refine (counter_brackets w P ok shaped g (KP g (FST g r J)) s0 s1 i tr rest n ID LA BE _ l r RC J). specialize (LT g (FST g r J)). cbn. lia. }
    assert (RG : forall g r, In (g, r) l -> metric_in_range (MCounter r)).
    { intros g r J. specialize (BR g r J). specialize (LT g (FST g r J)). cbn. lia. }
    destruct (all_collections w counter_code _ _ _ P ok shaped (counter_good 0) (s0 ++ s1) i tr IN) as (l' & E & ND & BG). rewrite RC in E. injection E as <-.
    exists (block ryu (group_visit heck (su_fields w)) KCounter MCounter nss base l). split; [|split; [exact ND|split; [|split]]].
    - apply collected_lines; [exact RYU| |exact SC]. intros g r J. split; [now apply visit_valid|exact (RG g r J)].
    - apply block_text; [|exact RG]. intros g r part J (x & -> & ML). exists (group_visit heck (su_fields w) g), (Z.of_N r), x.
      split; [exact (collected_shown heck w counter_code _ _ _ P ok shaped (counter_good 0) _ i tr l IN RC g r J)|]. split; [reflexivity|]. split; [exact ML|].
      exact (BR g r J).
    - intros g NK j u t r I R.
      destruct (all_shown w counter_code _ _ _ P ok shaped (counter_good 0) shards g NK s0 s1 i tr rest ID LA j u t r I R) as (l' & r' & E & J).
      rewrite RC in E. injection E as <-. apply in_map_iff. now exists (g, r').
    - intros g J. apply in_map_iff in J as ([g' r] & <- & J). exact (BG g' r J).
  Qed.

  Theorem counter_rates : forall P : call_program counter_op N N, calls_shaped (su_fields w) P ->
    forall s0 s1 i tr rest n, call_underway w counter_code P s0 i = None ->
    finished_calls w counter_code P (s0 ++ s1) i = finished_calls w counter_code P s0 i ++ (CCollect, tr) :: rest ->
    (forall j, (n <= j)%nat -> finished_calls w counter_code P (s0 ++ s1) j = [] /\ call_underway w counter_code P (s0 ++ s1) j = None) ->
    forall i0 tr0 l0 l, In (CCollect, tr0) (finished_calls w counter_code P s0 i0) -> result_of CCollect tr0 = Collected l0 -> result_of CCollect tr = Collected l ->
    (forall g, In g (map fst l0 ++ map fst l) -> forall j hd, P j hd <> Some (CDelete g)) ->
    (forall g, In g (map fst l) -> (sum_begun w counter_code P (fun u _ => counter_delta u) Z.of_N counter_delta g n (s0 ++ s1) < 2 ^ 63)%Z) ->
    forall nss base sc0 sc, scrape_of nss base (collected_family (group_visit heck (su_fields w)) KCounter MCounter l0) sc0 ->
    scrape_of nss base (collected_family (group_visit heck (su_fields w)) KCounter MCounter l) sc ->
    exists lines0 lines, scrape_shows ryu (su_build w) sc0 lines0 /\ scrape_shows ryu (su_build w) sc lines /\ series_grow [] lines0 lines.
  Proof.
    intros P shaped s0 s1 i tr rest n ID LA BE i0 tr0 l0 l I0 RC0 RC KP LT nss base sc0 sc SC0 SC.
    assert (FST : forall g r, In (g, r) l -> In g (map fst l)) by (intros g r J; apply in_map_iff; now exists (g, r)).
    assert (FST0 : forall g r, In (g, r) l0 -> In g (map fst l0)) by (intros g r J; apply in_map_iff; now exists (g, r)).
    assert (KP0 : forall g r, In (g, r) l0 -> forall j hd, P j hd <> Some (CDelete g)) by (intros g r J; apply KP, in_or_app; left; exact (FST0 g r J)).
    assert (STILL : forall g r, In (g, r) l0 -> In g (map fst l)).
    { intros g r J. destruct (all_still w counter_code _ _ _ P ok shaped (counter_good 0) shards g (KP0 g r J) s0 s1 i tr rest ID LA i0 tr0 I0 l0 r RC0 J) as (l' & r' & E & K).
      rewrite RC in E. injection E as <-. exact (FST g r' K). }
    assert (MORE : forall g r0, In (g, r0) l0 -> exists r, In (g, r) l /\ (r0 <= r)%N).
    { intros g r0 J.
      destruct (counter_later w P ok shaped shards g (KP0 g r0 J) s0 s1 i tr rest n ID LA BE) with (i0 := i0) (tr0 := tr0) (l0 := l0) (r0 := r0) as (l' & E & (r & JR) & LE); auto.
      { specialize (LT g (STILL g r0 J)). lia. }
      rewrite RC in E. injection E as <-. exists r. split; [exact JR|exact (LE r JR)]. }
    assert (RG : forall g r, In (g, r) l -> (r < 2 ^ 63)%N).
    { intros g r J. assert (LG := LT g (FST g r J)).
      pose proof (counter_brackets w P ok shaped g (KP g (in_or_app _ _ _ (or_intror (FST g r J)))) s0 s1 i tr rest n ID LA BE ltac:(cbn; lia) l r RC J) as B. cbn in B. lia. }
    exists (block ryu (group_visit heck (su_fields w)) KCounter MCounter nss base l0), (block ryu (group_visit heck (su_fields w)) KCounter MCounter nss base l).
    split; [|split].
    - apply collected_lines; [exact RYU| |exact SC0]. intros g r J. split; [now apply visit_valid|]. destruct (MORE g r J) as (r' & J' & LE). specialize (RG g r' J'). cbn. lia.
    - apply collected_lines; [exact RYU| |exact SC]. intros g r J. split; [now apply visit_valid|]. exact (RG g r J).
    - now apply counters_grow.
  Qed.

  Theorem histogram_text : forall b (P : hist_calls), calls_shaped (su_fields w) P ->
    forall s0 s1 i tr rest n, call_underway w (hist_code b) P s0 i = None ->
    finished_calls w (hist_code b) P (s0 ++ s1) i = finished_calls w (hist_code b) P s0 i ++ (CCollect, tr) :: rest ->
    (forall j, (n <= j)%nat -> finished_calls w (hist_code b) P (s0 ++ s1) j = [] /\ call_underway w (hist_code b) P (s0 ++ s1) j = None) ->
    forall l, result_of CCollect tr = Collected l -> (forall g, In g (map fst l) -> forall j hd, P j hd <> Some (CDelete g)) ->
    (forall g, In g (map fst l) -> (sum_begun w (hist_code b) P hist_added hist_count hist_most g n (s0 ++ s1) < 2 ^ 63)%Z) ->
    forall ts, length ts = b ->
    forall nss base sc, scrape_of nss base (collected_family (group_visit heck (su_fields w)) KHistogram (read_histogram ts) l) sc ->
    exists lines, scrape_shows ryu (su_build w) sc lines /\ NoDup (map fst l) /\
      family_text (full_name nss base []) KHistogram
        (fun g part => exists ls bs inf sum, group_shown heck (su_fields w) g ls /\ In (g, Some (bs, inf, sum)) l /\
           histogram_lines ryu nss base ls ts bs inf sum part /\
           (sum_finished w (hist_code b) P hist_added hist_count g n s0 <= Z.of_N (first_buckets (length bs) bs + inf) <=
            sum_begun w (hist_code b) P hist_added hist_count hist_most g n (s0 ++ s1))%Z) (map fst l) lines /\
      (forall g, (forall j hd, P j hd <> Some (CDelete g)) -> forall j u t r, In (CUpdate g u, t) (finished_calls w (hist_code b) P s0 j) ->
         result_of (CUpdate g u) t = Returned r -> In g (map fst l)) /\
      (forall g, In g (map fst l) -> exists j u, call_begun w (hist_code b) P (s0 ++ s1) j (CUpdate g u)).
  Proof.
    intros b P shaped s0 s1 i tr rest n ID LA BE l RC KP LT ts BS nss base sc SC.
    assert (FST : forall g r, In (g, r) l -> In g (map fst l)) by (intros g r J; apply in_map_iff; now exists (g, r)).
    assert (RG : forall g r, In (g, r) l -> metric_in_range (read_histogram ts r)).
    { intros g r J. specialize (LT g (FST g r J)).
      destruct (hist_within b w P ok shaped g (KP g (FST g r J)) s0 s1 i tr rest n ID LA BE ltac:(lia) l r RC J) as (bs & inf & sum & -> & LN & LE).
      cbn [read_histogram metric_in_range]. split; [now rewrite LN|lia]. }
    assert (LT' : forall g, In g (map fst l) -> (sum_begun w (hist_code b) P hist_added hist_count hist_most g n (s0 ++ s1) < 2 ^ 64)%Z) by (intros g J; specialize (LT g J); lia).
    clear LT. rename LT' into LT.
    assert (IN : In (CCollect, tr) (finished_calls w (hist_code b) P (s0 ++ s1) i)) by (rewrite LA; apply in_or_app; right; now left).
    destruct (all_collections w (hist_code b) _ _ _ P ok shaped (hist_good b) (s0 ++ s1) i tr IN) as (l' & E & ND & BG). rewrite RC in E. injection E as <-.
    exists (block ryu (group_visit heck (su_fields w)) KHistogram (read_histogram ts) nss base l). split; [|split; [exact ND|split; [|split]]].
    - apply collected_lines; [exact RYU| |exact SC]. intros g r J. split; [now apply visit_valid|exact (RG g r J)].
    - apply block_text; [|exact RG]. intros g r part J ML.
      destruct (hist_brackets b w P ok shaped g (KP g (FST g r J)) s0 s1 i tr rest n ID LA BE (LT g (FST g r J)) l r RC J) as ([[bs inf] sum] & -> & B).
      exists (group_visit heck (su_fields w) g), bs, inf, sum.
      split; [exact (collected_shown heck w (hist_code b) _ _ _ P ok shaped (hist_good b) _ i tr l IN RC g _ J)|]. split; [exact J|]. split; [exact ML|].
      specialize (RG g _ J). cbn [read_histogram] in RG. rewrite <- (count_total _ _ _ _ RG). exact B.
    - intros g NK j u t r I R.
      destruct (all_shown w (hist_code b) _ _ _ P ok shaped (hist_good b) shards g NK s0 s1 i tr rest ID LA j u t r I R) as (l' & r' & E & J).
      rewrite RC in E. injection E as <-. exact (FST g r' J).
    - intros g J. apply in_map_iff in J as ([g' r] & <- & J). exact (BG g' r J).
  Qed.

  Theorem histogram_rates : forall b (P : hist_calls), calls_shaped (su_fields w) P ->
    forall s0 s1 i tr rest n, call_underway w (hist_code b) P s0 i = None ->
    finished_calls w (hist_code b) P (s0 ++ s1) i = finished_calls w (hist_code b) P s0 i ++ (CCollect, tr) :: rest ->
    (forall j, (n <= j)%nat -> finished_calls w (hist_code b) P (s0 ++ s1) j = [] /\ call_underway w (hist_code b) P (s0 ++ s1) j = None) ->
    forall i0 tr0 l0 l, In (CCollect, tr0) (finished_calls w (hist_code b) P s0 i0) -> result_of CCollect tr0 = Collected l0 -> result_of CCollect tr = Collected l ->
    (forall g, In g (map fst l0 ++ map fst l) -> forall j hd, P j hd <> Some (CDelete g)) ->
    (forall g, In g (map fst l) -> (sum_begun w (hist_code b) P hist_added hist_count hist_most g n (s0 ++ s1) < 2 ^ 63)%Z) ->
    forall ts, length ts = b ->
    forall nss base sc0 sc, scrape_of nss base (collected_family (group_visit heck (su_fields w)) KHistogram (read_histogram ts) l0) sc0 ->
    scrape_of nss base (collected_family (group_visit heck (su_fields w)) KHistogram (read_histogram ts) l) sc ->
    exists lines0 lines, scrape_shows ryu (su_build w) sc0 lines0 /\ scrape_shows ryu (su_build w) sc lines /\
      series_grow [full_name nss base [str "sum"]] lines0 lines.
  Proof.
    intros b P shaped s0 s1 i tr rest n ID LA BE i0 tr0 l0 l I0 RC0 RC KP LT ts BS nss base sc0 sc SC0 SC.
    assert (FST : forall g r, In (g, r) l -> In g (map fst l)) by (intros g r J; apply in_map_iff; now exists (g, r)).
    assert (RG : forall g r, In (g, r) l -> metric_in_range (read_histogram ts r)).
    { intros g r J. specialize (LT g (FST g r J)).
      destruct (hist_within b w P ok shaped g (KP g (in_or_app _ _ _ (or_intror (FST g r J)))) s0 s1 i tr rest n ID LA BE ltac:(lia) l r RC J) as (bs & inf & sum & -> & LN & LE).
      cbn [read_histogram metric_in_range]. split; [now rewrite LN|lia]. }
    assert (LT' : forall g, In g (map fst l) -> (sum_begun w (hist_code b) P hist_added hist_count hist_most g n (s0 ++ s1) < 2 ^ 64)%Z) by (intros g J; specialize (LT g J); lia).
    clear LT. rename LT' into LT.
    assert (FST0 : forall g r, In (g, r) l0 -> In g (map fst l0)) by (intros g r J; apply in_map_iff; now exists (g, r)).
    assert (KP0 : forall g r, In (g, r) l0 -> forall j hd, P j hd <> Some (CDelete g)) by (intros g r J; apply KP, in_or_app; left; exact (FST0 g r J)).
    assert (STILL : forall g r, In (g, r) l0 -> In g (map fst l)).
    { intros g r J. destruct (all_still w (hist_code b) _ _ _ P ok shaped (hist_good b) shards g (KP0 g r J) s0 s1 i tr rest ID LA i0 tr0 I0 l0 r RC0 J) as (l' & r' & E & K).
      rewrite RC in E. injection E as <-. exact (FST g r' K). }
    assert (MORE : forall g r0, In (g, r0) l0 -> exists bs0 inf0 sum0 bs inf sum, r0 = Some (bs0, inf0, sum0) /\ In (g, Some (bs, inf, sum)) l /\
       Forall2 N.le bs0 bs /\ (inf0 <= inf)%N).
    { intros g r0 J.
      destruct (hist_later b w P ok shaped shards g (KP0 g r0 J) s0 s1 i tr rest n ID LA BE (LT g (STILL g r0 J))) with (i0 := i0) (tr0 := tr0) (l0 := l0) (r0 := r0) as (l' & E & (r & JR) & LE); auto.
      rewrite RC in E. injection E as <-. destruct (LE r JR) as (bs0 & inf0 & sum0 & bs & inf & sum & -> & -> & X & Y).
      exists bs0, inf0, sum0, bs, inf, sum. auto. }
    exists (block ryu (group_visit heck (su_fields w)) KHistogram (read_histogram ts) nss base l0), (block ryu (group_visit heck (su_fields w)) KHistogram (read_histogram ts) nss base l).
    split; [|split].
    - apply collected_lines; [exact RYU| |exact SC0]. intros g r J. split; [now apply visit_valid|]. apply (smaller_in_range _ ts l RG g r (MORE g r J)).
    - apply collected_lines; [exact RYU| |exact SC]. intros g r J. split; [now apply visit_valid|]. exact (RG g r J).
    - now apply histograms_grow.
  Qed.
End Sparse.
