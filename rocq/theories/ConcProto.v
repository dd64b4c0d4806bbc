(** Protobuf scrapes of a sparse vec that threads use. *)
From Coq Require Import String List NArith ZArith Bool Arith Lia.
From Verif Require Import Base BaseFacts Writer NameModel NameSpec FloatModel FloatFacts FloatOrder FloatArith MetricModel MetricSpec MetricProofs MetricTheorems LabelModel LabelSpec EncoderModel TextModel TextSpec
  EncoderSpec ScrapeSpec EndSpec ProtoModel ProtoSpec ProtoProofs ProtoTheorems ProtoErrors ProtoEndSpec ProtoEndTheorems ProtoScrapeSpec ConcProtoSpec
  ConcModel ConcSpec ConcVecModel ConcVecSpec ConcVecTheorems ConcLabelModel ConcLabelSpec ConcLabelProofs ConcCallModel ConcCallSpec ConcCallTheorems ConcCallOrder
  ConcScrapeModel ConcScrapeSpec ConcScrapeProofs.
Import ListNotations.
Local Open Scope N_scope.

(** ** Any collection *)
Section Collected.
  Variable ryu : f64 -> bytes.
  Variable bd : build.
  Context {G R : Type}.
  Variable visit : G -> labels.
  Variable k : kind.
  Variable read : R -> metric.
  Hypothesis plain : k <> KHistogram.
  Hypothesis kinds : forall r, metric_kind (read r) = k.

  Lemma collected_message : forall l nss base help sc, l <> [] -> (forall g r, In (g, r) l -> bits_ok (read r)) ->
    pscrape_of nss base help (collected_family visit k read l) sc ->
    exists out, pscrape_writes ryu bd sc out /\
      (nlen out < 2 ^ 64 -> exists p, stream_has ryu sc out p /\ pf_name p = Some (full_name nss base []) /\ pf_help p = help /\
         pf_type p = Some (kind_number k) /\
         Forall2 (fun q m => sample_shows ryu (fun z x => x = f_of_Z z) (visit (fst q), read (snd q)) m) l (pf_metrics p)).
  Proof.
    intros l nss base help [gr bf bh w] NE BO (r & FC & GF & RO & RB & MIS & RW & WO). cbn [pc_group pc_before pc_behind pc_writer] in *.
    cbn [collected_family family_content] in FC. injection FC as <-.
    set (r := {| rf_namespaces := nss; rf_base := base; rf_help := help; rf_kind := Some k;
                 rf_samples := map (fun p => (visit (fst p), read (snd p))) l |}) in *.
    assert (HN : rf_samples r <> []) by (cbn [r rf_samples]; destruct l; [contradiction|discriminate]).
    apply Forall_app in RO as [RO1 RO2]. apply Forall_app in RB as [RB1 RB2].
    destruct (proto_round_trip ryu bd [gr] [bf ++ r :: bh] w) as (st & E & D); try assumption.
    - constructor; [exact GF|constructor].
    - cbn [concat]. rewrite app_nil_r. apply Forall_app. split; [exact RO1|]. constructor; [|exact RO2].
      split; [exact plain|]. apply Forall_map, Forall_forall. intros q _. apply kinds.
    - cbn [concat]. rewrite app_nil_r. apply Forall_app. split; [exact RB1|]. constructor; [|exact RB2].
      unfold rf_bits_ok. cbn [r rf_samples]. apply Forall_map, Forall_forall. intros [g x] I. exact (BO g x I).
    - cbn [concat]. now rewrite app_nil_r.
    - exists (w_out (pe_writer st)). split; [now exists st|]. intros L. destruct (D L) as (ps & RS & F2). cbn [concat] in F2. rewrite app_nil_r in F2.
      rewrite with_samples_split in F2 by exact HN.
      apply Forall2_app_inv_l in F2 as (before & rest & F1 & F2 & ->). inversion F2 as [|? pf ? behind FS F3]; subst.
      destruct FS as (N1 & N2 & N3 & N4). exists pf. split; [now exists before, behind|]. split; [exact N1|]. split; [exact N2|]. split; [exact N3|].
      cbn [r rf_samples] in N4. clear - N4. remember (pf_metrics pf) as ms eqn:E. clear E. revert ms N4. induction l as [|q l IH]; intros ms F; inversion F; subst; constructor; auto.
  Qed.

  Lemma message_rows : forall (about : G -> pmetric -> Prop) l ms,
    (forall g r m, In (g, r) l -> sample_shows ryu (fun z x => x = f_of_Z z) (visit g, read r) m -> about g m) ->
    Forall2 (fun q m => sample_shows ryu (fun z x => x = f_of_Z z) (visit (fst q), read (snd q)) m) l ms -> Forall2 about (map fst l) ms.
  Proof.
    intros about l ms H F. induction F as [|[g r] m l ms S F IH]; cbn [map fst]; constructor.
    - apply (H g r); [now left|exact S].
    - apply IH. intros g' r' m' I. apply H. now right.
  Qed.
End Collected.

Lemma counter_message : forall ryu ls c m, (c < 2 ^ 64)%N -> sample_shows ryu (fun z x => x = f_of_Z z) (ls, MCounter c) m -> counter_shown ryu ls c m.
Proof.
  intros ryu ls c m B [SL (GN & x & CN & ->)]. split; [exact SL|]. split; [exact GN|]. eexists. split; [exact CN|]. apply of_Z_int_double. lia.
Qed.

Lemma labels_same : forall ryu ls a b, Forall2 (pair_shows ryu) ls a -> Forall2 (pair_shows ryu) ls b -> same_pairs a b.
Proof.
  intros ryu ls a b A. revert b. unfold same_pairs. induction A as [|l p ls a (N1 & t & V1 & S1) A IH]; intros b B; inversion B as [|? q ? b' (N2 & u & V2 & S2) B']; subst; constructor; [|now apply IH].
  split; [congruence|]. exists t, u. split; [exact V1|]. split; [exact V2|]. unfold same_value, label_shows in *. destruct (snd l) as [z|x|s]; [right; eauto| |left; congruence].
  left. destruct (f_decode x) as [?|[]| |]; congruence.
Qed.

Lemma of_Z_grows : forall z z', (z <= z')%Z -> (fv (f_of_Z z) <= fv (f_of_Z z'))%Z.
Proof. intros z z' H. rewrite !fv_of_Z. apply RV_mono. apply Z.mul_le_mono_nonneg_r; [|exact H]. apply Z.pow_nonneg. lia. Qed.

(** Two collections of counters. *)
Section Grow.
  Variable ryu : f64 -> bytes.
  Context {G : Type}.
  Variable visit : G -> labels.

  Lemma messages_rise : forall (l0 l : list (G * N)) p0 p,
    (forall g r0, In (g, r0) l0 -> exists r, In (g, r) l /\ (r0 <= r)%N) -> (forall g r, In (g, r) l -> (r < 2 ^ 64)%N) ->
    pf_name p = pf_name p0 ->
    Forall2 (fun q m => sample_shows ryu (fun z x => x = f_of_Z z) (visit (fst q), MCounter (snd q)) m) l0 (pf_metrics p0) ->
    Forall2 (fun q m => sample_shows ryu (fun z x => x = f_of_Z z) (visit (fst q), MCounter (snd q)) m) l (pf_metrics p) ->
    counters_rise p0 p.
  Proof.
    intros l0 l p0 p MORE RG NM F0 F. split; [exact NM|]. intros m0 I0.
    assert (A : forall A B (Q : A -> B -> Prop) xs ys y, Forall2 Q xs ys -> In y ys -> exists x, In x xs /\ Q x y).
    { intros A B Q xs ys y X. induction X as [|x y' xs ys X1 X IH]; intros J; [contradiction|]. destruct J as [<-|J]; [exists x; split; [now left|exact X1]|].
      destruct (IH J) as (x' & ? & ?). exists x'. split; [now right|assumption]. }
    assert (B : forall A B (Q : A -> B -> Prop) xs ys x, Forall2 Q xs ys -> In x xs -> exists y, In y ys /\ Q x y).
    { intros A0 B Q xs ys x X. induction X as [|x' y xs ys X1 X IH]; intros J; [contradiction|]. destruct J as [<-|J]; [exists y; split; [now left|exact X1]|].
      destruct (IH J) as (y' & ? & ?). exists y'. split; [now right|assumption]. }
    destruct (A _ _ _ _ _ m0 F0 I0) as ([g r0] & J0 & S0). destruct (MORE g r0 J0) as (r & J & LE). destruct (B _ _ _ _ _ (g, r) F J) as (m & I & S).
    cbn [fst snd] in S0, S. destruct S0 as [L0 (_ & x0 & C0 & E0)]. destruct S as [L1 (_ & x & C1 & E1)]. cbn [fst] in L0, L1. specialize (RG g r J).
    exists m, x0, x. split; [exact I|]. split; [exact (labels_same ryu _ _ _ L0 L1)|]. split; [exact C0|]. split; [exact C1|]. subst x0 x.
    split; [apply (of_Z_int_double (Z.of_N r0)); lia|]. split; [apply (of_Z_int_double (Z.of_N r)); lia|]. apply of_Z_grows. lia.
  Qed.
End Grow.

(** ** A sparse vec *)
Section Any.
  Context {Sh Op Res Mic V St : Type}.
  Variable heck : rename_all -> bytes -> bytes.
  Variable w : setup.
  Variable m : metric_code Sh Op Res Mic V.
  Variable spec : nat -> Op -> St -> option (St * Res).
  Variable st_new : St.
  Variable aview : St -> V.
  Variable P : call_program Op Res V.
  Hypothesis ok : setup_ok w.
  Hypothesis shaped : calls_shaped (su_fields w) P.
  Hypothesis good : good_metric (mc_machine m) (mc_new m) (mc_view m) spec st_new aview.
  Variable ryu : f64 -> bytes.

  Theorem scrape_messages : forall s i tr l, In (CCollect, tr) (finished_calls w m P s i) -> result_of CCollect tr = Collected l -> l <> [] ->
    forall k read, k <> KHistogram -> (forall r, metric_kind (read r) = k) -> (forall g r, In (g, r) l -> bits_ok (read r)) ->
    forall nss base help sc, pscrape_of nss base help (collected_family (group_visit heck (su_fields w)) k read l) sc ->
    exists out, pscrape_writes ryu (su_build w) sc out /\ NoDup (map fst l) /\
      (nlen out < 2 ^ 64 -> exists p, stream_has ryu sc out p /\
         message (full_name nss base []) help k
           (fun g q => exists ls r, group_shown heck (su_fields w) g ls /\ In (g, r) l /\ sample_shows ryu (fun z x => x = f_of_Z z) (ls, read r) q) (map fst l) p).
  Proof.
    intros s i tr l I RC NE k read KH KR BO nss base help sc SC.
    destruct (collected_message ryu (su_build w) (group_visit heck (su_fields w)) k read KH KR l nss base help sc NE BO SC) as (out & WR & RD).
    exists out. split; [exact WR|]. split.
    - destruct (all_collections w m spec st_new aview P ok shaped good s i tr I) as (l' & E & ND & _). rewrite RC in E. now injection E as <-.
    - intros L. destruct (RD L) as (p & SH & N1 & N2 & N3 & F). exists p. split; [exact SH|]. split; [exact N1|]. split; [exact N2|]. split; [exact N3|].
      eapply message_rows; [|exact F]. intros g r q J S. exists (group_visit heck (su_fields w) g), r. split; [|now split].
      exact (collected_shown heck w m spec st_new aview P ok shaped good s i tr l I RC g r J).
  Qed.
End Any.

Section Sparse.
  Variable heck : rename_all -> bytes -> bytes.
  Variable ryu : f64 -> bytes.
  Variable w : setup.
  Hypothesis ok : setup_ok w.
  Hypothesis shards : forall k, (su_shard_of w k < su_shards w)%nat.

  Theorem counter_messages : forall P : call_program counter_op N N, calls_shaped (su_fields w) P ->
    forall s0 s1 i tr rest n, call_underway w counter_code P s0 i = None ->
    finished_calls w counter_code P (s0 ++ s1) i = finished_calls w counter_code P s0 i ++ (CCollect, tr) :: rest ->
    (forall j, (n <= j)%nat -> finished_calls w counter_code P (s0 ++ s1) j = [] /\ call_underway w counter_code P (s0 ++ s1) j = None) ->
    forall l, result_of CCollect tr = Collected l -> l <> [] -> (forall g, In g (map fst l) -> forall j hd, P j hd <> Some (CDelete g)) ->
    (forall g, In g (map fst l) -> (sum_begun w counter_code P (fun u _ => counter_delta u) Z.of_N counter_delta g n (s0 ++ s1) < 2 ^ 64)%Z) ->
    forall nss base help sc, pscrape_of nss base help (collected_family (group_visit heck (su_fields w)) KCounter MCounter l) sc ->
    exists out, pscrape_writes ryu (su_build w) sc out /\ NoDup (map fst l) /\
      (nlen out < 2 ^ 64 -> exists p, stream_has ryu sc out p /\
         message (full_name nss base []) help KCounter
           (fun g q => exists ls c, group_shown heck (su_fields w) g ls /\ counter_shown ryu ls c q /\
              (sum_finished w counter_code P (fun u _ => counter_delta u) Z.of_N g n s0 <= Z.of_N c <=
               sum_begun w counter_code P (fun u _ => counter_delta u) Z.of_N counter_delta g n (s0 ++ s1))%Z) (map fst l) p) /\
      (forall g, (forall j hd, P j hd <> Some (CDelete g)) -> forall j u t r, In (CUpdate g u, t) (finished_calls w counter_code P s0 j) ->
         result_of (CUpdate g u) t = Returned r -> In g (map fst l)) /\
      (forall g, In g (map fst l) -> exists j u, call_begun w counter_code P (s0 ++ s1) j (CUpdate g u)).
  Proof.
    intros P shaped s0 s1 i tr rest n ID LA BE l RC NE KP LT nss base help sc SC.
    assert (FST : forall g r, In (g, r) l -> In g (map fst l)) by (intros g r J; apply in_map_iff; now exists (g, r)).
    assert (IN : In (CCollect, tr) (finished_calls w counter_code P (s0 ++ s1) i)) by (rewrite LA; apply in_or_app; right; now left).
    assert (BR : forall g r, In (g, r) l ->
      (sum_finished w counter_code P (fun u _ => counter_delta u) Z.of_N g n s0 <= Z.of_N r <=
            sum_begun w counter_code P (fun u _ => counter_delta u) Z.of_N counter_delta g n (s0 ++ s1))%Z).
    { intros g r J. exact (counter_brackets w P ok shaped g (KP g (FST g r J)) s0 s1 i tr rest n ID LA BE (LT g (FST g r J)) l r RC J). }
    destruct (all_collections w counter_code _ _ _ P ok shaped (counter_good 0) (s0 ++ s1) i tr IN) as (l' & E & ND & BG). rewrite RC in E. injection E as <-.
    destruct (collected_message ryu (su_build w) (group_visit heck (su_fields w)) KCounter MCounter ltac:(discriminate) (fun _ => eq_refl) l nss base help sc NE
      (fun _ _ _ => I) SC) as (out & WR & RD).
    exists out. split; [exact WR|]. split; [exact ND|]. split; [|split].
    - intros L. destruct (RD L) as (p & SH & N1 & N2 & N3 & F). exists p. split; [exact SH|]. split; [exact N1|]. split; [exact N2|]. split; [exact N3|].
      eapply message_rows; [|exact F]. intros g r q J S. exists (group_visit heck (su_fields w) g), r.
      split; [exact (collected_shown heck w counter_code _ _ _ P ok shaped (counter_good 0) _ i tr l IN RC g r J)|]. split; [|exact (BR g r J)].
      apply counter_message; [|exact S]. specialize (BR g r J). specialize (LT g (FST g r J)). lia.
    - intros g NK j u t r I R.
      destruct (all_shown w counter_code _ _ _ P ok shaped (counter_good 0) shards g NK s0 s1 i tr rest ID LA j u t r I R) as (l' & r' & E & J).
      rewrite RC in E. injection E as <-. apply in_map_iff. now exists (g, r').
    - intros g J. apply in_map_iff in J as ([g' r] & <- & J). exact (BG g' r J).
  Qed.

  Theorem counter_messages_rise : forall P : call_program counter_op N N, calls_shaped (su_fields w) P ->
    forall s0 s1 i tr rest n, call_underway w counter_code P s0 i = None ->
    finished_calls w counter_code P (s0 ++ s1) i = finished_calls w counter_code P s0 i ++ (CCollect, tr) :: rest ->
    (forall j, (n <= j)%nat -> finished_calls w counter_code P (s0 ++ s1) j = [] /\ call_underway w counter_code P (s0 ++ s1) j = None) ->
    forall i0 tr0 l0 l, In (CCollect, tr0) (finished_calls w counter_code P s0 i0) -> result_of CCollect tr0 = Collected l0 -> result_of CCollect tr = Collected l ->
    l0 <> [] -> (forall g, In g (map fst l0 ++ map fst l) -> forall j hd, P j hd <> Some (CDelete g)) ->
    (forall g, In g (map fst l) -> (sum_begun w counter_code P (fun u _ => counter_delta u) Z.of_N counter_delta g n (s0 ++ s1) < 2 ^ 64)%Z) ->
    forall nss base help sc0 sc, pscrape_of nss base help (collected_family (group_visit heck (su_fields w)) KCounter MCounter l0) sc0 ->
    pscrape_of nss base help (collected_family (group_visit heck (su_fields w)) KCounter MCounter l) sc ->
    exists out0 out, pscrape_writes ryu (su_build w) sc0 out0 /\ pscrape_writes ryu (su_build w) sc out /\
      (nlen out0 < 2 ^ 64 -> nlen out < 2 ^ 64 ->
       exists p0 p, stream_has ryu sc0 out0 p0 /\ stream_has ryu sc out p /\ pf_name p = Some (full_name nss base []) /\ counters_rise p0 p).
  Proof.
    intros P shaped s0 s1 i tr rest n ID LA BE i0 tr0 l0 l I0 RC0 RC NE KP LT nss base help sc0 sc SC0 SC.
    assert (FST : forall g r, In (g, r) l -> In g (map fst l)) by (intros g r J; apply in_map_iff; now exists (g, r)).
    assert (FST0 : forall g r, In (g, r) l0 -> In g (map fst l0)) by (intros g r J; apply in_map_iff; now exists (g, r)).
    assert (KP0 : forall g r, In (g, r) l0 -> forall j hd, P j hd <> Some (CDelete g)) by (intros g r J; apply KP, in_or_app; left; exact (FST0 g r J)).
    assert (STILL : forall g r, In (g, r) l0 -> In g (map fst l)).
    { intros g r J. destruct (all_still w counter_code _ _ _ P ok shaped (counter_good 0) shards g (KP0 g r J) s0 s1 i tr rest ID LA i0 tr0 I0 l0 r RC0 J) as (l' & r' & E & K).
      rewrite RC in E. injection E as <-. exact (FST g r' K). }
    assert (MORE : forall g r0, In (g, r0) l0 -> exists r, In (g, r) l /\ (r0 <= r)%N).
    { intros g r0 J.
      destruct (counter_later w P ok shaped shards g (KP0 g r0 J) s0 s1 i tr rest n ID LA BE) with (i0 := i0) (tr0 := tr0) (l0 := l0) (r0 := r0) as (l' & E & (r & JR) & LE); auto.
      { exact (LT g (STILL g r0 J)). }
      rewrite RC in E. injection E as <-. exists r. split; [exact JR|exact (LE r JR)]. }
    assert (RG : forall g r, In (g, r) l -> (r < 2 ^ 64)%N).
    { intros g r J. assert (LG := LT g (FST g r J)).
      pose proof (counter_brackets w P ok shaped g (KP g (in_or_app _ _ _ (or_intror (FST g r J)))) s0 s1 i tr rest n ID LA BE LG l r RC J) as B. cbn in B. lia. }
    assert (NE1 : l <> []). { intros ->. destruct l0 as [|[g r] l0]; [contradiction|]. exact (STILL g r (or_introl eq_refl)). }
    destruct (collected_message ryu (su_build w) (group_visit heck (su_fields w)) KCounter MCounter ltac:(discriminate) (fun _ => eq_refl) l0 nss base help sc0 NE
      (fun _ _ _ => I) SC0) as (out0 & WR0 & RD0).
    destruct (collected_message ryu (su_build w) (group_visit heck (su_fields w)) KCounter MCounter ltac:(discriminate) (fun _ => eq_refl) l nss base help sc NE1
      (fun _ _ _ => I) SC) as (out & WR & RD).
    exists out0, out. split; [exact WR0|]. split; [exact WR|]. intros L0 L. destruct (RD0 L0) as (p0 & SH0 & M1 & M2 & M3 & F0). destruct (RD L) as (p & SH & N1 & N2 & N3 & F).
    exists p0, p. split; [exact SH0|]. split; [exact SH|]. split; [exact N1|]. apply (messages_rise ryu (group_visit heck (su_fields w)) l0 l); auto. congruence.
  Qed.
End Sparse.
