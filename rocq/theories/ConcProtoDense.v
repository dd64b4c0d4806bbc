(** Protobuf scrapes of a dense vec that threads use. *)
From Coq Require Import String List NArith ZArith Bool Arith Lia Sorted.
From Verif Require Import Base BaseFacts Writer NameModel NameSpec FloatModel MetricModel LabelModel LabelSpec EncoderModel TextModel TextSpec
  EncoderSpec ProtoModel ProtoSpec ProtoEndSpec ProtoScrapeSpec ConcProtoSpec ConcModel ConcSpec ConcTheorems ConcVecSpec ConcVecTheorems ConcCallModel ConcCallSpec ConcCallTheorems ConcScrapeModel ConcProto
  ConcDenseModel ConcDenseSpec ConcDenseCallModel ConcDenseCallSpec ConcDenseCallProofs ConcDenseCallTheorems ConcDenseOrder.
Import ListNotations.

Section Dense.
  Variable L : lgset.
  Variable wt : lg_state L -> lg_group L -> Prop.
  Variable visit : lg_group L -> labels.
  Variable ryu : f64 -> bytes.
  Variable bd : build.
  Variable w : dense_setup L.
  Hypothesis geq : forall a b : lg_group L, {a = b} + {a <> b}.
  Hypothesis ok : dense_ok_setup L wt w.

  Theorem dense_counter_messages : forall P : dense_program L counter_op N, dense_shaped wt w P ->
    forall s0 s1 i tr rest n, dense_underway w counter_code P s0 i = None ->
    dense_finished w counter_code P (s0 ++ s1) i = dense_finished w counter_code P s0 i ++ (ECollect, tr) :: rest ->
    (forall j, (n <= j)%nat -> dense_finished w counter_code P (s0 ++ s1) j = [] /\ dense_underway w counter_code P (s0 ++ s1) j = None) ->
    forall l, dense_result_of ECollect tr = DCollected l -> l <> [] ->
    (forall g, In g (map fst l) -> (dense_sum_begun w counter_code P geq (fun u _ => counter_delta u) counter_delta g n (s0 ++ s1) < 2 ^ 64)%Z) ->
    forall nss base help sc, pscrape_of nss base help (collected_family visit KCounter MCounter l) sc ->
    exists out, pscrape_writes ryu bd sc out /\
      ((nlen out < 2 ^ 64)%N -> exists p, stream_has ryu sc out p /\
         message (full_name nss base []) help KCounter
           (fun g q => exists c, counter_shown ryu (visit g) c q /\
              (dense_sum_finished w counter_code P geq (fun u _ => counter_delta u) g n s0 <= Z.of_N c <=
               dense_sum_begun w counter_code P geq (fun u _ => counter_delta u) counter_delta g n (s0 ++ s1))%Z) (map fst l) p) /\
      (exists ks, Forall2 (dense_id wt w) (map fst l) ks /\ StronglySorted lt ks) /\
      (forall j g u t r, In (EUpdate g u, t) (dense_finished w counter_code P s0 j) -> dense_result_of (EUpdate g u) t = DReturned r -> In g (map fst l)) /\
      (forall g, In g (map fst l) -> exists j u, dense_begun w counter_code P (s0 ++ s1) j (EUpdate g u)).
  Proof.
    intros P shaped s0 s1 i tr rest n ID LA BE l RC NE LT nss base help sc SC.
    assert (FST : forall g r, In (g, r) l -> In g (map fst l)) by (intros g r J; apply in_map_iff; now exists (g, r)).
    assert (IN : In (ECollect, tr) (dense_finished w counter_code P (s0 ++ s1) i)) by (rewrite LA; apply in_or_app; right; now left).
    assert (BR : forall g r, In (g, r) l ->
      (dense_sum_finished w counter_code P geq (fun u _ => counter_delta u) g n s0 <= Z.of_N r <=
            dense_sum_begun w counter_code P geq (fun u _ => counter_delta u) counter_delta g n (s0 ++ s1))%Z).
    { intros g r J. exact (dense_counter_brackets wt w geq ok P shaped s0 s1 i tr rest n ID LA BE l g r RC J (LT g (FST g r J))). }
    destruct (ConcDenseCallProofs.collections wt w counter_code _ _ _ P ok shaped (counter_good 0) (s0 ++ s1) i tr IN) as (l' & ks & E & KS & SS & BG).
    rewrite RC in E. injection E as <-.
    destruct (collected_message ryu bd visit KCounter MCounter ltac:(discriminate) (fun _ => eq_refl) l nss base help sc NE (fun _ _ _ => I) SC) as (out & WR & RD).
    exists out. split; [exact WR|]. split; [|split; [|split]].
    - intros LN. destruct (RD LN) as (p & SH & N1 & N2 & N3 & F). exists p. split; [exact SH|]. split; [exact N1|]. split; [exact N2|]. split; [exact N3|].
      eapply message_rows; [|exact F]. intros g r q J S. exists r. split; [|exact (BR g r J)].
      apply counter_message; [|exact S]. specialize (BR g r J). specialize (LT g (FST g r J)). lia.
    - exists ks. split; [|exact SS]. clear - KS. induction KS; constructor; auto.
    - intros j g u t r I R.
      destruct (shown wt w counter_code _ _ _ P ok shaped (counter_good 0) s0 s1 i tr rest ID LA j g u t r I R) as (l' & r' & E & J).
      rewrite RC in E. injection E as <-. apply in_map_iff. now exists (g, r').
    - intros g J. apply in_map_iff in J as ([g' r] & <- & J). exact (BG g' r J).
  Qed.

  Theorem dense_counter_messages_rise : forall P : dense_program L counter_op N, dense_shaped wt w P ->
    forall s0 s1 i tr rest n, dense_underway w counter_code P s0 i = None ->
    dense_finished w counter_code P (s0 ++ s1) i = dense_finished w counter_code P s0 i ++ (ECollect, tr) :: rest ->
    (forall j, (n <= j)%nat -> dense_finished w counter_code P (s0 ++ s1) j = [] /\ dense_underway w counter_code P (s0 ++ s1) j = None) ->
    forall i0 tr0 l0 l, In (ECollect, tr0) (dense_finished w counter_code P s0 i0) -> dense_result_of ECollect tr0 = DCollected l0 ->
    dense_result_of ECollect tr = DCollected l -> l0 <> [] ->
    (forall g, In g (map fst l) -> (dense_sum_begun w counter_code P geq (fun u _ => counter_delta u) counter_delta g n (s0 ++ s1) < 2 ^ 64)%Z) ->
    forall nss base help sc0 sc, pscrape_of nss base help (collected_family visit KCounter MCounter l0) sc0 ->
    pscrape_of nss base help (collected_family visit KCounter MCounter l) sc ->
    exists out0 out, pscrape_writes ryu bd sc0 out0 /\ pscrape_writes ryu bd sc out /\
      ((nlen out0 < 2 ^ 64)%N -> (nlen out < 2 ^ 64)%N ->
       exists p0 p, stream_has ryu sc0 out0 p0 /\ stream_has ryu sc out p /\ pf_name p = Some (full_name nss base []) /\ counters_rise p0 p).
  Proof.
    intros P shaped s0 s1 i tr rest n ID LA BE i0 tr0 l0 l I0 RC0 RC NE LT nss base help sc0 sc SC0 SC.
    assert (FST : forall g r, In (g, r) l -> In g (map fst l)) by (intros g r J; apply in_map_iff; now exists (g, r)).
    assert (STILL : forall g r, In (g, r) l0 -> In g (map fst l)).
    { intros g r J. destruct (dense_still wt w counter_code _ _ _ P ok shaped (counter_good 0) s0 s1 i tr rest ID LA i0 tr0 I0 l0 g r RC0 J) as (l' & r' & E & K).
      rewrite RC in E. injection E as <-. exact (FST g r' K). }
    assert (MORE : forall g r0, In (g, r0) l0 -> exists r, In (g, r) l /\ (r0 <= r)%N).
    { intros g r0 J.
      destruct (dense_counter_later wt w geq ok P shaped s0 s1 i tr rest n ID LA BE i0 tr0 l0 g r0 I0 RC0 J) as (l' & E & (r & JR) & LE); [exact (LT g (STILL g r0 J))|].
      rewrite RC in E. injection E as <-. exists r. split; [exact JR|exact (LE r JR)]. }
    assert (RG : forall g r, In (g, r) l -> (r < 2 ^ 64)%N).
    { intros g r J. assert (LG := LT g (FST g r J)).
      pose proof (dense_counter_brackets wt w geq ok P shaped s0 s1 i tr rest n ID LA BE l g r RC J LG) as B. lia. }
    assert (NE1 : l <> []). { intros ->. destruct l0 as [|[g r] l0]; [contradiction|]. exact (STILL g r (or_introl eq_refl)). }
    destruct (collected_message ryu bd visit KCounter MCounter ltac:(discriminate) (fun _ => eq_refl) l0 nss base help sc0 NE (fun _ _ _ => I) SC0) as (out0 & WR0 & RD0).
    destruct (collected_message ryu bd visit KCounter MCounter ltac:(discriminate) (fun _ => eq_refl) l nss base help sc NE1 (fun _ _ _ => I) SC) as (out & WR & RD).
    exists out0, out. split; [exact WR0|]. split; [exact WR|]. intros L0 LN. destruct (RD0 L0) as (p0 & SH0 & M1 & M2 & M3 & F0). destruct (RD LN) as (p & SH & N1 & N2 & N3 & F).
    exists p0, p. split; [exact SH0|]. split; [exact SH|]. split; [exact N1|]. apply (messages_rise ryu visit l0 l); auto. congruence.
  Qed.
End Dense.
