(** The examples meet the hypotheses. *)
From Coq Require Import String List NArith ZArith Bool Lia.
From Verif Require Import Base Writer NameModel NameSpec LabelModel FloatModel EncoderModel TextModel TextSpec
  EncoderSpec TrimProofs EncoderProofs TextExamples TextExampleProofs ProtoModel ProtoSpec ProtoProofs ProtoTheorems ProtoErrors ProtoExamples.
Import ListNotations.
Local Open Scope N_scope.

Lemma ex_pgroup_families : group_families [] ex_pgroup ex_pfamilies.
Proof.
  unfold ex_pgroup, ex_pfamilies. apply GF_struct.
  eapply (FF_documented _ _ _ _ (str "number of errors")); [discriminate|exact (trim_trimmed _)|reflexivity|].
  eapply FF_undocumented; [reflexivity|].
  apply (FF_ns _ _ _ _ [_] [_; _]).
  - apply NameProofs.valid_metric_nameb_spec. reflexivity.
  - apply GF_struct. eapply FF_undocumented; [reflexivity|constructor].
  - eapply (FF_documented _ _ _ _ (str "gone")); [discriminate|exact (trim_trimmed _)|reflexivity|].
    eapply (FF_documented _ _ _ _ (str "load")); [discriminate|exact (trim_trimmed _)|reflexivity|constructor].
Qed.

Lemma ex_pmisleading_families : group_families [] ex_pmisleading ex_pmisled.
Proof.
  unfold ex_pmisleading, ex_pmisled. apply GF_struct.
  eapply (FF_documented _ _ _ _ (str "number of errors")); [discriminate|exact (trim_trimmed _)|reflexivity|].
  eapply FF_undocumented; [reflexivity|constructor].
Qed.

Lemma safe_not_misleading : forall fs, safe false fs -> ~ misleading fs.
Proof.
  intros fs S (pre & a & mid & b & post & -> & DA & EA & MM & DB & EB).
  assert (X : forall pend, safe pend (pre ++ a :: mid ++ b :: post) -> False); [|exact (X _ S)].
  clear S. induction pre as [|f pre IH]; intros pend S; cbn [app safe] in S.
  - unfold documented, empty in *. destruct (rf_help a); [|congruence]. rewrite EA in S.
    induction MM as [|f mid [DF EF] _ IH]; cbn [app safe] in S.
    + destruct (rf_help b); [elim DB; discriminate|]. destruct (rf_samples b); [now elim EB|]. destruct S; discriminate.
    + unfold documented, empty in *. destruct (rf_help f); [elim DF; discriminate|]. rewrite EF in S. auto.
  - destruct (rf_help f), (rf_samples f); try (eapply IH; exact S). destruct S as [_ S]. eapply IH; exact S.
Qed.

Lemma ex_pfamilies_ok : Forall rf_ok ex_pfamilies /\ Forall rf_bits_ok ex_pfamilies /\ ~ misleading ex_pfamilies.
Proof.
  split; [|split].
  - repeat constructor; discriminate.
  - repeat (apply Forall_cons || apply Forall_nil); try exact I. reflexivity.
  - apply safe_not_misleading. cbn. auto.
Qed.

Lemma ex_pmisled_is : misleading ex_pmisled /\ Forall rf_ok ex_pmisled /\ Forall rf_bits_ok ex_pmisled.
Proof.
  split; [|split].
  - exists [], (pfam [] "errors" (Some (str "number of errors")) (Some KCounter) []), [],
      (pfam [] "open" None (Some KGauge) [([], MGauge 7)]), []. split; [reflexivity|].
    unfold documented, empty; cbn. repeat split; try discriminate; auto.
  - repeat constructor; discriminate.
  - repeat (apply Forall_cons || apply Forall_nil); exact I.
Qed.

(** The sample of [open] appears under the name and help of [errors]. *)
Lemma ex_pmisleading_output : forall bd,
  let (s, r) := proto_scrapes ex_ryu bd [ex_pmisleading] (proto_new (good_writer [])) in
  r = ROk /\ option_map (map (fun p => (pf_name p, pf_help p, pf_metrics p))) (read_stream (w_out (pe_writer s))) =
    Some [(Some (str "errors"), Some (str "number of errors"),
           [{| pm_labels := []; pm_gauge := Some (Some (f_of_Z 7)); pm_counter := None |}])].
Proof. intros []; vm_compute; auto. Qed.

Lemma proto_misattribution : exists g fs, group_families [] g fs /\ Forall rf_ok fs /\ Forall rf_bits_ok fs /\
  forall bd, exists s ps, proto_scrapes ex_ryu bd [g] (proto_new (good_writer [])) = (s, ROk) /\
    read_stream (w_out (pe_writer s)) = Some ps /\
    exists p m, In p ps /\ In m (pf_metrics p) /\
      forall f q, In f fs -> pf_name p = Some (full_name (rf_namespaces f) (rf_base f) []) ->
        In q (rf_samples f) -> ~ sample_shows ex_ryu (fun z x => x = f_of_Z z) q m.
Proof.
  exists ex_pmisleading, ex_pmisled. split; [exact ex_pmisleading_families|].
  split; [apply ex_pmisled_is|]. split; [apply ex_pmisled_is|]. intros bd.
  pose proof (ex_pmisleading_output bd) as H.
  destruct (proto_scrapes ex_ryu bd [ex_pmisleading] (proto_new (good_writer []))) as [s r]. destruct H as [-> H].
  destruct (read_stream (w_out (pe_writer s))) as [ps|] eqn:E; [|discriminate]. cbn [option_map] in H.
  exists s, ps. split; [reflexivity|]. split; [exact E|]. injection H as H.
  destruct ps as [|p ps]; [discriminate|]. destruct ps; [|discriminate]. cbn [map] in H. injection H as N HL M.
  exists p. eexists. split; [left; reflexivity|]. rewrite M. split; [left; reflexivity|].
  intros f q F NF Q. rewrite N in NF. destruct F as [<-|[<-|[]]].
  - destruct Q.
  - vm_compute in NF. discriminate.
Qed.

(** After a failed write the next family carries the samples of the previous one. *)
Lemma proto_failed_write : exists w,
  let (s1, r1) := proto_scrapes ex_ryu Release [ex_pcounter "first" 3] (proto_new w) in
  let (s2, r2) := proto_scrapes ex_ryu Release [ex_pcounter "second" 4] s1 in
  w_out w = [] /\ r1 = RErr /\ r2 = ROk /\ w_out (pe_writer s1) = [] /\
  exists p, read_stream (w_out (pe_writer s2)) = Some [p] /\ pf_name p = Some (str "second") /\
    pf_metrics p = [{| pm_labels := []; pm_gauge := None; pm_counter := Some (Some (f_of_Z 3)) |};
                    {| pm_labels := []; pm_gauge := None; pm_counter := Some (Some (f_of_Z 4)) |}].
Proof.
  exists (ex_failing [0%nat]). vm_compute. repeat split. eexists. repeat split.
Qed.

Lemma proto_lossy : f_of_Z (2 ^ 53) = f_of_Z (2 ^ 53 + 1) /\
  forall bd, w_out (pe_writer (fst (proto_scrapes ex_ryu bd [ex_pcounter "c" (2 ^ 53)] (proto_new (good_writer []))))) =
             w_out (pe_writer (fst (proto_scrapes ex_ryu bd [ex_pcounter "c" (2 ^ 53 + 1)] (proto_new (good_writer []))))).
Proof. split; [vm_compute; reflexivity|]. intros []; vm_compute; reflexivity. Qed.

Lemma ex_pgroup_output :
  let (s, r) := proto_scrapes ex_ryu Debug [ex_pgroup; ex_pgroup] (proto_new (good_writer [])) in
  r = ROk /\ option_map (map pf_name) (read_stream (w_out (pe_writer s))) =
    Some (map (fun n => Some (str n)) ["errors_total"; "http_open"; "load"; "errors_total"; "http_open"; "load"])%string.
Proof. vm_compute. auto. Qed.

Lemma ex_pfamilies_small : Forall (fun f => Forall (fun p => match snd p with
                                    | MCounter c => (c <= 2 ^ 53)%N
                                    | MGauge z => (- 2 ^ 53 <= z <= 2 ^ 53)%Z
                                    | _ => True
                                    end) (rf_samples f)) ex_pfamilies.
Proof.
  unfold ex_pfamilies, pfam. repeat (apply Forall_cons || apply Forall_nil); cbn [snd]; try exact I; lia.
Qed.

Lemma ex_doubles : double_is (-5) (f_of_Z (-5)) /\ ~ double_is (2 ^ 53 + 1) (f_of_Z (2 ^ 53 + 1)).
Proof.
  assert (E1 : f_decode (f_of_Z (-5)) = SpecFloat.S754_finite true 5629499534213120 (-50)) by (vm_compute; reflexivity).
  assert (E2 : f_decode (f_of_Z (2 ^ 53 + 1)) = SpecFloat.S754_finite false 4503599627370496 1) by (vm_compute; reflexivity).
  unfold double_is. rewrite E1, E2. split; [right; split; reflexivity|]. intros [[H _]|[_ H]]; [discriminate H|discriminate H].
Qed.
