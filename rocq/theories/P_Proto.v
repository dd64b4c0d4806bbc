(** Properties C44-C49: the protobuf format.  Lengths are in N; where the stream
    is decoded it is assumed shorter than 2^64 bytes. *)
From Coq Require Import String List NArith ZArith Bool.
From Verif Require Import Base Writer NameModel NameSpec LabelModel FloatModel EncoderModel TextModel TextSpec
  EncoderSpec EncoderProofs TextExamples ProtoModel ProtoSpec ProtoProofs ProtoTheorems ProtoErrors ProtoExamples
  ProtoExampleProofs.
Import ListNotations.
Local Open Scope N_scope.

(** C44: for every u64 the varint decodes back and has the computed length. *)
Theorem C44_varint_exact : forall v rest, v < 2 ^ 64 ->
  read_varint (encode_varint v ++ rest) = Some (v, rest) /\
  nlen (encode_varint v) = encoded_len_varint v /\ 1 <= encoded_len_varint v <= 10.
Proof. exact varint_exact. Qed.
Print Assumptions C44_varint_exact.

Example C44_nonvacuous : encode_varint 300 = [172; 2] /\ encoded_len_varint 300 = 2 /\
  encoded_len_varint (2 ^ 64 - 1) = 10.
Proof. vm_compute. auto. Qed.

(** C45: the labels of a sample take exactly the bytes computed beforehand, and
    no build panics. *)
Theorem C45_labels_length : forall ryu bd ls, exists b,
  proto_visit_values ryu bd ls = Done b /\ group_len ryu ls = nlen b.
Proof. exact labels_length. Qed.
Print Assumptions C45_labels_length.

(** The metric, its label pairs and its value announce the length of exactly
    what follows, and no build panics. *)
Theorem C45_metric_lengths : forall ryu bd tag ls x s, tag = 2 \/ tag = 3 -> x < 2 ^ 64 ->
  exists b, proto_put_metric ryu bd tag ls x s = put b (set_pstate PMetrics s) /\
    (nlen b < 2 ^ 64 ->
     exists inner pairs value, submessage b 4 inner /\
       inner = concat pairs ++ value /\
       Forall2 (fun l p => exists q, submessage p 1 q /\ exists a,
                  read_message label_pair_field empty_label_pair q = Some a /\ pair_shows ryu l a) ls pairs /\
       exists q, submessage value tag q /\ read_message value_field None q = Some (Some x)).
Proof. exact metric_lengths. Qed.
Print Assumptions C45_metric_lengths.

(** A family message is preceded by its length; the buffer is left with the ten
    bytes reserved for the next length. *)
Theorem C45_family_length : forall bd s head msg, pe_state s = PMetrics -> length head = 10%nat ->
  pe_buf s = head ++ msg -> reliable (pe_writer s) -> nlen msg < 2 ^ 64 ->
  exists s' len, flush_buf bd s = (s', ROk) /\ pe_state s' = PInit /\
    w_out (pe_writer s') = w_out (pe_writer s) ++ len ++ msg /\
    read_varint (len ++ msg) = Some (nlen msg, msg) /\ length (pe_buf s') = 10%nat.
Proof. exact flush_length. Qed.
Print Assumptions C45_family_length.

Example C45_nonvacuous : exists b,
  proto_visit_values ex_ryu Debug (ex_label "x") = Done b /\ nlen b = 24 /\
  let s := {| pe_state := PMetrics; pe_writer := good_writer []; pe_buf := header ++ b |} in
  w_out (pe_writer (fst (flush_buf Debug s))) = 24 :: b.
Proof. eexists. vm_compute. auto. Qed.

(** C46: any number of scrapes through one encoder decode to the families with
    samples, each with its own name, help, type, labels and values; integers as
    the double [as f64] gives (see C48). *)
Theorem C46_round_trip : forall ryu bd gs fss w, Forall2 (group_families []) gs fss ->
  Forall rf_ok (concat fss) -> Forall rf_bits_ok (concat fss) -> ~ misleading (concat fss) ->
  reliable w -> w_out w = [] ->
  exists s, proto_scrapes ryu bd gs (proto_new w) = (s, ROk) /\
    (nlen (w_out (pe_writer s)) < 2 ^ 64 ->
     exists ps, read_stream (w_out (pe_writer s)) = Some ps /\
       Forall2 (family_shows ryu (fun z x => x = f_of_Z z)) (with_samples (concat fss)) ps).
Proof. exact proto_round_trip. Qed.
Print Assumptions C46_round_trip.

(** Every group whose collection does not panic consists of families. *)
Theorem C46_families_exist : forall g l, group_events [] g l -> ~ In EvPanic l ->
  exists fs, group_families [] g fs.
Proof. exact families_total. Qed.
Print Assumptions C46_families_exist.

Example C46_nonvacuous : group_families [] ex_pgroup ex_pfamilies /\ Forall rf_ok ex_pfamilies /\
  Forall rf_bits_ok ex_pfamilies /\ ~ misleading ex_pfamilies /\
  let (s, r) := proto_scrapes ex_ryu Debug [ex_pgroup; ex_pgroup] (proto_new (good_writer [])) in
  r = ROk /\ option_map (map pf_name) (read_stream (w_out (pe_writer s))) =
    Some (map (fun n => Some (str n)) ["errors_total"; "http_open"; "load"; "errors_total"; "http_open"; "load"])%string.
Proof.
  split; [exact ex_pgroup_families|]. destruct ex_pfamilies_ok as (A & B & C).
  split; [exact A|]. split; [exact B|]. split; [exact C|]. exact ex_pgroup_output.
Qed.

(** C47 is false: a sample in a family none of whose own samples it is. *)
Theorem C47_misattribution_refuted : exists g fs,
  group_families [] g fs /\ Forall rf_ok fs /\ Forall rf_bits_ok fs /\
  forall bd, exists s ps, proto_scrapes ex_ryu bd [g] (proto_new (good_writer [])) = (s, ROk) /\
    read_stream (w_out (pe_writer s)) = Some ps /\
    exists p m, In p ps /\ In m (pf_metrics p) /\
      forall f q, In f fs -> pf_name p = Some (full_name (rf_namespaces f) (rf_base f) []) ->
        In q (rf_samples f) -> ~ sample_shows ex_ryu (fun z x => x = f_of_Z z) q m.
Proof. exact proto_misattribution. Qed.
Print Assumptions C47_misattribution_refuted.

(** It happens for every misleading sequence of families (and by C46 for no
    other): the samples of the undocumented family [b] come out as the samples
    of the documented empty family [a]. *)
Theorem C47_misleading : forall ryu bd g pre a mid b post w,
  group_families [] g (pre ++ a :: mid ++ b :: post) -> Forall rf_ok (pre ++ a :: mid ++ b :: post) ->
  Forall rf_bits_ok (pre ++ a :: mid ++ b :: post) ->
  documented a -> empty a -> Forall (fun f => ~ documented f /\ empty f) mid -> ~ documented b -> ~ empty b ->
  reliable w -> w_out w = [] ->
  exists s, proto_scrapes ryu bd [g] (proto_new w) = (s, ROk) /\
    (nlen (w_out (pe_writer s)) < 2 ^ 64 ->
     exists ps p, read_stream (w_out (pe_writer s)) = Some ps /\ In p ps /\
       pf_name p = Some (full_name (rf_namespaces a) (rf_base a) []) /\ pf_help p = rf_help a /\
       Forall2 (sample_shows ryu (fun z x => x = f_of_Z z)) (rf_samples b) (pf_metrics p)).
Proof. exact proto_misleading. Qed.
Print Assumptions C47_misleading.

Example C47_nonvacuous : group_families [] ex_pmisleading ex_pmisled /\
  misleading ex_pmisled /\ Forall rf_ok ex_pmisled /\ Forall rf_bits_ok ex_pmisled.
Proof. split; [exact ex_pmisleading_families|exact ex_pmisled_is]. Qed.

(** C48: a scrape of integers of magnitude at most 2^53 decodes to doubles equal
    to them; different doubles for different integers. *)
Theorem C48_exact : forall ryu bd gs fss w, Forall2 (group_families []) gs fss ->
  Forall rf_ok (concat fss) -> Forall rf_bits_ok (concat fss) -> ~ misleading (concat fss) ->
  Forall (fun f => Forall (fun p => match snd p with
                                    | MCounter c => (c <= 2 ^ 53)%N
                                    | MGauge z => (- 2 ^ 53 <= z <= 2 ^ 53)%Z
                                    | _ => True
                                    end) (rf_samples f)) (concat fss) ->
  reliable w -> w_out w = [] ->
  exists s, proto_scrapes ryu bd gs (proto_new w) = (s, ROk) /\
    (nlen (w_out (pe_writer s)) < 2 ^ 64 ->
     exists ps, read_stream (w_out (pe_writer s)) = Some ps /\
       Forall2 (family_shows ryu double_is) (with_samples (concat fss)) ps).
Proof. exact round_trip_exact. Qed.
Print Assumptions C48_exact.

Theorem C48_double_determines : forall x y b, double_is x b -> double_is y b -> x = y.
Proof. exact double_is_inj. Qed.
Print Assumptions C48_double_determines.

(** Above 2^53 different counters give the same bytes. *)
Theorem C48_lossy : f_of_Z (2 ^ 53) = f_of_Z (2 ^ 53 + 1) /\
  forall bd, w_out (pe_writer (fst (proto_scrapes ex_ryu bd [ex_pcounter "c" (2 ^ 53)] (proto_new (good_writer []))))) =
             w_out (pe_writer (fst (proto_scrapes ex_ryu bd [ex_pcounter "c" (2 ^ 53 + 1)] (proto_new (good_writer []))))).
Proof. exact proto_lossy. Qed.
Print Assumptions C48_lossy.

Example C48_nonvacuous :
  Forall (fun f => Forall (fun p => match snd p with
                                    | MCounter c => (c <= 2 ^ 53)%N
                                    | MGauge z => (- 2 ^ 53 <= z <= 2 ^ 53)%Z
                                    | _ => True
                                    end) (rf_samples f)) ex_pfamilies /\
  double_is (-5) (f_of_Z (-5)) /\ ~ double_is (2 ^ 53 + 1) (f_of_Z (2 ^ 53 + 1)).
Proof.
  split; [exact ex_pfamilies_small|exact ex_doubles].
Qed.

(** C49 is false: after a write error the samples of the first family appear in
    the message of the second. *)
Theorem C49_failed_write_refuted : exists w,
  let (s1, r1) := proto_scrapes ex_ryu Release [ex_pcounter "first" 3] (proto_new w) in
  let (s2, r2) := proto_scrapes ex_ryu Release [ex_pcounter "second" 4] s1 in
  w_out w = [] /\ r1 = RErr /\ r2 = ROk /\ w_out (pe_writer s1) = [] /\
  exists p, read_stream (w_out (pe_writer s2)) = Some [p] /\ pf_name p = Some (str "second") /\
    pf_metrics p = [{| pm_labels := []; pm_gauge := None; pm_counter := Some (Some (f_of_Z 3)) |};
                    {| pm_labels := []; pm_gauge := None; pm_counter := Some (Some (f_of_Z 4)) |}].
Proof. exact proto_failed_write. Qed.
Print Assumptions C49_failed_write_refuted.

(** What holds: every write error is reported, and until then the writer has
    received a prefix of the bytes a working one receives. *)
Theorem C49_until_error : forall ryu bd gs w s r, w_out w = [] ->
  proto_scrapes ryu bd gs (proto_new w) = (s, r) ->
  let good := proto_scrapes ryu bd gs (proto_new (good_writer [])) in
  (exists rest, w_out (pe_writer (fst good)) = w_out (pe_writer s) ++ rest) /\
  (r <> RErr -> snd good = r /\ w_out (pe_writer s) = w_out (pe_writer (fst good))).
Proof. exact proto_failing_writer. Qed.
Print Assumptions C49_until_error.

Example C49_nonvacuous :
  let (s, r) := proto_scrapes ex_ryu Debug [ex_pgroup] (proto_new (ex_broken 1)) in
  r = RErr /\ nlen (w_out (pe_writer s)) = 102.
Proof. vm_compute. auto. Qed.
