(** C50 to C52 and C56: the families of the bundled collectors. *)
From Coq Require Import FinFun String List NArith ZArith Bool Lia ZifyBool ZifyN ZifyNat.
From Verif Require Import Base BaseFacts Writer NameModel NameSpec NameProofs LabelModel FloatModel FloatFacts EncoderModel
  TextModel TextSpec EncoderSpec EncoderProofs TextProofs TextParseProofs ProtoModel ProtoSpec ProtoProofs ProtoSim ProtoTheorems
  MetricModel CollectorModel CollectorSpec CollectorProofs CollectorTheorems CollectorFormats.
Import ListNotations.
Local Open Scope N_scope.

(** ** The families are well-formed *)

Definition plainb (h : bytes) : bool := forallb (fun b => negb (b =? 10) && negb (b =? 92)) h.
Lemma plainb_spec : forall h, plainb h = true -> plain_help h.
Proof.
  intros h H. unfold plainb in H. rewrite forallb_forall in H.
  split; intros I; specialize (H _ I); discriminate.
Qed.

Lemma label_valid : forall s, valid_label_nameb (str s) = true -> valid_label_name (str s).
Proof. intros s. apply valid_label_nameb_spec. Qed.

Lemma runtime_labels_valid : forall c, labels_valid (runtime_labels c).
Proof. intros c. unfold runtime_labels. destruct (rc_name c); repeat constructor. apply label_valid. reflexivity. Qed.
Lemma worker_of_valid : forall c w, labels_valid (worker_of c w).
Proof.
  intros c w. apply Forall_app. split; [apply (runtime_labels_valid c)|].
  constructor; [apply label_valid; reflexivity|constructor].
Qed.
Lemma labels_app_valid : forall a b, labels_valid a -> labels_valid b -> labels_valid (a ++ b).
Proof. intros. apply Forall_app; auto. Qed.
Lemma one_label_valid : forall s v, valid_label_nameb (str s) = true -> labels_valid [(str s, v)].
Proof. intros. constructor; [apply label_valid; assumption|constructor]. Qed.
Lemma thread_label_valid : forall heck s, labels_valid (thread_label heck s).
Proof. intros. unfold thread_label. destruct (enum_visit _ _ _); [|constructor]. apply one_label_valid. reflexivity. Qed.

Lemma bound_exact : forall rt k le, bucket_bound rt k le <-> le = histogram_le rt k.
Proof.
  intros rt k le. unfold histogram_le. assert (E : forall d, duration_eqb d duration_max_nanos = true <-> d = {| d_secs := 18446744073; d_nanos := 709551615 |}).
  { intros [s n]. unfold duration_eqb. rewrite andb_true_iff, !N.eqb_eq. change (d_secs duration_max_nanos) with 18446744073.
    change (d_nanos duration_max_nanos) with 709551615. cbn [d_secs d_nanos]. split; [intros [-> ->]; reflexivity|]. now inversion 1. }
  specialize (E (rt_bucket_end rt k)). destruct (duration_eqb (rt_bucket_end rt k) duration_max_nanos).
  - pose proof (proj1 E eq_refl) as D. split; [intros [H|H]; [reflexivity|contradiction]|]. intros ->. now constructor.
  - assert (D : rt_bucket_end rt k <> {| d_secs := 18446744073; d_nanos := 709551615 |}) by (intros X; apply E in X; discriminate).
    split; [intros [H|H]; [contradiction|reflexivity]|]. intros ->. now constructor.
Qed.

Lemma secs_bits : forall d, as_secs_f64 d < 2 ^ 64.
Proof. intros. apply f_add_bound. Qed.

Lemma tfam_ok : forall rts name help g, valid_metric_nameb (str name) = true -> plainb (str help) = true ->
  (forall c, In c rts -> Forall (fun s => labels_valid (sm_labels s) /\ value_ok (sm_metric s)) (g c)) -> cfamily_ok (tfam rts name help g).
Proof.
  intros rts name help g V P H. split; [apply valid_metric_nameb_spec, V|]. split; [apply plainb_spec, P|].
  cbn [tfam cf_samples]. apply Forall_forall. intros s I. apply in_flat_map in I. destruct I as (c & C & I).
  specialize (H c C). rewrite Forall_forall in H. apply H, I.
Qed.

Lemma gz_ok : forall x, x < 2 ^ 63 -> value_ok (gz x).
Proof. intros x H. cbn [gz value_ok]. change (2 ^ 63)%Z with (Z.of_N (2 ^ 63)). lia. Qed.

Lemma tokio_ok : forall heck net rts, Forall (fun c => runtime_ok (rc_runtime c)) rts -> Forall cfamily_ok (tokio_families heck net rts).
Proof.
  intros heck net rts F. rewrite Forall_forall in F.
  assert (PW : forall name help f, valid_metric_nameb (str name) = true -> plainb (str help) = true ->
    (forall c w, In c rts -> w < rt_num_workers (rc_runtime c) -> value_ok (f (rc_runtime c) w)) ->
    cfamily_ok (tfam rts name help (per_worker f))).
  { intros name help f V P H. apply tfam_ok; auto. intros c I. unfold per_worker. apply Forall_forall. intros s J.
    apply in_map_iff in J. destruct J as (w & <- & J). apply in_range in J. split; [apply worker_of_valid|apply H; assumption]. }
  assert (PR : forall name help f, valid_metric_nameb (str name) = true -> plainb (str help) = true ->
    (forall c, In c rts -> value_ok (f (rc_runtime c))) -> cfamily_ok (tfam rts name help (per_runtime f))).
  { intros name help f V P H. apply tfam_ok; auto. intros c I. constructor; [|constructor].
    split; [apply runtime_labels_valid|apply H; assumption]. }
  assert (L : forall c, In c rts -> runtime_ok (rc_runtime c)) by auto.
  unfold tokio_families, before_polls. apply Forall_app. split; [|constructor].
  - constructor; [|constructor; [|constructor; [|constructor; [|constructor; [|constructor; [|constructor; [|constructor; [|constructor; [|constructor; [|constructor]]]]]]]]]].
    + apply tfam_ok; try reflexivity. intros c I. destruct (L c I) as (H1 & H2 & H3 & _).
      repeat constructor; try (apply labels_app_valid; [apply runtime_labels_valid|apply thread_label_valid]);
        cbn [one sm_metric]; apply gz_ok; lia.
    + apply PR; try reflexivity. intros c I. apply gz_ok, (L c I).
    + apply tfam_ok; try reflexivity. intros c I. destruct (L c I) as (H1 & H2 & H3 & H4 & H5 & H6 & _ & _ & _ & _ & _ & HW).
      apply Forall_app. split.
      * repeat constructor; try (apply labels_app_valid; [apply runtime_labels_valid|apply one_label_valid; reflexivity]);
          apply gz_ok; assumption.
      * apply Forall_forall. intros s J. apply in_map_iff in J. destruct J as (w & <- & J). apply in_range in J.
        split; [apply labels_app_valid; [apply runtime_labels_valid|apply one_label_valid; reflexivity]|].
        apply gz_ok, (HW w J).
    + apply tfam_ok; try reflexivity. intros c I. destruct (L c I) as (H1 & H2 & H3 & H4 & H5 & H6 & H7 & _ & _ & _ & _ & HW).
      apply Forall_app. split.
      * apply Forall_forall. intros s J. apply in_flat_map in J. destruct J as (w & W & J). apply in_range in W.
        destruct (HW w W) as (_ & A & B & _).
        destruct J as [<-|[<-|[]]]; (split; [apply labels_app_valid; [apply worker_of_valid|apply one_label_valid; reflexivity]|]); assumption.
      * constructor; [|constructor]. split; [|exact H7].
        apply labels_app_valid; [apply runtime_labels_valid|]. apply labels_app_valid; apply one_label_valid; reflexivity.
    + apply PR; try reflexivity. intros c I. apply (L c I).
    + apply PW; try reflexivity. intros c w I W. apply secs_bits.
    + apply PW; try reflexivity. intros c w I W. apply (L c I), W.
    + apply PW; try reflexivity. intros c w I W. apply (L c I), W.
    + apply PW; try reflexivity. intros c w I W. apply (L c I), W.
    + apply PW; try reflexivity. intros c w I W. apply (L c I), W.
  - apply tfam_ok; try reflexivity. intros c I. destruct (L c I) as (_ & _ & _ & _ & _ & _ & _ & _ & _ & _ & _ & HW).
    apply Forall_forall. intros s J. apply in_flat_map in J. destruct J as (w & W & J). apply in_range in W.
    destruct (HW w W) as (_ & _ & _ & _ & _ & _ & _ & PC & PB).
    apply in_app_iff in J. destruct J as [J|J].
    + destruct (rt_histogram_enabled (rc_runtime c)); [|destruct J]. unfold bucket_samples in J. apply in_map_iff in J.
      destruct J as (j & <- & J). apply in_seq in J. split; [apply labels_app_valid; [apply worker_of_valid|apply one_label_valid; reflexivity]|].
      cbn [one sm_metric value_ok]. eapply N.le_lt_trans; [apply polls_mono|exact PB]. lia.
    + destruct J as [<-|[<-|[]]]; (split; [apply worker_of_valid|]); [exact PC|apply secs_bits].
  - unfold after_polls. destruct net; [|constructor].
    constructor; [|constructor; [|constructor; [|constructor]]]; apply PR; try reflexivity; intros c I; apply (L c I).
Qed.

Lemma fig_ok : forall name help v, valid_metric_nameb (str name) = true -> plainb (str help) = true ->
  (- 2 ^ 63 <= v < 2 ^ 63)%Z -> cfamily_ok (fig name help v).
Proof.
  intros name help v V P H. split; [apply valid_metric_nameb_spec, V|]. split; [apply plainb_spec, P|].
  constructor; [|constructor]. split; [constructor|exact H].
Qed.

Lemma process_ok : forall o c, os_ok o -> (forall v, pc_start_time c = Some v -> (- 2 ^ 63 <= v < 2 ^ 63)%Z) ->
  Forall cfamily_ok (process_families o c).
Proof.
  intros o c (CK & PG & OK) ST. unfold process_families. destruct (os_process o (pc_pid c)) as [p|] eqn:P; cbn [onto]; [|constructor].
  destruct (OK _ _ P) as (FD & LI & SS).
  assert (SM : forall x, small x -> (- 2 ^ 63 <= x < 2 ^ 63)%Z) by (intros x [A B]; lia).
  apply Forall_app. split; [|apply Forall_app; split; [|apply Forall_app; split]].
  - destruct (p_fd_count p) as [n|]; cbn [onto]; [|constructor]. constructor; [|constructor]. apply fig_ok; try reflexivity. apply SM, FD. reflexivity.
  - destruct (p_soft_limit p) as [[|n]|]; try constructor; [|constructor]. apply fig_ok; try reflexivity. apply SM, LI. reflexivity.
  - destruct (p_stat p) as [st|]; cbn [onto]; [|constructor]. destruct (SS st eq_refl) as (V & R & U & T & _).
    constructor; [|constructor; [|constructor; [|constructor; [|constructor]]]]; apply fig_ok; try reflexivity; apply SM; try assumption.
    destruct U as [U0 U1]. split; [apply Z.div_pos; lia|]. eapply Z.le_lt_trans; [|exact U1]. apply Z.div_le_upper_bound; nia.
  - destruct (pc_start_time c) as [v|]; cbn [onto]; [|constructor]. constructor; [|constructor]. apply fig_ok; try reflexivity. auto.
Qed.

(** ** Families have different names *)

Fixpoint nodupb (l : list bytes) : bool :=
  match l with [] => true | x :: r => negb (existsb (beqb x) r) && nodupb r end.
Lemma nodupb_spec : forall l, nodupb l = true -> NoDup l.
Proof.
  induction l as [|x l IH]; intros H; constructor; cbn [nodupb] in H; apply andb_prop in H; destruct H as [A B]; [|auto].
  intros I. apply negb_true_iff in A. assert (existsb (beqb x) l = true); [|congruence].
  apply existsb_exists. exists x. split; [exact I|]. apply beqb_spec. reflexivity.
Qed.

Lemma tokio_names : forall heck net rts, NoDup (map cf_name (tokio_families heck net rts)).
Proof. intros heck [] rts; apply nodupb_spec; vm_compute; reflexivity. Qed.

Lemma process_names : forall o c, NoDup (map cf_name (process_families o c)).
Proof.
  intros o c. unfold process_families. destruct (os_process o (pc_pid c)) as [[fd [[|li]|] [st|]]|]; cbn [onto p_fd_count p_soft_limit p_stat];
    try constructor; destruct fd, (pc_start_time c); apply nodupb_spec; vm_compute; reflexivity.
Qed.

(** ** Bucket series *)

Section Selects.
  Context {A B : Type} (R : A -> B -> Prop).
  Lemma selects_app : forall a b x y, selects R a x -> selects R b y -> selects R (a ++ b) (x ++ y).
  Proof. intros a b x y H Y. induction H; cbn [app]; [exact Y|apply Sel_take; auto|apply Sel_skip; auto]. Qed.
  Lemma selects_none : forall l, (forall a b, In a l -> ~ R a b) -> selects R l [].
  Proof.
    induction l as [|a l IH]; intros H; [constructor|]. apply Sel_skip; [intros b; apply H; left; reflexivity|].
    apply IH. intros a' b I. apply H. right. exact I.
  Qed.
  Lemma selects_map : forall C (f : C -> A) (g : C -> B) l, (forall c, In c l -> R (f c) (g c)) -> selects R (map f l) (map g l).
  Proof.
    induction l as [|c l IH]; intros H; cbn [map]; [constructor|]. apply Sel_take; [apply H; left; reflexivity|].
    apply IH. intros c' I. apply H. right. exact I.
  Qed.
End Selects.

Lemma worker_of_inj : forall c w c' w', worker_of c w = worker_of c' w' -> rc_name c = rc_name c' /\ w = w'.
Proof.
  intros c w c' w' H. unfold worker_of in H. destruct (rc_name c), (rc_name c'); cbn [app] in H; inversion H; try (split; [reflexivity|]); try (split; [congruence|]); lia.
Qed.

Definition bucket_list (c : runtime_collector) (w : N) : list (f64 * N) :=
  if rt_histogram_enabled (rc_runtime c)
  then map (fun j => (histogram_le (rc_runtime c) (N.of_nat j), polls (rc_runtime c) w (S j))) (seq 0 (N.to_nat (rt_num_buckets (rc_runtime c))))
  else [].

Lemma bucket_of : forall c w le v f c' w' s, is_bucket c w le v (f, s) -> In s (poll_samples c' w') -> rc_name c = rc_name c' /\ w = w'.
Proof.
  intros c w le v f c' w' s [_ E] I. cbn [snd] in E. unfold poll_samples in I. apply in_app_iff in I.
  assert (T : forall a b x y, a ++ [x] = b ++ [y] -> (a : labels) = b) by (intros a b x y H; apply app_inj_tail in H; apply H).
  destruct I as [I|[I|[I|[]]]]; [|subst s; discriminate|subst s; discriminate].
  destruct (rt_histogram_enabled (rc_runtime c')); [|destruct I]. unfold bucket_samples in I. apply in_map_iff in I.
  destruct I as (j & <- & _). inversion E. apply T in H0. destruct (worker_of_inj _ _ _ _ (eq_sym H0)) as [N W]. split; congruence.
Qed.

Lemma range_split : forall n w, w < n -> exists a b, range n = a ++ w :: b /\ ~ In w a /\ ~ In w b.
Proof.
  intros n w L. assert (I : In w (range n)) by (apply in_range, L). apply in_split in I. destruct I as (a & b & E).
  exists a, b. split; [exact E|].
  assert (ND : NoDup (range n)).
  { unfold range. apply FinFun.Injective_map_NoDup; [intros x y H; lia|apply seq_NoDup]. }
  rewrite E in ND. apply NoDup_remove_2 in ND. rewrite in_app_iff in ND. tauto.
Qed.

Lemma series_exists : forall heck net rts c w, NoDup (map rc_name rts) -> In c rts -> w < rt_num_workers (rc_runtime c) ->
  bucket_series c w (tokio_families heck net rts) (bucket_list c w).
Proof.
  intros heck net rts c w ND I W. unfold bucket_series, all_samples, tokio_families.
  rewrite !flat_map_app.
  assert (OTHER : forall fs, Forall (fun f => cf_name f <> poll_family) fs ->
    selects (fun p b => is_bucket c w (fst b) (snd b) p) (flat_map (fun f => map (pair f) (cf_samples f)) fs) []).
  { intros fs F. apply selects_none. intros [f s] b J [E _]. apply in_flat_map in J. destruct J as (f' & F' & J).
    apply in_map_iff in J. destruct J as (s' & X & _). inversion X; subst. rewrite Forall_forall in F. exact (F _ F' E). }
  rewrite <- (app_nil_r (bucket_list c w)). change (bucket_list c w ++ []) with ([] ++ (bucket_list c w ++ [])).
  apply selects_app; [apply OTHER|].
  { unfold before_polls. repeat (constructor; [cbn [tfam cf_name]; intros X; vm_compute in X; discriminate|]). constructor. }
  apply selects_app.
  2:{ apply OTHER. unfold after_polls. destruct net; repeat (constructor; [cbn [tfam cf_name]; intros X; vm_compute in X; discriminate|]); constructor. }
  cbn [flat_map]. rewrite app_nil_r. cbn [poll_fam tfam cf_samples].
  apply in_split in I. destruct I as (r1 & r2 & ->). rewrite map_app in ND. cbn [map] in ND. apply NoDup_remove_2 in ND.
  rewrite in_app_iff in ND. rewrite flat_map_app. cbn [flat_map]. rewrite !map_app.
  assert (PN : cf_name (poll_fam (r1 ++ c :: r2)) = poll_family) by reflexivity.
  change (tfam (r1 ++ c :: r2) "worker_poll_time_seconds" "time this runtime thread has spent polling tasks" all_polls) with (poll_fam (r1 ++ c :: r2)).
  set (pf0 := poll_fam (r1 ++ c :: r2)) in *. clearbody pf0.
  assert (RT : forall r, ~ In (rc_name c) (map rc_name r) ->
    selects (fun p b => is_bucket c w (fst b) (snd b) p) (map (pair pf0) (flat_map all_polls r)) []).
  { intros r N. apply selects_none. intros [f s] b J IB. apply in_map_iff in J. destruct J as (s' & X & J). inversion X; subst.
    apply in_flat_map in J. destruct J as (c' & C' & J). apply in_flat_map in J. destruct J as (w' & _ & J).
    apply (bucket_of _ _ _ _ _ _ _ _ IB) in J. apply N. destruct J as [-> _]. apply in_map. exact C'. }
  change (bucket_list c w) with ([] ++ bucket_list c w). apply selects_app; [apply RT; tauto|].
  rewrite <- (app_nil_r (bucket_list c w)). apply selects_app; [|apply RT; tauto].
  unfold all_polls. destruct (range_split _ _ W) as (a & b & -> & NA & NB). rewrite flat_map_app. cbn [flat_map]. rewrite !map_app.
  assert (WK : forall l, ~ In w l -> selects (fun p b => is_bucket c w (fst b) (snd b) p) (map (pair pf0) (flat_map (poll_samples c) l)) []).
  { intros l N. apply selects_none. intros [f s] b0 J IB. apply in_map_iff in J. destruct J as (s' & X & J). inversion X; subst.
    apply in_flat_map in J. destruct J as (w' & W' & J). apply (bucket_of _ _ _ _ _ _ _ _ IB) in J. destruct J as [_ ->]. exact (N W'). }
  change (bucket_list c w) with ([] ++ bucket_list c w). apply selects_app; [apply WK, NA|].
  rewrite <- (app_nil_r (bucket_list c w)). apply selects_app; [|apply WK, NB].
  unfold poll_samples, bucket_list. rewrite map_app. match goal with |- selects _ _ ?m => rewrite <- (app_nil_r m) end. apply selects_app.
  - destruct (rt_histogram_enabled (rc_runtime c)); [|constructor]. unfold bucket_samples. rewrite map_map. apply selects_map.
    intros j _. split; [exact PN|reflexivity].
  - apply selects_none. intros [f s] b0 [J|[J|[]]] [_ X]; inversion J; subst; discriminate.
Qed.

Lemma bucket_list_nth : forall c w k le v, nth_error (bucket_list c w) k = Some (le, v) ->
  le = histogram_le (rc_runtime c) (N.of_nat k) /\ v = polls (rc_runtime c) w (S k) /\ (k < N.to_nat (rt_num_buckets (rc_runtime c)))%nat.
Proof.
  intros c w k le v H. unfold bucket_list in H. destruct (rt_histogram_enabled (rc_runtime c)); [|destruct k; discriminate].
  assert (L : (k < N.to_nat (rt_num_buckets (rc_runtime c)))%nat).
  { assert (X : nth_error (map (fun j => (histogram_le (rc_runtime c) (N.of_nat j), polls (rc_runtime c) w (S j)))
      (seq 0 (N.to_nat (rt_num_buckets (rc_runtime c))))) k <> None) by congruence.
    apply nth_error_Some in X. rewrite map_length, seq_length in X. exact X. }
  rewrite nth_error_map in H. rewrite (nth_error_nth' _ 0%nat) in H by (rewrite seq_length; exact L).
  rewrite seq_nth in H by exact L. cbn [option_map plus] in H. inversion H; subst. auto.
Qed.

Lemma bucket_list_length : forall c w, length (bucket_list c w) =
  if rt_histogram_enabled (rc_runtime c) then N.to_nat (rt_num_buckets (rc_runtime c)) else O.
Proof. intros. unfold bucket_list. destruct (rt_histogram_enabled _); [|reflexivity]. rewrite map_length, seq_length. reflexivity. Qed.

(** ** Series differ *)

Lemma full_name_head : forall nss b ws b' ws', full_name nss b ws = full_name nss b' ws' -> full_name [] b ws = full_name [] b' ws'.
Proof.
  induction nss as [|ns nss IH]; intros b ws b' ws' H; [exact H|]. apply IH. unfold full_name in *. cbn [app] in H.
  assert (C : forall b ws, exists x r, nss ++ b :: ws = x :: r) by (intros b0 ws0; destruct nss; cbn [app]; eauto).
  destruct (C b ws) as (x & r & E), (C b' ws') as (x' & r' & E'). cbn [app]. rewrite E, E' in *.
  cbn [join_underscore] in H. apply app_inv_head in H. apply app_inv_head in H. exact H.
Qed.

Section OrdPairs.
  Context {A : Type} (R : A -> A -> Prop).
  Lemma op_app : forall l m, ForallOrdPairs R l -> ForallOrdPairs R m -> (forall a b, In a l -> In b m -> R a b) -> ForallOrdPairs R (l ++ m).
  Proof.
    induction 1 as [|a l F _ IH]; intros M C; cbn [app]; [exact M|]. constructor.
    - apply Forall_app. split; [exact F|]. apply Forall_forall. intros b B. apply C; [left; reflexivity|exact B].
    - apply IH; [exact M|]. intros a' b I B. apply C; [right; exact I|exact B].
  Qed.
  Lemma op_flat : forall B (g : B -> list A) l, (forall x, In x l -> ForallOrdPairs R (g x)) ->
    ForallOrdPairs (fun x y => forall a b, In a (g x) -> In b (g y) -> R a b) l -> ForallOrdPairs R (flat_map g l).
  Proof.
    intros B g l H P. induction P as [|x l F _ IH]; cbn [flat_map]; [constructor|]. apply op_app.
    - apply H. left. reflexivity.
    - apply IH. intros y Y. apply H. right. exact Y.
    - intros a b IA IB. apply in_flat_map in IB. destruct IB as (y & Y & IB). rewrite Forall_forall in F. exact (F y Y a b IA IB).
  Qed.
  Lemma op_map : forall B (f : B -> A) l, ForallOrdPairs (fun x y => R (f x) (f y)) l -> ForallOrdPairs R (map f l).
  Proof.
    intros B f l P. induction P as [|x l F _ IH]; cbn [map]; constructor; [|exact IH].
    apply Forall_forall. intros y Y. apply in_map_iff in Y. destruct Y as (z & <- & Z). rewrite Forall_forall in F. apply F, Z.
  Qed.
  Lemma op_impl : forall (Q : A -> A -> Prop) l, (forall a b, In a l -> In b l -> Q a b -> R a b) -> ForallOrdPairs Q l -> ForallOrdPairs R l.
  Proof.
    intros Q l H P. induction P as [|x l F _ IH]; constructor.
    - apply Forall_forall. intros y Y. rewrite Forall_forall in F. apply H; [left; reflexivity|right; exact Y|apply F, Y].
    - apply IH. intros a b IA IB. apply H; right; assumption.
  Qed.
End OrdPairs.

Lemma op_nodup : forall A (l : list A), NoDup l -> ForallOrdPairs (fun a b => a <> b) l.
Proof.
  intros A l H. induction H as [|x l N _ IH]; constructor; [|exact IH]. apply Forall_forall. intros y Y E. subst. exact (N Y).
Qed.

Lemma op_seq : forall n k, ForallOrdPairs (fun a b => (k <= a < b)%nat /\ (b < k + n)%nat) (seq k n).
Proof.
  induction n as [|n IH]; intros k; cbn [seq]; constructor.
  - apply Forall_forall. intros y Y. apply in_seq in Y. lia.
  - eapply op_impl; [|apply (IH (S k))]. intros a b _ _ H. cbv beta in *. lia.
Qed.
Lemma op_range : forall n, ForallOrdPairs (fun a b : N => a <> b) (range n).
Proof. intros n. unfold range. apply op_map. eapply op_impl; [|apply op_seq]. cbv beta. intros. lia. Qed.

Lemma suffix_eq : forall a b : option suffix, {a = b} + {a <> b}.
Proof. intros. decide equality. decide equality. Qed.

Section Series.
  Variables (ryu : f64 -> bytes) (nss : list bytes).

  Definition both (a b : labels) : Prop := exists ts, labels_show ryu a ts /\ labels_show ryu b ts.

  Lemma both_tail : forall p a b, both (p ++ a) (p ++ b) -> both a b.
  Proof.
    induction p as [|x p IH]; intros a b H; [exact H|]. destruct H as (ts & A & B). inversion A; subst. inversion B; subst.
    apply IH. eexists. split; eassumption.
  Qed.
  Lemma both_head : forall x y a b, both (x :: a) (y :: b) -> fst x = fst y /\ exists t, label_shows ryu (snd x) t /\ label_shows ryu (snd y) t.
  Proof.
    intros x y a b (ts & A & B). inversion A; subst. inversion B; subst. destruct H1, H4. split; [congruence|]. eauto.
  Qed.

  (** The labels of a runtime: its name first, and only there. *)
  Definition owned (c : runtime_collector) (ls : labels) : Prop :=
    exists rest, ls = runtime_labels c ++ rest /\ Forall (fun l => fst l <> str "runtime") rest.
  Lemma owned_same : forall c c' a b, owned c a -> owned c' b -> both a b -> rc_name c = rc_name c'.
  Proof.
    intros c c' a b (ra & -> & FA) (rb & -> & FB) H. unfold runtime_labels in H.
    destruct (rc_name c) as [n|], (rc_name c') as [n'|]; cbn [app] in H.
    - apply both_head in H. destruct H as [_ (t & T & T')]. cbn in T, T'. congruence.
    - destruct rb as [|l rb]; [destruct H as (ts & A & B); inversion B; subst; inversion A|].
      apply both_head in H. destruct H as [E _]. inversion FB; subst. cbn in E. symmetry in E. contradiction.
    - destruct ra as [|l ra]; [destruct H as (ts & A & B); inversion A; subst; inversion B|].
      apply both_head in H. destruct H as [E _]. inversion FA; subst. cbn in E. contradiction.
    - reflexivity.
  Qed.

  Lemma worker_owned : forall c w r, Forall (fun l => fst l <> str "runtime") r -> owned c (worker_of c w ++ r).
  Proof.
    intros c w r F. exists ((str "worker", LInt (Z.of_N w)) :: r). split; [unfold worker_of; rewrite <- app_assoc; reflexivity|].
    constructor; [cbn; discriminate|exact F].
  Qed.
  Lemma worker_same : forall c w w' a b, both (worker_of c w ++ a) (worker_of c w' ++ b) -> w = w'.
  Proof.
    intros c w w' a b H. unfold worker_of in H. rewrite <- !app_assoc in H. apply both_tail in H. apply both_head in H.
    destruct H as [_ (t & T & T')]. cbn in T, T'. rewrite T in T'. inversion T'. lia.
  Qed.
  Lemma worker_same0 : forall c w w', both (worker_of c w) (worker_of c w') -> w = w'.
  Proof. intros c w w' H. apply (worker_same c w w' [] []). rewrite !app_nil_r. exact H. Qed.

  (** Samples of the same family differ in suffix or labels. *)
  Definition apart (a b : csample) : Prop := sm_suffix a = sm_suffix b -> ~ both (sm_labels a) (sm_labels b).

  Lemma per_runtime_own : forall f c s, In s (per_runtime f c) -> owned c (sm_labels s).
  Proof. intros f c s [<-|[]]. exists []. split; [symmetry; apply app_nil_r|constructor]. Qed.
  Lemma per_worker_own : forall f c s, In s (per_worker f c) -> owned c (sm_labels s).
  Proof.
    intros f c s I. apply in_map_iff in I. destruct I as (w & <- & _). cbn [one sm_labels].
    rewrite <- (app_nil_r (worker_of c w)). apply worker_owned. constructor.
  Qed.
  Lemma per_worker_apart : forall f c, ForallOrdPairs apart (per_worker f c).
  Proof.
    intros f c. unfold per_worker. apply op_map. eapply op_impl; [|apply op_range].
    intros w w' _ _ D _ H. apply D. exact (worker_same0 _ _ _ H).
  Qed.
  Lemma per_runtime_apart : forall f c, ForallOrdPairs apart (per_runtime f c).
  Proof. intros. repeat constructor. Qed.

  Lemma kind_owned : forall c v, owned c (runtime_labels c ++ [(str "kind", v)]).
  Proof. intros. eexists. split; [reflexivity|]. constructor; [cbn; discriminate|constructor]. Qed.

  Lemma kind_apart : forall c t t' x y, t <> t' ->
    apart (one None (runtime_labels c ++ [(str "kind", LStr t)]) x) (one None (runtime_labels c ++ [(str "kind", LStr t')]) y).
  Proof.
    intros c t t' x y D _ H. cbn [one sm_labels] in H. apply both_tail, both_head in H. destruct H as [_ (u & U & U')].
    cbn in U, U'. congruence.
  Qed.

  Section Threads.
    Variable heck : rename_all -> bytes -> bytes.
    Definition kind_text (s : string) : bytes := heck default_rename_all (str s).
    Lemma thread_samples_eq : forall c, thread_samples heck c =
      let rt := rc_runtime c in
      [one None (runtime_labels c ++ [(str "kind", LStr (kind_text "Worker"))]) (gz (rt_num_workers rt));
       one None (runtime_labels c ++ [(str "kind", LStr (kind_text "Blocking"))]) (gz (rt_num_blocking_threads rt - rt_num_idle_blocking_threads rt));
       one None (runtime_labels c ++ [(str "kind", LStr (kind_text "Idle"))]) (gz (rt_num_idle_blocking_threads rt))].
    Proof. intros c. reflexivity. Qed.
    Lemma thread_own : forall c s, In s (thread_samples heck c) -> owned c (sm_labels s).
    Proof. intros c s I. rewrite thread_samples_eq in I. destruct I as [<-|[<-|[<-|[]]]]; apply kind_owned. Qed.
    Lemma thread_apart : forall c, kinds_differ heck -> ForallOrdPairs apart (thread_samples heck c).
    Proof.
      intros c K. rewrite thread_samples_eq. cbv zeta. unfold kinds_differ in K. cbn [map] in K. fold (kind_text "Worker") (kind_text "Idle") (kind_text "Blocking") in K.
      inversion K as [|? ? N1 K2]; subst. inversion K2 as [|? ? N2 K3]; subst. cbn [In] in N1, N2.
      repeat constructor; apply kind_apart; intros E; [apply N1; right; left; congruence|apply N1; left; congruence|apply N2; left; congruence].
    Qed.
  End Threads.

  Lemma itoa_nat_not : forall w c r, 57 < c -> itoa_nat w <> c :: r.
  Proof. intros w c r L E. destruct (itoa_nat_cons w) as (b & t & X & B). rewrite E in X. inversion X. lia. Qed.
  Lemma itoa_nat_inj : forall a b, itoa_nat a = itoa_nat b -> a = b.
  Proof. intros a b E. pose proof (itoa_nat_read a) as A. rewrite E, itoa_nat_read in A. congruence. Qed.

  Lemma queue_own : forall c s, In s (queue_samples c) -> owned c (sm_labels s).
  Proof.
    intros c s I. unfold queue_samples in I. cbv zeta in I. apply in_app_iff in I. destruct I as [[<-|[<-|[]]]|I]; try apply kind_owned.
    apply in_map_iff in I. destruct I as (w & <- & _). apply kind_owned.
  Qed.
  Lemma queue_apart : forall c, ForallOrdPairs apart (queue_samples c).
  Proof.
    intros c. unfold queue_samples. cbv zeta. unfold queue_label. apply op_app.
    - repeat constructor; apply kind_apart; vm_compute; discriminate.
    - apply op_map. eapply op_impl; [|apply op_range]. intros w w' _ _ D. apply kind_apart. intros E. apply D, itoa_nat_inj, E.
    - intros a b IA IB. apply in_map_iff in IB. destruct IB as (w & <- & _). destruct IA as [<-|[<-|[]]]; apply kind_apart; intros E; symmetry in E;
        revert E; apply itoa_nat_not; reflexivity.
  Qed.

  Lemma schedule_own : forall c s, In s (schedule_samples c) -> owned c (sm_labels s).
  Proof.
    intros c s I. unfold schedule_samples in I. cbv zeta in I. apply in_app_iff in I. destruct I as [I|[<-|[]]].
    - apply in_flat_map in I. destruct I as (w & _ & [<-|[<-|[]]]); apply worker_owned; (constructor; [cbn; discriminate|constructor]).
    - eexists. split; [reflexivity|]. repeat constructor; cbn; discriminate.
  Qed.
  Lemma schedule_apart : forall c, ForallOrdPairs apart (schedule_samples c).
  Proof.
    intros c. unfold schedule_samples. cbv zeta. apply op_app.
    - apply op_flat.
      + intros w _. repeat constructor. intros _ H. cbn [one sm_labels] in H. apply both_tail, both_head in H.
        destruct H as [_ (t & T & T')]. cbn in T, T'. congruence.
      + eapply op_impl; [|apply op_range]. intros w w' _ _ D a b [<-|[<-|[]]] [<-|[<-|[]]] _ H; apply D; exact (worker_same _ _ _ _ _ H).
    - repeat constructor.
    - intros a b IA [<-|[]]. apply in_flat_map in IA. destruct IA as (w & _ & IA).
      assert (X : forall r r', ~ both (worker_of c w ++ r) (runtime_labels c ++ remote_label ++ r')).
      { intros r r' H. unfold worker_of in H. rewrite <- app_assoc in H. apply both_tail, both_head in H.
        destruct H as [_ (t & T & T')]. cbn [snd label_shows] in T, T'. rewrite T' in T. vm_compute in T. discriminate. }
      destruct IA as [<-|[<-|[]]]; intros _ H; exact (X _ _ H).
  Qed.

  Lemma polls_own : forall c s, In s (all_polls c) -> owned c (sm_labels s).
  Proof.
    intros c s I. apply in_flat_map in I. destruct I as (w & _ & I). unfold poll_samples in I. apply in_app_iff in I.
    assert (W : owned c (worker_of c w)) by (rewrite <- (app_nil_r (worker_of c w)); apply worker_owned; constructor).
    destruct I as [I|[<-|[<-|[]]]]; [|exact W|exact W].
    destruct (rt_histogram_enabled _); [|destruct I]. apply in_map_iff in I. destruct I as (j & <- & _).
    apply worker_owned. constructor; [cbn; discriminate|constructor].
  Qed.
  Lemma poll_labels : forall c w s, In s (poll_samples c w) -> exists r, sm_labels s = worker_of c w ++ r.
  Proof.
    intros c w s I. unfold poll_samples in I. apply in_app_iff in I.
    destruct I as [I|[<-|[<-|[]]]]; [|exists []; symmetry; apply app_nil_r|exists []; symmetry; apply app_nil_r].
    destruct (rt_histogram_enabled _); [|destruct I]. apply in_map_iff in I. destruct I as (j & <- & _). eexists. reflexivity.
  Qed.
  Lemma polls_apart : forall c, bounds_differ ryu (rc_runtime c) -> ForallOrdPairs apart (all_polls c).
  Proof.
    intros c BD. unfold all_polls. apply op_flat.
    - intros w _. unfold poll_samples. apply op_app.
      + destruct (rt_histogram_enabled _); [|constructor]. unfold bucket_samples. apply op_map. eapply op_impl; [|apply op_seq].
        intros j k _ _ L _ H. cbn [one sm_labels] in H. apply both_tail, both_head in H. destruct H as [_ (t & T & T')].
        cbn [snd] in T, T'. cbv beta in L. refine (BD (N.of_nat j) (N.of_nat k) _ _ _ t _ _ (conj T T')); [lia|now apply bound_exact..].
      + repeat constructor. intros E. discriminate.
      + intros a b IA IB. destruct (rt_histogram_enabled _); [|destruct IA]. apply in_map_iff in IA. destruct IA as (j & <- & _).
        destruct IB as [<-|[<-|[]]]; intros E; discriminate.
    - eapply op_impl; [|apply op_range]. intros w w' _ _ D a b IA IB _ H. apply D.
      destruct (poll_labels _ _ _ IA) as (r & E), (poll_labels _ _ _ IB) as (r' & E'). rewrite E, E' in H. exact (worker_same _ _ _ _ _ H).
  Qed.

  Lemma family_apart : forall rts name help g, NoDup (map rc_name rts) ->
    (forall c, In c rts -> ForallOrdPairs apart (g c)) -> (forall c s, In s (g c) -> owned c (sm_labels s)) ->
    ForallOrdPairs apart (cf_samples (tfam rts name help g)).
  Proof.
    intros rts name help g ND A O. cbn [tfam cf_samples]. apply op_flat; [exact A|].
    assert (P : ForallOrdPairs (fun c c' => rc_name c <> rc_name c') rts).
    { clear A. induction rts as [|c rts IH]; [constructor|]. inversion ND; subst. constructor; [|apply IH; assumption].
      apply Forall_forall. intros c' I E. apply H1. rewrite E. apply in_map, I. }
    eapply op_impl; [|exact P]. intros c c' _ _ D a b IA IB _ H. apply D. exact (owned_same _ _ _ _ (O _ _ IA) (O _ _ IB) H).
  Qed.

  (** Names used by a family. *)
  Definition used (n : bytes) : list bytes :=
    if beqb n poll_family then [full_name [] n [str "bucket"]; full_name [] n [str "count"]; full_name [] n [str "sum"]] else [n].

  Definition fam_good (f : cfamily) : Prop :=
    ForallOrdPairs apart (cf_samples f) /\
    forall s, In s (cf_samples f) -> In (full_name [] (cf_name f) (words (sm_suffix s))) (used (cf_name f)).

  Lemma plain_good : forall rts name help g, beqb (str name) poll_family = false -> NoDup (map rc_name rts) ->
    (forall c, In c rts -> ForallOrdPairs apart (g c)) -> (forall c s, In s (g c) -> owned c (sm_labels s)) ->
    (forall c s, In s (g c) -> sm_suffix s = None) -> fam_good (tfam rts name help g).
  Proof.
    intros rts name help g NP ND A O SF. split; [apply family_apart; assumption|]. intros s I. cbn [tfam cf_samples cf_name] in *.
    apply in_flat_map in I. destruct I as (c & _ & I). rewrite (SF c s I). unfold used. rewrite NP. left. reflexivity.
  Qed.

  Lemma used_disjoint : forall heck net rts,
    ForallOrdPairs (fun f g => forall n, In n (used (cf_name f)) -> ~ In n (used (cf_name g))) (tokio_families heck net rts).
  Proof.
    intros heck net rts.
    assert (K : forall l : list bytes, nodupb (flat_map used l) = true -> ForallOrdPairs (fun a b => forall n, In n (used a) -> ~ In n (used b)) l).
    { induction l as [|a l IH]; intros H; constructor.
      - apply Forall_forall. intros b B n I J. apply nodupb_spec in H. cbn [flat_map] in H.
        revert H I. generalize (used a). induction l0 as [|x u IHu]; intros H I; [destruct I|]. cbn [app] in H. inversion H; subst.
        destruct I as [->|I]; [|exact (IHu H3 I)]. apply H2. apply in_app_iff. right. apply in_flat_map. exists b. auto.
      - apply IH. apply nodupb_spec in H. cbn [flat_map] in H. destruct (nodupb (flat_map used l)) eqn:E; [reflexivity|].
        exfalso. clear IH. assert (ND : NoDup (flat_map used l)).
        { revert H. generalize (used a). induction l0 as [|x u IHu]; intros H; [exact H|]. cbn [app] in H. inversion H; auto. }
        clear H. revert E. assert (G : forall m, NoDup m -> nodupb m = true); [|intros E; rewrite (G _ ND) in E; discriminate].
        induction 1 as [|x m N _ IHm]; [reflexivity|]. cbn [nodupb]. rewrite IHm, andb_true_r. apply negb_true_iff.
        destruct (existsb (beqb x) m) eqn:X; [|reflexivity]. apply existsb_exists in X. destruct X as (y & Y & B). apply beqb_spec in B. subst. contradiction. }
    assert (M : ForallOrdPairs (fun a b => forall n, In n (used a) -> ~ In n (used b)) (map cf_name (tokio_families heck net rts))).
    { apply K. destruct net; vm_compute; reflexivity. }
    revert M. generalize (tokio_families heck net rts). induction l as [|f l IH]; intros M; constructor; inversion M; subst.
    - apply Forall_forall. intros g G. rewrite Forall_forall in H1. apply H1, in_map, G.
    - apply IH; assumption.
  Qed.

  Lemma tokio_good : forall heck net rts, NoDup (map rc_name rts) -> kinds_differ heck ->
    Forall (fun c => bounds_differ ryu (rc_runtime c)) rts -> Forall fam_good (tokio_families heck net rts).
  Proof.
    intros heck net rts ND K BD. rewrite Forall_forall in BD.
    assert (PW : forall name help f, beqb (str name) poll_family = false -> fam_good (tfam rts name help (per_worker f))).
    { intros. apply plain_good; auto; [intros; apply per_worker_apart|apply per_worker_own|].
      intros c s I. apply in_map_iff in I. destruct I as (w & <- & _). reflexivity. }
    assert (PR : forall name help f, beqb (str name) poll_family = false -> fam_good (tfam rts name help (per_runtime f))).
    { intros. apply plain_good; auto; [intros; apply per_runtime_apart|apply per_runtime_own|].
      intros c s [<-|[]]. reflexivity. }
    unfold tokio_families, before_polls. apply Forall_app. split; [|constructor].
    - constructor; [|constructor; [|constructor; [|constructor; [|constructor; [|constructor; [|constructor; [|constructor; [|constructor; [|constructor; [|constructor]]]]]]]]]];
        try (apply PR; reflexivity); try (apply PW; reflexivity).
      + apply plain_good; auto; [intros; apply thread_apart, K|apply thread_own|].
        intros c s I. destruct I as [<-|[<-|[<-|[]]]]; reflexivity.
      + apply plain_good; auto; [intros; apply queue_apart|apply queue_own|].
        intros c s I. unfold queue_samples in I. cbv zeta in I. apply in_app_iff in I. destruct I as [[<-|[<-|[]]]|I]; try reflexivity.
        apply in_map_iff in I. destruct I as (w & <- & _). reflexivity.
      + apply plain_good; auto; [intros; apply schedule_apart|apply schedule_own|].
        intros c s I. unfold schedule_samples in I. cbv zeta in I. apply in_app_iff in I. destruct I as [I|[<-|[]]]; try reflexivity.
        apply in_flat_map in I. destruct I as (w & _ & [<-|[<-|[]]]); reflexivity.
    - split; [apply family_apart; [exact ND|intros c I; apply polls_apart, BD, I|apply polls_own]|].
      intros s I. cbn [poll_fam tfam cf_samples cf_name] in *. apply in_flat_map in I. destruct I as (c & _ & I). apply in_flat_map in I.
      destruct I as (w & _ & I). unfold poll_samples in I. apply in_app_iff in I.
      change (used (str "worker_poll_time_seconds")) with [full_name [] (str "worker_poll_time_seconds") [str "bucket"];
        full_name [] (str "worker_poll_time_seconds") [str "count"]; full_name [] (str "worker_poll_time_seconds") [str "sum"]].
      destruct I as [I|[<-|[<-|[]]]]; [|right; left; reflexivity|right; right; left; reflexivity].
      destruct (rt_histogram_enabled _); [|destruct I]. apply in_map_iff in I. destruct I as (j & <- & _). left. reflexivity.
    - unfold after_polls. destruct net; [|constructor]. repeat (constructor; [apply PR; reflexivity|]). constructor.
  Qed.

  Lemma tokio_series : forall heck net rts, NoDup (map rc_name rts) -> kinds_differ heck ->
    Forall (fun c => bounds_differ ryu (rc_runtime c)) rts ->
    ForallOrdPairs (fun a b => ~ clash ryu nss a b) (all_samples (tokio_families heck net rts)).
  Proof.
    intros heck net rts ND K BD. pose proof (tokio_good heck net rts ND K BD) as G. rewrite Forall_forall in G.
    unfold all_samples. apply op_flat.
    - intros f F. destruct (G f F) as [A U]. apply op_map. eapply op_impl; [|exact A].
      intros s s' I I' H [N (ts & T)]. cbn [fst snd] in *. destruct (suffix_eq (sm_suffix s) (sm_suffix s')) as [E|E].
      + apply (H E). exists ts. exact T.
      + unfold shown_name in N. apply full_name_head in N. unfold full_name in N. cbn [app] in N. apply E.
        revert N. clear. destruct (sm_suffix s) as [[]|], (sm_suffix s') as [[]|]; cbn [words word_of]; intros N; try reflexivity; exfalso;
          cbn [join_underscore] in N;
          try (apply app_inv_head in N; vm_compute in N; discriminate);
          try (rewrite <- (app_nil_r (cf_name f)) in N at 2; apply app_inv_head in N; vm_compute in N; discriminate);
          try (rewrite <- (app_nil_r (cf_name f)) in N at 1; apply app_inv_head in N; vm_compute in N; discriminate).
    - eapply op_impl; [|apply (used_disjoint heck net rts)]. intros f g F F' D a b IA IB [N _].
      apply in_map_iff in IA. destruct IA as (s & <- & IA). apply in_map_iff in IB. destruct IB as (s' & <- & IB). cbn [fst snd] in N.
      unfold shown_name in N. apply full_name_head in N. destruct (G f F) as [_ U]. destruct (G g F') as [_ U'].
      apply (D _ (U s IA)). rewrite N. apply U', IB.
  Qed.
End Series.
