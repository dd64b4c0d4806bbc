(** What the collectors do, as lists of families. *)
From Coq Require Import String List NArith ZArith Bool Lia ZifyBool ZifyN ZifyNat.
From Verif Require Import Base BaseFacts Writer NameModel NameSpec NameProofs LabelModel FloatModel FloatFacts EncoderModel
  TextModel TextSpec EncoderSpec EncoderProofs TextProofs TextParseProofs ProtoSpec MetricModel CollectorModel CollectorSpec.
Import ListNotations.
Local Open Scope N_scope.

(** ** Namespaces *)

Lemma below_help : forall nss S (e : encoder S) n h, e_help (below nss e) n h = e_help e (fold_right NNamespace n nss) h.
Proof. induction nss as [|ns nss IH]; intros; cbn [below fold_right]; [reflexivity|]. rewrite IH. reflexivity. Qed.
Lemma below_collect : forall nss S (e : encoder S) m ls n, e_collect (below nss e) m ls n = e_collect e m ls (fold_right NNamespace n nss).
Proof. induction nss as [|ns nss IH]; intros; cbn [below fold_right]; [reflexivity|]. rewrite IH. reflexivity. Qed.

(** ** Sequences *)

Section Do.
  Context {S : Type} (e : encoder S) (nss : list bytes).

  Lemma do_samples_app : forall base a b s, do_samples e nss base (a ++ b) s =
    match do_samples e nss base a s with (s', ROk) => do_samples e nss base b s' | (s', r) => (s', r) end.
  Proof.
    induction a as [|x a IH]; intros b s; cbn [app do_samples]; [reflexivity|].
    destruct (e_collect e (sm_metric x) (sm_labels x) (call_name nss base (sm_suffix x)) s) as [s' []]; auto.
  Qed.

  Lemma do_families_app : forall a b s, do_families e nss (a ++ b) s =
    match do_families e nss a s with (s', ROk) => do_families e nss b s' | (s', r) => (s', r) end.
  Proof.
    induction a as [|x a IH]; intros b s; cbn [app do_families]; [reflexivity|].
    destruct (e_help e (call_name nss (cf_name x) None) (cf_help x) s) as [s' []]; auto.
    destruct (do_samples e nss (cf_name x) (cf_samples x) s') as [s'' []]; auto.
  Qed.

  (** An action that is a list of families, or of samples of one. *)
  Definition acts (a : io S) (fs : list cfamily) : Prop := forall s, a s = do_families e nss fs s.
  Definition sends (base : bytes) (a : io S) (l : list csample) : Prop := forall s, a s = do_samples e nss base l s.

  Lemma acts_nil : acts ret_ok [].
  Proof. intros s. reflexivity. Qed.
  Lemma acts_app : forall a b fa fb, acts a fa -> acts b fb -> acts (a ;;? b) (fa ++ fb).
  Proof. intros a b fa fb A B s. rewrite bindr_ok, do_families_app, A. destruct (do_families e nss fa s) as [s' []]; auto. Qed.
  Lemma sends_nil : forall base, sends base ret_ok [].
  Proof. intros base s. reflexivity. Qed.
  Lemma sends_app : forall base a b la lb, sends base a la -> sends base b lb -> sends base (a ;;? b) (la ++ lb).
  Proof. intros base a b fa fb A B s. rewrite bindr_ok, do_samples_app, A. destruct (do_samples e nss base fa s) as [s' []]; auto. Qed.
  Lemma sends_one : forall base m ls sf n, n = match sf with Some x => NSuffix (NBase base) x | None => NBase base end ->
    sends base (e_collect (below nss e) m ls n) [{| sm_suffix := sf; sm_labels := ls; sm_metric := m |}].
  Proof.
    intros base m ls sf n -> s. rewrite below_collect. cbn [do_samples sm_metric sm_labels sm_suffix].
    unfold call_name. destruct (e_collect _ _ _ _ _) as [s' []]; reflexivity.
  Qed.
  Lemma sends_each : forall A base (l : list A) f g, (forall x, In x l -> sends base (f x) (g x)) -> sends base (for_each l f) (flat_map g l).
  Proof.
    induction l as [|x l IH]; intros f g H; cbn [for_each flat_map]; [apply sends_nil|].
    apply sends_app; [apply H; left; reflexivity|]. apply IH. intros y Y. apply H. right. exact Y.
  Qed.

  Lemma acts_figure : forall name help v,
    acts (write_figure (below nss e) name help (Done v))
      [{| cf_name := name; cf_help := help; cf_samples := [{| sm_suffix := None; sm_labels := []; sm_metric := MGauge v |}] |}].
  Proof.
    intros name help v s. unfold write_figure. rewrite bindr_ok, below_help. cbn [do_families cf_name cf_help cf_samples do_samples sm_suffix sm_labels sm_metric].
    unfold call_name. destruct (e_help e _ help s) as [s' []]; try reflexivity.
    unfold with_value, write_gauge. rewrite below_collect. destruct (e_collect _ _ _ _ _) as [s'' []]; reflexivity.
  Qed.

  Lemma acts_metric : forall rts name help body g,
    (forall c, In c rts -> sends (str name) (body (compose_labels (runtime_labels c)) (NBase (str name)) (rc_runtime c)) (g c)) ->
    acts (tokio_metric (below nss e) rts name help body)
      [{| cf_name := str name; cf_help := str help; cf_samples := flat_map g rts |}].
  Proof.
    intros rts name help body g H s. unfold tokio_metric. rewrite bindr_ok, below_help.
    cbn [do_families cf_name cf_help cf_samples]. unfold call_name at 1.
    destruct (e_help e _ (str help) s) as [s' []]; try reflexivity.
    rewrite (sends_each _ (str name) rts _ g H). destruct (do_samples e nss (str name) (flat_map g rts) s') as [s'' []]; reflexivity.
  Qed.
End Do.

(** ** Processes *)

Definition fig (name help : string) (v : Z) : cfamily :=
  {| cf_name := str name; cf_help := str help; cf_samples := [{| sm_suffix := None; sm_labels := []; sm_metric := MGauge v |}] |}.
Definition onto {A B} (o : option A) (f : A -> list B) : list B := match o with Some x => f x | None => [] end.

Definition process_families (o : os) (c : process_collector) : list cfamily :=
  onto (os_process o (pc_pid c)) (fun p =>
    onto (p_fd_count p) (fun n => [fig "open_fds" "Number of open file descriptors." (Z.of_N n)]) ++
    match p_soft_limit p with
    | Some (LimitValue n) => [fig "max_fds" "Maximum number of open file descriptors." (Z.of_N n)]
    | _ => []
    end ++
    onto (p_stat p) (fun st =>
      [fig "virtual_memory_bytes" "Virtual memory size in bytes." (Z.of_N (ps_vsize st));
       fig "resident_memory_bytes" "Resident memory size in bytes." (Z.of_N (ps_rss st) * os_pagesize o);
       fig "cpu_seconds_total" "Total user and system CPU time spent in seconds." (Z.of_N (ps_utime st + ps_stime st) / os_clk_tck o);
       fig "threads" "Number of OS threads in the process." (ps_num_threads st)]) ++
    onto (pc_start_time c) (fun v => [fig "start_time_seconds" "Start time of the process since unix epoch in seconds." v])).

Lemma i64_small : forall x, small (Z.of_N x) -> u64_as_i64 x = Z.of_N x.
Proof. intros x [A B]. apply u64_small. change (2 ^ 63)%Z with (Z.of_N (2 ^ 63)) in B. lia. Qed.

Lemma fits_small : forall x, small x -> i64_fits x = true.
Proof. intros x [A B]. unfold i64_fits. lia. Qed.

Lemma to_i64_id : forall x, (- 2 ^ 63 <= x < 2 ^ 63)%Z -> to_i64 x = x.
Proof.
  intros x H. unfold to_i64. change (Z.of_N W64) with (2 * 2 ^ 63)%Z.
  destruct (Z.ltb_spec x 0).
  - replace (x mod (2 * 2 ^ 63))%Z with (x + 2 * 2 ^ 63)%Z.
    + destruct (Z.ltb_spec (x + 2 * 2 ^ 63) (2 ^ 63)); lia.
    + apply Z.mod_unique with (q := (-1)%Z); lia.
  - rewrite Z.mod_small by lia. destruct (Z.ltb_spec x (2 ^ 63)); lia.
Qed.

Lemma mul_small : forall bd a b, small (a * b) -> i_mul bd a b = Done (a * b)%Z.
Proof.
  intros bd a b H. unfold i_mul. destruct bd; [rewrite fits_small by exact H; reflexivity|].
  rewrite to_i64_id; [reflexivity|]. destruct H. lia.
Qed.
Lemma add_small : forall bd a b, small (a + b) -> i_add bd a b = Done (a + b)%Z.
Proof.
  intros bd a b H. unfold i_add. destruct bd; [rewrite fits_small by exact H; reflexivity|].
  rewrite to_i64_id; [reflexivity|]. destruct H. lia.
Qed.
Lemma div_small : forall a b, small a -> (0 < b)%Z -> i_div a b = Done (a / b)%Z.
Proof.
  intros a b [A A'] B. unfold i_div. destruct (Z.eqb_spec b 0); [lia|]. rewrite Z.quot_div_nonneg by lia.
  rewrite fits_small; [reflexivity|]. split; [apply Z.div_pos; lia|].
  apply Z.le_lt_trans with a; [|exact A']. apply Z.div_le_upper_bound; [lia|]. nia.
Qed.
Lemma u_add_N_small : forall bd a b, small (Z.of_N (a + b)) -> u_add bd a b = Done (a + b).
Proof.
  intros bd a b [_ H]. apply u_add_small. change W64 with (2 ^ 64). change (2 ^ 63)%Z with (Z.of_N (2 ^ 63)) in H.
  change (2 ^ 64) with (2 * 2 ^ 63). lia.
Qed.

Lemma process_exports : forall bd o c, os_ok o -> exports (fun S e => process_collect bd o c e) (process_families o c).
Proof.
  intros bd o c (CK & PG & OK) S e nss. change (acts e nss (process_collect bd o c (below nss e)) (process_families o c)).
  unfold process_collect, process_families. destruct (os_process o (pc_pid c)) as [p|] eqn:P; cbn [onto]; [|apply acts_nil].
  destruct (OK _ _ P) as (FD & LI & ST).
  apply acts_app.
  { destruct (p_fd_count p) as [n|]; cbn [onto]; [|apply acts_nil]. rewrite i64_small by (apply FD; reflexivity). apply acts_figure. }
  apply acts_app.
  { destruct (p_soft_limit p) as [[|n]|]; try apply acts_nil. rewrite i64_small by (apply LI; reflexivity). apply acts_figure. }
  apply acts_app.
  { destruct (p_stat p) as [st|]; cbn [onto]; [|apply acts_nil]. destruct (ST st eq_refl) as (V & R & U & T & _ & _).
    assert (R' : small (Z.of_N (ps_rss st))) by (destruct R; split; nia).
    rewrite !i64_small by (exact V || exact R'). rewrite mul_small by exact R.
    rewrite (u_add_N_small bd _ _ U). cbn [obind]. rewrite i64_small by exact U. rewrite div_small by (exact U || lia).
    repeat match goal with |- acts e nss (_ ;;? _) (?x :: ?r) => apply (acts_app e nss _ _ [x] r); [apply acts_figure|] end.
    apply acts_figure. }
  destruct (pc_start_time c); cbn [onto]; [apply acts_figure|apply acts_nil].
Qed.

Lemma div_unique : forall a b v, (0 < b)%Z -> (v * b <= a < (v + 1) * b)%Z -> v = (a / b)%Z.
Proof. intros a b v B H. apply Z.div_unique with (r := (a - v * b)%Z); [left|]; nia. Qed.

Lemma div_bounds : forall a b, (0 < b)%Z -> (a / b * b <= a < (a / b + 1) * b)%Z.
Proof. intros a b B. pose proof (Z.div_mod a b ltac:(lia)). pose proof (Z.mod_pos_bound a b B). nia. Qed.

Lemma process_figures : forall o c p name v, (0 < os_clk_tck o)%Z -> os_process o (pc_pid c) = Some p ->
  (exists f, In f (process_families o c) /\ gauge_family name v f) <->
  figure o p name v \/ (name = str "start_time_seconds" /\ pc_start_time c = Some v).
Proof.
  intros o c p name v CK P. unfold process_families. rewrite P. cbn [onto].
  assert (GF : forall nm h x f, f = fig nm h x -> gauge_family name v f -> name = str nm /\ v = x).
  { intros nm h x f -> [A B]. cbn in A, B. inversion B. auto. }
  split.
  - intros (f & I & G). rewrite !in_app_iff in I. destruct I as [I|[I|[I|I]]].
    + destruct (p_fd_count p) as [n|] eqn:E; [|destruct I]. destruct I as [<-|[]].
      destruct (GF _ _ _ _ eq_refl G) as [-> ->]. left. constructor. exact E.
    + destruct (p_soft_limit p) as [[|n]|] eqn:E; try destruct I as [].
      * destruct (GF _ _ _ f (eq_sym H) G) as [-> ->]. left. constructor. exact E.
      * destruct H.
    + destruct (p_stat p) as [st|] eqn:E; [|destruct I].
      destruct I as [I|[I|[I|[I|[]]]]]; destruct (GF _ _ _ f (eq_sym I) G) as [-> ->]; left.
      * constructor. exact E.
      * constructor. exact E.
      * apply Fig_cpu with st; [exact E|]. apply div_bounds, CK.
      * constructor. exact E.
    + destruct (pc_start_time c) as [x|] eqn:E; [|destruct I]. destruct I as [<-|[]].
      destruct (GF _ _ _ _ eq_refl G) as [-> ->]. right. auto.
  - intros [F|[-> E]].
    + destruct F as [n E|n E|st E|st E|st E|st x E B].
      * eexists. split; [rewrite E; cbn [onto]; rewrite !in_app_iff; left; left; reflexivity|]. split; reflexivity.
      * eexists. split; [rewrite E; cbn [onto]; rewrite !in_app_iff; right; left; left; reflexivity|]. split; reflexivity.
      * eexists. split; [rewrite E; cbn [onto]; rewrite !in_app_iff; right; right; left; left; reflexivity|]. split; reflexivity.
      * eexists. split; [rewrite E; cbn [onto]; rewrite !in_app_iff; right; right; left; right; left; reflexivity|]. split; reflexivity.
      * eexists. split; [rewrite E; cbn [onto]; rewrite !in_app_iff; right; right; left; right; right; right; left; reflexivity|]. split; reflexivity.
      * rewrite (div_unique _ _ _ CK B).
        eexists. split; [rewrite E; cbn [onto]; rewrite !in_app_iff; right; right; left; right; right; left; reflexivity|]. split; reflexivity.
    + eexists. split; [rewrite E; cbn [onto]; rewrite !in_app_iff; right; right; right; left; reflexivity|]. split; reflexivity.
Qed.

Lemma process_new_start : forall bd o pid, os_ok o -> exists c, process_new bd o pid = Done c /\ pc_pid c = pid /\
  forall v, pc_start_time c = Some v <-> started o (os_self o) v.
Proof.
  intros bd o pid (CK & PG & OK). unfold process_new.
  destruct (os_boot_time o) as [boot|] eqn:B.
  2:{ eexists. split; [reflexivity|]. split; [reflexivity|]. intros v. split; [discriminate|]. intros (b & p & st & E & _). congruence. }
  destruct (os_process o (os_self o)) as [p|] eqn:P.
  2:{ eexists. split; [reflexivity|]. split; [reflexivity|]. intros v. split; [discriminate|]. intros (b & p & st & _ & E & _). congruence. }
  destruct p as [fd li [st|]] eqn:EP.
  2:{ eexists. split; [reflexivity|]. split; [reflexivity|]. intros v. split; [discriminate|].
      intros (b & p' & st & _ & E & E2 & _). rewrite P in E. inversion E; subst p'. discriminate E2. }
  destruct (OK _ _ P) as (_ & _ & ST). destruct (ST st eq_refl) as (_ & _ & _ & _ & S1 & S2). specialize (S2 _ eq_refl).
  assert (SB : small (Z.of_N boot)) by (destruct S1, S2; split; lia).
  rewrite i64_small by exact S1. rewrite div_small by (exact S1 || lia). cbn [obind]. rewrite i64_small by exact SB.
  assert (D : (0 <= Z.of_N (ps_starttime st) / os_clk_tck o <= Z.of_N (ps_starttime st))%Z).
  { split; [apply Z.div_pos; lia|]. apply Z.div_le_upper_bound; [lia|]. destruct S1. nia. }
  rewrite add_small by (destruct S2; split; lia). cbn [obind].
  eexists. split; [reflexivity|]. split; [reflexivity|]. intros v. cbn [pc_start_time]. split.
  - intros E. inversion E; subst v. exists boot, {| p_fd_count := fd; p_soft_limit := li; p_stat := Some st |}, st. split; [exact B|].
    split; [exact P|]. split; [reflexivity|].
    replace (Z.of_N (ps_starttime st) / os_clk_tck o + Z.of_N boot - Z.of_N boot)%Z with (Z.of_N (ps_starttime st) / os_clk_tck o)%Z by lia.
    apply div_bounds. lia.
  - intros (b & p' & st' & E1 & E2 & E3 & H). rewrite P in E2. inversion E2; subst p'. inversion E3; subst st'.
    rewrite B in E1. inversion E1; subst. f_equal. pose proof (div_unique _ _ _ (proj1 CK) H). lia.
Qed.
