(** Families without type in the two formats. *)
From Coq Require Import String List NArith ZArith Bool Lia ZifyBool ZifyN ZifyNat.
From Verif Require Import Base BaseFacts Writer NameModel NameSpec NameProofs LabelModel FloatModel FloatFacts EncoderModel
  TextModel TextSpec EncoderSpec EncoderProofs TextProofs TextParseProofs ProtoModel ProtoSpec ProtoProofs ProtoSim ProtoTheorems
  MetricModel CollectorModel CollectorSpec.
Import ListNotations.
Local Open Scope N_scope.

(** ** Names *)

Lemma call_name_parts : forall nss base sf,
  namespaces_of (call_name nss base sf) = nss /\ base_of (call_name nss base sf) = base /\
  suffixes_of (call_name nss base sf) = words sf.
Proof.
  intros nss base sf. unfold call_name. induction nss as [|ns nss (A & B & C)]; cbn [fold_right].
  - destruct sf as [[]|]; auto.
  - cbn [namespaces_of base_of suffixes_of]. rewrite A, B, C. auto.
Qed.
Lemma call_name_bytes : forall nss base sf, name_bytes (call_name nss base sf) = full_name nss base (words sf).
Proof. intros. rewrite name_bytes_full. destruct (call_name_parts nss base sf) as (-> & -> & ->). reflexivity. Qed.
Lemma call_name_valid : forall nss base sf, Forall valid_metric_name nss -> valid_metric_name base ->
  valid_metric_name (name_bytes (call_name nss base sf)).
Proof.
  intros nss base sf F V. apply name_bytes_valid. unfold call_name. induction F as [|ns nss N _ IH]; cbn [fold_right].
  - destruct sf; exact V.
  - split; assumption.
Qed.

(** ** Text *)

Section TextFormat.
  Variables (ryu : f64 -> bytes) (bd : build).
  Hypothesis RYU : float_text_ok ryu.
  Variable nss : list bytes.
  Hypothesis NSS : Forall valid_metric_name nss.

  Definition text_value (m : metric) : mvalue :=
    match m with
    | MCounter c => VInt (u64_as_i64 c)
    | MGauge z => VInt z
    | MFloatGauge x => VFloat x
    | MHistogram _ _ _ _ => VInt 0
    end.
  Definition cline (base : bytes) (s : csample) : bytes :=
    sample_line ryu (call_name nss base (sm_suffix s)) (sm_labels s) (text_value (sm_metric s)).
  Definition after (l : list csample) (t : tstate) : tstate := match l with [] => t | _ => TMetrics end.
  Definition flines (t : tstate) (f : cfamily) : list bytes :=
    gap t ++ [help_line (call_name nss (cf_name f) None) (cf_help f)] ++ map (cline (cf_name f)) (cf_samples f).

  Lemma csample_writes : forall base s t, value_ok (sm_metric s) ->
    writes t (e_collect (text_encoder ryu bd) (sm_metric s) (sm_labels s) (call_name nss base (sm_suffix s)))
      (cline base s ++ [10]) TMetrics.
  Proof.
    intros base s t V. unfold cline. destruct (sm_metric s); cbn [text_encoder e_collect text_collect text_value]; try apply sample_writes.
    destruct V.
  Qed.

  Lemma csamples_write : forall base l t, Forall (fun s => value_ok (sm_metric s)) l ->
    writes t (do_samples (text_encoder ryu bd) nss base l) (unlines (map (cline base) l)) (after l t).
  Proof.
    intros base l. induction l as [|x l IH]; intros t F; [apply ret_writes|]. inversion F; subst.
    cbn [map]. rewrite unlines_cons.
    assert (E : after (x :: l) t = after l TMetrics) by (destruct l; reflexivity). rewrite E.
    pose proof (bindr_writes _ _ _ _ _ _ _ (csample_writes base x t H1) (IH TMetrics H2)) as B.
    intros w s' r S F' R. apply (B w s' r S F'). rewrite bindr_ok. exact R.
  Qed.

  Lemma chelp_writes : forall n h t,
    writes t (e_help (text_encoder ryu bd) n h) (unlines (gap t ++ [help_line n h])) TInfo.
  Proof.
    intros n h t. cbn [text_encoder e_help]. rewrite unlines_app. unfold text_write_help. eapply writes_eq.
    { eapply bindr_writes; [apply gap_writes|].
      eapply bindr_writes; [apply set_state_writes|].
      eapply bindr_writes; [apply wr_writes|].
      eapply bindr_writes; [apply name_writes|].
      eapply bindr_writes; [apply wr_writes|].
      eapply bindr_writes; [apply wr_writes|apply wr_writes]. }
    rewrite unlines_one. unfold help_line. rewrite <- !app_assoc. reflexivity.
  Qed.

  Fixpoint all_lines (t : tstate) (fs : list cfamily) : list bytes :=
    match fs with [] => [] | f :: rest => flines t f ++ all_lines (after (cf_samples f) TInfo) rest end.
  Fixpoint last_state (t : tstate) (fs : list cfamily) : tstate :=
    match fs with [] => t | f :: rest => last_state (after (cf_samples f) TInfo) rest end.

  Lemma families_write : forall fs t, Forall cfamily_ok fs ->
    writes t (do_families (text_encoder ryu bd) nss fs) (unlines (all_lines t fs)) (last_state t fs).
  Proof.
    induction fs as [|f fs IH]; intros t F; [apply ret_writes|]. inversion F; subst. destruct H1 as (_ & _ & OK).
    cbn [all_lines last_state]. unfold flines. rewrite app_assoc, !unlines_app.
    assert (V : Forall (fun s => value_ok (sm_metric s)) (cf_samples f)) by (eapply Forall_impl; [|exact OK]; intros s [_ V]; exact V).
    pose proof (bindr_writes _ _ _ _ _ _ _ (chelp_writes (call_name nss (cf_name f) None) (cf_help f) t)
      (bindr_writes _ _ _ _ _ _ _ (csamples_write (cf_name f) (cf_samples f) TInfo V) (IH (after (cf_samples f) TInfo) H2))) as B.
    rewrite unlines_app in B. rewrite <- !app_assoc in *.
    intros w s' r S F' R. apply (B w s' r S F'). rewrite bindr_ok. cbn [do_families] in R.
    destruct (e_help (text_encoder ryu bd) (call_name nss (cf_name f) None) (cf_help f) (mk t w)) as [s1 []]; try exact R.
  Qed.

  (** What the lines say. *)
  Definition citem (base : bytes) (s : csample) : item :=
    Sample (full_name nss base (words (sm_suffix s))) (shown ryu (sm_labels s)) (value_text ryu (text_value (sm_metric s))) None.
  Definition fitems (f : cfamily) : list item :=
    Help (full_name nss (cf_name f) []) (skip_blanks (cf_help f)) :: map (citem (cf_name f)) (cf_samples f).
  Fixpoint all_items (t : tstate) (fs : list cfamily) : list item :=
    match fs with [] => [] | f :: rest => gap_items t ++ fitems f ++ all_items (after (cf_samples f) TInfo) rest end.

  Lemma citem_says : forall f s, value_ok (sm_metric s) -> sample_line_of ryu nss f s (citem (cf_name f) s).
  Proof.
    intros f s V. unfold sample_line_of, citem, shown_name. destruct (sm_metric s) as [c|z|x|]; cbn [text_value value_text value_ok] in *.
    - rewrite u64_small by exact V. eexists _, _. split; [reflexivity|]. split; [apply shown_show|apply read_itoa].
    - eexists _, _. split; [reflexivity|]. split; [apply shown_show|apply read_itoa].
    - eexists. split; [reflexivity|apply shown_show].
    - exact V.
  Qed.

  Lemma lines_say : forall fs t, Forall cfamily_ok fs -> lines_parse (all_lines t fs) (all_items t fs).
  Proof.
    induction fs as [|f fs IH]; intros t F; [split; [reflexivity|constructor]|]. inversion F; subst. destruct H1 as (VN & PH & OK).
    cbn [all_lines all_items]. unfold flines. rewrite <- app_assoc. apply lines_parse_app; [apply gap_parse|].
    apply lines_parse_app; [|apply IH; assumption]. unfold fitems. cbn [app].
    apply lines_parse_cons.
    - rewrite parse_help_line; [|apply call_name_valid; assumption|exact PH]. rewrite call_name_bytes. reflexivity.
    - apply help_line_no_newline; [apply call_name_valid; assumption|exact PH].
    - induction OK as [|s l [L V] _ IHl]; cbn [map]; [split; [reflexivity|constructor]|].
      change (lines_parse ([cline (cf_name f) s] ++ map (cline (cf_name f)) l) ([citem (cf_name f) s] ++ map (citem (cf_name f)) l)).
      apply lines_parse_app; [|exact IHl]. unfold cline, citem. rewrite <- call_name_bytes.
      apply sample_lines_parse; [exact RYU|apply call_name_valid; assumption|exact L].
  Qed.

  Lemma citems_samples : forall base l, Forall is_sample (map (citem base) l).
  Proof. intros base l. apply Forall_forall. intros i I. apply in_map_iff in I. destruct I as (s & <- & _). exact Logic.I. Qed.

  Lemma items_blocks : forall fs t, Forall cfamily_ok fs -> families_blocks ryu nss fs (all_items t fs).
  Proof.
    intros fs t F. exists (map fitems fs). split.
    - induction F as [|f fs (_ & _ & OK) _ IH]; cbn [map]; constructor; [|exact IH].
      exists (map (citem (cf_name f)) (cf_samples f)). split; [reflexivity|].
      induction OK as [|s l [_ V] _ IHl]; cbn [map]; constructor; [|exact IHl]. apply citem_says. exact V.
    - clear F. revert t. induction fs as [|f fs IH]; intros t; [reflexivity|]. cbn [all_items map concat].
      rewrite !filter_app, filter_gap, IH. cbn [app]. f_equal. unfold fitems. cbn [filter meaningful]. f_equal.
      apply filter_samples, citems_samples.
  Qed.

  Lemma items_frames : forall fs t prev, prev <> Some Blank -> (t = TMetrics -> sample_before prev) ->
    (t = TInfo -> ~ sample_before prev) -> frames prev (all_items t fs).
  Proof.
    induction fs as [|f fs IH]; intros t prev NB M I; [exact NB|]. cbn [all_items]. unfold fitems. cbn [app].
    set (h := Help (full_name nss (cf_name f) []) (skip_blanks (cf_help f))).
    assert (K : frames (Some h) (map (citem (cf_name f)) (cf_samples f) ++ all_items (after (cf_samples f) TInfo) fs)).
    { destruct (cf_samples f) as [|x l] eqn:E.
      - cbn [map app after]. apply IH; [discriminate|discriminate|]. intros _ [].
      - rewrite <- E. apply frames_samples; [apply citems_samples|rewrite E; discriminate|discriminate|].
        intros p Sp. rewrite E. cbn [after]. apply IH; [intros X; inversion X; subst; contradiction|auto|discriminate]. }
    destruct t; cbn [gap_items app frames].
    - split; [discriminate|]. split; [intros _; auto|]. split; [congruence|exact K].
    - split; [intros _; apply M; reflexivity|]. split; [intros []|]. split; [congruence|].
      split; [discriminate|]. split; [intros _ []|]. split; [intros _; exact Logic.I|exact K].
  Qed.

  Lemma families_text : forall collect fs w, exports collect fs -> Forall cfamily_ok fs -> reliable w ->
    exists s out items, collect _ (below nss (text_encoder ryu bd)) (text_new w) = (s, ROk) /\
      w_out (te_writer s) = w_out w ++ out /\ parse out = Some items /\ families_blocks ryu nss fs items /\ framed items.
  Proof.
    intros collect fs w E OK R. rewrite E. change (text_new w) with (mk TInfo w).
    destruct (writes_reliable _ _ _ _ w (families_write fs TInfo OK) R) as (w' & EQ & R' & O).
    exists (mk (last_state TInfo fs) w'), (unlines (all_lines TInfo fs)), (all_items TInfo fs).
    split; [exact EQ|]. split; [exact O|]. destruct (lines_say fs TInfo OK) as [P NL].
    split; [unfold parse; rewrite split_unlines by exact NL; exact P|].
    split; [apply items_blocks, OK|]. apply frames_framed. apply items_frames; [discriminate|discriminate|]. intros _ [].
  Qed.
End TextFormat.

(** ** Protobuf *)

Definition untyped (o : op) : Prop := match o with OSample _ _ | OType _ => False | _ => True end.

Section ProtoFormat.
  Variables (ryu : f64 -> bytes) (bd : build) (nss : list bytes).
  Notation content := (content ryu).
  Notation msg f ops := (family_message ryu nss f (content ops)).

  Definition cpairs (f : cfamily) : list (labels * metric) := map (fun s => (sm_labels s, sm_metric s)) (cf_samples f).
  Definition cg_family (f : cfamily) (g : ghost) : ghost :=
    fold_left (fun g p => g_sample (fst p) (snd p) g) (cpairs f) (g_help (full_name nss (cf_name f) []) (cf_help f) g).

  Lemma value_kind : forall m, value_ok m -> metric_kind m <> KHistogram.
  Proof. intros [] V; cbn in *; congruence || contradiction. Qed.

  Lemma cfamily_rel : forall f s g rest, Forall (fun s => value_ok (sm_metric s)) (cf_samples f) -> rel ryu s g ->
    exists s', rel ryu s' (cg_family f g) /\
      do_families (proto_encoder ryu bd) nss (f :: rest) s = do_families (proto_encoder ryu bd) nss rest s'.
  Proof.
    intros f s g rest V R. cbn [do_families]. cbn [proto_encoder e_help].
    destruct (help_rel ryu bd (call_name nss (cf_name f) None) (cf_help f) s g R) as (s1 & -> & R1).
    rewrite call_name_bytes in R1. cbn [words] in R1. unfold cg_family, cpairs.
    assert (D : exists s', open_rel ryu s' (fold_left (fun g p => g_sample (fst p) (snd p) g)
        (map (fun s => (sm_labels s, sm_metric s)) (cf_samples f)) (g_help (full_name nss (cf_name f) []) (cf_help f) g)) /\
      do_samples (proto_encoder ryu bd) nss (cf_name f) (cf_samples f) s1 = (s', ROk)).
    { clear R. revert s1 R1. generalize (g_help (full_name nss (cf_name f) []) (cf_help f) g). generalize (cf_name f) as base.
      intros base g1. revert g1. induction V as [|x l X _ IH]; intros g1 s1 R1; cbn [map fold_left do_samples].
      - exists s1. auto.
      - cbn [proto_encoder e_collect].
        destruct (sample_rel ryu bd (sm_labels x) (sm_metric x) (call_name nss base (sm_suffix x)) s1 g1 (value_kind _ X) R1) as (s2 & -> & R2).
        cbn [fst snd]. apply IH. exact R2. }
    destruct D as (s2 & R2 & ->). exists s2. split; [left; exact R2|reflexivity].
  Qed.

  Lemma cfamilies_rel : forall fs s g, Forall cfamily_ok fs -> rel ryu s g ->
    exists s', do_families (proto_encoder ryu bd) nss fs s = (s', ROk) /\ rel ryu s' (fold_left (fun g f => cg_family f g) fs g).
  Proof.
    induction fs as [|f fs IH]; intros s g F R; [exists s; auto|]. inversion F; subst. destruct H1 as (_ & _ & OK).
    assert (V : Forall (fun s => value_ok (sm_metric s)) (cf_samples f)) by (eapply Forall_impl; [|exact OK]; intros x [_ V]; exact V).
    destruct (cfamily_rel f s g fs V R) as (s1 & R1 & ->). cbn [fold_left]. apply IH; assumption.
  Qed.

  (** Between families. *)
  Inductive cbetween (done : list cfamily) : ghost -> Prop :=
  | CB_metrics : forall d f cur out, done = d ++ [f] -> Forall2 (fun f ops => msg f ops) d out -> msg f cur ->
      cbetween done {| g_st := PMetrics; g_cur := cur; g_out := out |}
  | CB_wait : forall st cur out, st <> PMetrics -> Forall2 (fun f ops => msg f ops) done out -> Forall untyped cur ->
      cbetween done {| g_st := st; g_cur := cur; g_out := out |}.

  Lemma cbetween_flush : forall done g, cbetween done g ->
    exists st cur out, g_flush g = {| g_st := st; g_cur := cur; g_out := out |} /\ st <> PMetrics /\
      Forall2 (fun f ops => msg f ops) done out /\ Forall untyped cur.
  Proof.
    intros done g B. destruct B as [d f cur out -> D M|st cur out N D U].
    - exists PInit, [], (out ++ [cur]). split; [reflexivity|]. split; [discriminate|]. split; [|constructor].
      apply Forall2_app; [exact D|]. constructor; [exact M|constructor].
    - exists st, cur, out. split; [unfold g_flush; cbn [g_st]; destruct st; congruence|]. auto.
  Qed.

  Lemma untyped_headed : forall o, untyped o -> headed o.
  Proof. intros []; cbn; auto. Qed.
  Lemma untyped_type : forall ops, Forall untyped ops -> pf_type (content ops) = None.
  Proof.
    intros ops. unfold content, ProtoTheorems.content.
    assert (G : forall a, pf_type a = None -> Forall untyped ops -> pf_type (fold_left (op_apply ryu) ops a) = None).
    { induction ops as [|o ops IH]; intros a A F; [exact A|]. cbn [fold_left]. inversion F; subst.
      apply IH; [|assumption]. destruct o; cbn in *; [exact A|exact A|destruct H1|exact A]. }
    intros. now apply G.
  Qed.

  Lemma cbetween_step : forall done f g, Forall (fun s => value_ok (sm_metric s)) (cf_samples f) -> cbetween done g ->
    cbetween (done ++ nonempty [f]) (cg_family f g).
  Proof.
    intros done f g V B. unfold cg_family, g_help.
    destruct (cbetween_flush done g B) as (st & cur & out & -> & N & D & U).
    unfold g_add at 1. cbn [g_cur g_out]. set (n := full_name nss (cf_name f) []).
    assert (U' : Forall untyped (cur ++ [OName n; OHelp (cf_help f)])) by (apply Forall_app; split; [exact U|repeat constructor]).
    unfold nonempty. cbn [filter]. destruct (cf_samples f) as [|x l] eqn:E.
    - unfold cpairs. rewrite E. cbn [map fold_left]. rewrite app_nil_r. apply CB_wait; [discriminate|exact D|exact U'].
    - rewrite fold_samples by (unfold cpairs; rewrite E; discriminate). unfold g_add. cbn [g_cur g_out].
      eapply CB_metrics; [reflexivity|exact D|]. unfold family_message. rewrite content_app, apply_samples.
      cbn [pf_name pf_help pf_type pf_metrics].
      rewrite headed_metrics by (eapply Forall_impl; [apply untyped_headed|exact U']).
      rewrite untyped_type by exact U'. rewrite !content_app. split; [reflexivity|]. split; [reflexivity|]. split; [reflexivity|].
      cbn [app]. unfold cpairs. rewrite E. clear - V. induction V as [|y l0 Y _ IH]; cbn [map]; constructor; [|exact IH].
      apply (pm_of_shows ryu (sm_labels y, sm_metric y)). apply value_kind. exact Y.
  Qed.

  Lemma nonempty_cons : forall f fs, nonempty (f :: fs) = nonempty [f] ++ nonempty fs.
  Proof. intros f fs. unfold nonempty. cbn [filter]. destruct (cf_samples f); reflexivity. Qed.

  Lemma cbetween_families : forall fs done g, Forall cfamily_ok fs -> cbetween done g ->
    cbetween (done ++ nonempty fs) (fold_left (fun g f => cg_family f g) fs g).
  Proof.
    induction fs as [|f fs IH]; intros done g F B; cbn [fold_left]; [rewrite app_nil_r; exact B|].
    inversion F; subst. destruct H1 as (_ & _ & OK). rewrite nonempty_cons, app_assoc. apply IH; [assumption|].
    apply cbetween_step; [|exact B]. eapply Forall_impl; [|exact OK]. intros x [_ V]. exact V.
  Qed.

  Lemma cg_ok : forall fs g, Forall cfamily_ok fs -> g_ok g -> g_ok (fold_left (fun g f => cg_family f g) fs g).
  Proof.
    induction fs as [|f fs IH]; intros g F G; cbn [fold_left]; [exact G|]. inversion F; subst. apply IH; [assumption|].
    destruct H1 as (_ & _ & OK). unfold cg_family, cpairs.
    assert (G1 : g_ok (g_help (full_name nss (cf_name f) []) (cf_help f) g)).
    { apply g_add_ok; [|now apply g_flush_ok]. constructor; [exact I|]. constructor; [exact I|constructor]. }
    revert G1. generalize (g_help (full_name nss (cf_name f) []) (cf_help f) g). clear - OK.
    induction OK as [|s l [_ V] _ IH]; intros g G; cbn [map fold_left]; [exact G|]. apply IH.
    apply g_add_ok; [|exact G]. constructor; [|constructor]. cbn. destruct (sm_metric s); cbn in *; auto.
  Qed.

  Lemma families_proto : forall collect fs w, exports collect fs -> Forall cfamily_ok fs -> reliable w -> w_out w = [] ->
    exists s, (collect _ (below nss (proto_encoder ryu bd)) ;;? proto_flush bd ROk) (proto_new w) = (s, ROk) /\
      (nlen (w_out (pe_writer s)) < 2 ^ 64 ->
       exists ps, read_stream (w_out (pe_writer s)) = Some ps /\ Forall2 (family_message ryu nss) (nonempty fs) ps).
  Proof.
    intros collect fs w E OK R W. rewrite bindr_ok, E.
    destruct (cfamilies_rel fs _ _ OK (rel_new ryu w R W)) as (s1 & -> & R1).
    unfold proto_flush. rewrite bindr_ok.
    destruct (flush_rel ryu bd s1 _ R1) as (s2 & -> & R2). eexists. split; [reflexivity|].
    cbn [pe_writer]. intros L.
    assert (R2' : rel ryu s2 (g_flush (fold_left (fun g f => cg_family f g) fs g_new))) by (left; exact R2).
    rewrite (rel_out ryu _ _ R2') in *.
    assert (GO : g_ok (g_flush (fold_left (fun g f => cg_family f g) fs g_new))).
    { apply g_flush_ok, cg_ok; [exact OK|split; constructor]. }
    rewrite read_frames by (exact L || apply GO). eexists. split; [reflexivity|].
    assert (B : cbetween ([] ++ nonempty fs) (fold_left (fun g f => cg_family f g) fs g_new)).
    { apply cbetween_families; [exact OK|]. apply CB_wait; [discriminate|constructor|constructor]. }
    destruct (cbetween_flush _ _ B) as (st & cur & out & EQ & _ & D & _). rewrite EQ. cbn [g_out]. cbn [app] in D.
    clear - D. induction D; cbn [map]; constructor; assumption.
  Qed.
End ProtoFormat.
