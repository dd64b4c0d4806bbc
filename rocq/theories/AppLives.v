(** Facts about the lives of requests (AppSpec). *)
From Coq Require Import String List NArith ZArith Bool Lia.
From Verif Require Import Base BaseFacts LabelModel VecSpec VecTheorems FloatModel MetricModel AppModel AppSpec EndSpec EndTheorems.
Import ListNotations.
Local Open Scope N_scope.

Lemma nth_put : forall {A} i (x : A) l j, nth_error (put i x l) j =
  if Nat.eqb i j then match nth_error l j with Some _ => Some x | None => None end else nth_error l j.
Proof.
  intros A i x l. revert i. induction l as [|y l IH]; intros [|i] [|j]; cbn [put nth_error Nat.eqb]; try reflexivity.
  - now destruct (Nat.eqb i j).
  - apply IH.
Qed.
Lemma put_length : forall {A} i (x : A) l, length (put i x l) = length l.
Proof. intros A i x l. revert i. induction l as [|y l IH]; intros [|i]; cbn; auto. Qed.

Definition bit (b : bool) : N := if b then 1 else 0.

Lemma number_app : forall P a b, number P (a ++ b) = number P a + number P b.
Proof. intros. unfold number. rewrite filter_app, app_length. lia. Qed.
Lemma number_one : forall P x, number P [x] = bit (P x).
Proof. intros P x. unfold number. cbn [filter]. now destruct (P x). Qed.
Lemma number_cons : forall P x l, number P (x :: l) = bit (P x) + number P l.
Proof. intros P x l. rewrite <- (number_one P x), <- number_app. reflexivity. Qed.
Lemma number_put : forall P i x old l, nth_error l i = Some old -> number P (put i x l) + bit (P old) = number P l + bit (P x).
Proof.
  intros P i x old l. revert i. induction l as [|y l IH]; intros [|i] E; try discriminate; cbn [put nth_error] in *.
  - injection E as ->. rewrite !number_cons. lia.
  - rewrite !number_cons. specialize (IH i E). lia.
Qed.

Lemma same_bytes_spec : forall a b, same_bytes a b = true <-> a = b.
Proof. intros a b. unfold same_bytes. destruct (list_eq_dec N.eq_dec a b); split; congruence. Qed.
Lemma about_spec : forall p m q, about p m q = true <-> fst q = (p, m).
Proof.
  intros p m [[p' m'] x]. unfold about. cbn [fst snd]. rewrite andb_true_iff, !same_bytes_spec. split; [intros [-> ->]; reflexivity|intros E; injection E as -> ->; auto].
Qed.

(** The request an event is about. *)
Definition of_event (e : app_event) : option nat :=
  match e with Start r _ | Stop r _ _ | Respond r _ | Cancel r _ => Some r | _ => None end.
Definition ends (e : app_event) : option nat := match e with Stop r _ _ | Cancel r _ => Some r | _ => None end.

Definition span (x : life) : option (N * N) :=
  match x with Ended a b | Answered a b _ | Dropped a b => Some (a, b) | _ => None end.
Definition timing (ls : list served) (r : nat) : option (bytes * bytes * (N * N)) :=
  match nth_error ls r with Some (p, m, x) => match span x with Some s => Some (p, m, s) | None => None end | None => None end.

Lemma time_of_timing : forall p m ls r, time_of p m ls r =
  match timing ls r with Some (p', m', (t0, t1)) => if same_bytes p' p && same_bytes m' m then [seconds t0 t1] else [] | None => [] end.
Proof. intros p m ls r. unfold time_of, timing. destruct (nth_error ls r) as [[[p' m'] []]|]; reflexivity. Qed.

(** Everything about a request happens after its arrival. *)
Lemma lives_range : forall evs ls, lives evs ls -> forall e r, In e evs -> of_event e = Some r -> (r < length ls)%nat.
Proof.
  intros evs ls H. induction H; intros e i I E; [destruct I|..]; apply in_app_iff in I as [I|[<-|[]]];
    try (specialize (IHlives _ _ I E)); rewrite ?app_length, ?put_length; try lia; try discriminate;
    cbn in E; injection E as <-; apply nth_error_Some; congruence.
Qed.
Lemma lives_ended : forall evs ls, lives evs ls -> forall e r, In e evs -> ends e = Some r -> timing ls r <> None.
Proof.
  intros evs ls H. induction H; intros e i I E; [destruct I|..]; apply in_app_iff in I as [I|[<-|[]]];
    try (pose proof (IHlives _ _ I E) as IH; unfold timing in *); try discriminate; try exact IH.
  - destruct (nth_error ls i) eqn:N; [|contradiction]. rewrite nth_error_app1; [now rewrite N|]. apply nth_error_Some. congruence.
  - rewrite nth_put. destruct (Nat.eqb_spec r i) as [->|]; [rewrite H0 in IH; contradiction|exact IH].
  - rewrite nth_put. destruct (Nat.eqb_spec r i) as [->|]; [rewrite H0 in IH; contradiction|exact IH].
  - cbn in E. injection E as <-. unfold timing. rewrite nth_put, Nat.eqb_refl, H0. discriminate.
  - rewrite nth_put. destruct (Nat.eqb_spec r i) as [->|]; [rewrite H0; discriminate|exact IH].
  - rewrite nth_put. destruct (Nat.eqb_spec r i) as [->|]; [rewrite H0 in IH; contradiction|exact IH].
  - cbn in E. injection E as <-. unfold timing. rewrite nth_put, Nat.eqb_refl, H0. discriminate.
Qed.

(** The calls on the three vecs. *)
Definition arrivals (ls : list served) : list (group_val * N) := map (fun q => (request_group (fst (fst q)) (snd (fst q)), 1)) ls.
Definition responses (evs : list app_event) (ls : list served) : list (group_val * N) :=
  flat_map (fun e => match e with
    | Respond r c => match nth_error ls r with Some (p, m, _) => [(response_group p m c, 1)] | None => [] end
    | _ => [] end) evs.
Definition spans (evs : list app_event) (ls : list served) : list (group_val * f64) :=
  flat_map (fun e => match ends e with
    | Some r => match timing ls r with Some (p, m, (t0, t1)) => [(request_group p m, seconds t0 t1)] | None => [] end
    | None => [] end) evs.

Lemma flat_map_ext_in : forall {A B} (f g : A -> list B) l, (forall x, In x l -> f x = g x) -> flat_map f l = flat_map g l.
Proof. intros A B f g. induction l as [|x l IH]; intros H; [reflexivity|]. cbn. rewrite (H x) by now left. f_equal. apply IH. intros; apply H; now right. Qed.
Lemma flat_map_one : forall {A B} (f : A -> list B) l x, flat_map f (l ++ [x]) = flat_map f l ++ f x.
Proof. intros A B f l x. rewrite flat_map_app. cbn [flat_map]. now rewrite app_nil_r. Qed.

Definition named (ls : list served) (r : nat) : option (bytes * bytes) := option_map fst (nth_error ls r).
Lemma responses_ext : forall evs ls ls', (forall e r, In e evs -> of_event e = Some r -> named ls' r = named ls r) -> responses evs ls' = responses evs ls.
Proof.
  intros evs ls ls' H. apply flat_map_ext_in. intros [| | |r c| |] I; try reflexivity. specialize (H _ r I eq_refl). unfold named in H.
  destruct (nth_error ls' r) as [[[p m] x]|], (nth_error ls r) as [[[p' m'] y]|]; cbn in H; congruence.
Qed.
Lemma spans_ext : forall evs ls ls', (forall e r, In e evs -> ends e = Some r -> timing ls' r = timing ls r) -> spans evs ls' = spans evs ls.
Proof.
  intros evs ls ls' H. apply flat_map_ext_in. intros e I. destruct (ends e) as [r|] eqn:E; [|reflexivity]. now rewrite (H e r I E).
Qed.

Lemma named_put : forall ls i p m x y j, nth_error ls i = Some (p, m, x) -> named (put i (p, m, y) ls) j = named ls j.
Proof. intros ls i p m x y j E. unfold named. rewrite nth_put. destruct (Nat.eqb_spec i j) as [<-|]; [now rewrite E|reflexivity]. Qed.
Lemma named_app : forall ls x j, (j < length ls)%nat -> named (ls ++ [x]) j = named ls j.
Proof. intros ls x j L. unfold named. now rewrite nth_error_app1. Qed.
Lemma timing_put_other : forall ls i x j, i <> j -> timing (put i x ls) j = timing ls j.
Proof. intros ls i x j N. unfold timing. rewrite nth_put. destruct (Nat.eqb_spec i j); [contradiction|reflexivity]. Qed.
Lemma timing_app : forall ls x j, (j < length ls)%nat -> timing (ls ++ [x]) j = timing ls j.
Proof. intros ls x j L. unfold timing. now rewrite nth_error_app1. Qed.

Lemma ends_of : forall e r, ends e = Some r -> of_event e = Some r.
Proof. now intros []. Qed.

(** How the lists grow. *)
Lemma arrive_lists : forall evs ls x, lives evs ls -> forall path m,
  responses (evs ++ [Arrive path m]) (ls ++ [x]) = responses evs ls /\ spans (evs ++ [Arrive path m]) (ls ++ [x]) = spans evs ls.
Proof.
  intros evs ls x H path m. unfold responses at 1, spans at 1. rewrite !flat_map_one. cbn [ends]. rewrite !app_nil_r. split.
  - apply responses_ext. intros e r I E. apply named_app. exact (lives_range _ _ H e r I E).
  - apply spans_ext. intros e r I E. apply timing_app. exact (lives_range _ _ H e r I (ends_of _ _ E)).
Qed.
Lemma put_responses : forall evs ls r p m x y, nth_error ls r = Some (p, m, x) -> responses evs (put r (p, m, y) ls) = responses evs ls.
Proof. intros. apply responses_ext. intros. eapply named_put. eassumption. Qed.
Lemma put_arrivals : forall ls r p m x y, nth_error ls r = Some (p, m, x) -> arrivals (put r (p, m, y) ls) = arrivals ls.
Proof.
  induction ls as [|q ls IH]; intros [|r] p m x y E; try discriminate; cbn [put arrivals map nth_error] in *.
  - injection E as ->. reflexivity.
  - f_equal. exact (IH r p m x y E).
Qed.
Lemma put_spans : forall evs ls r p m x y, lives evs ls -> nth_error ls r = Some (p, m, x) -> (span x = None \/ span x = span y) ->
  spans evs (put r (p, m, y) ls) = spans evs ls.
Proof.
  intros evs ls r p m x y H E D. apply spans_ext. intros e i I F. destruct (Nat.eq_dec r i) as [<-|N]; [|now apply timing_put_other].
  pose proof (lives_ended _ _ H e r I F) as T. unfold timing in *. rewrite nth_put, Nat.eqb_refl, E in *.
  destruct D as [D|D]; [rewrite D in T; contradiction|now rewrite D].
Qed.
Lemma responses_snoc : forall evs ls e, responses (evs ++ [e]) ls = responses evs ls ++ responses [e] ls.
Proof. intros. unfold responses. now rewrite flat_map_app. Qed.
Lemma spans_snoc : forall evs ls e, spans (evs ++ [e]) ls = spans evs ls ++ spans [e] ls.
Proof. intros. unfold spans. now rewrite flat_map_app. Qed.

(** ** What the lists say *)

Lemma request_group_inj : forall p m p' m', request_group p m = request_group p' m' -> p = p' /\ m = m'.
Proof. intros p m p' m' E. now injection E. Qed.
Lemma response_group_inj : forall p m c p' m' c', response_group p m c = response_group p' m' c' -> p = p' /\ m = m' /\ c = c'.
Proof. intros p m c p' m' c' E. now injection E. Qed.
Lemma geqb_request : forall p m p' m', group_val_eqb (request_group p' m') (request_group p m) = same_bytes p' p && same_bytes m' m.
Proof.
  intros. apply eq_true_iff_eq. rewrite group_val_eqb_spec, andb_true_iff, !same_bytes_spec. split; [intros E; now apply request_group_inj|intros [-> ->]; reflexivity].
Qed.

Lemma arrivals_sum : forall ls p m, fold_right N.add 0 (given (request_group p m) (arrivals ls)) = number (about p m) ls.
Proof.
  intros ls p m. induction ls as [|[[p' m'] x] ls IH]; [reflexivity|]. cbn [arrivals map fst snd]. rewrite given_cons, number_cons, sum_app. cbn [fst snd].
  change (map _ ls) with (arrivals ls). rewrite IH, geqb_request. unfold about at 2. cbn [fst snd]. destruct (same_bytes p' p && same_bytes m' m); reflexivity.
Qed.

Lemma spans_times : forall evs ls p m, given (request_group p m) (spans evs ls) = times p m evs ls.
Proof.
  intros evs ls p m. induction evs as [|e evs IH]; [reflexivity|]. unfold spans, times in *. cbn [flat_map]. rewrite given_app, IH. f_equal.
  destruct e; cbn [ends]; try reflexivity; rewrite time_of_timing; destruct (timing ls _) as [[[p' m'] [t0 t1]]|]; try reflexivity;
    rewrite given_cons; cbn [fst snd given filter map]; rewrite app_nil_r, geqb_request; reflexivity.
Qed.

Lemma responses_sum : forall evs ls, lives evs ls -> forall p m c,
  fold_right N.add 0 (given (response_group p m c) (responses evs ls)) = number (fun x => about p m x && answered c x) ls.
Proof.
  intros evs ls H p m c.
  assert (ONE : forall p' m' c', fold_right N.add 0 (given (response_group p m c) [(response_group p' m' c', 1)]) =
    bit (same_bytes p' p && same_bytes m' m && (c' =? c))).
  { intros p' m' c'. rewrite given_cons. cbn [fst snd given filter map]. rewrite app_nil_r.
    replace (group_val_eqb (response_group p' m' c') (response_group p m c)) with (same_bytes p' p && same_bytes m' m && (c' =? c)).
    - destruct (same_bytes p' p && same_bytes m' m && (c' =? c)); reflexivity.
    - symmetry. apply eq_true_iff_eq. rewrite group_val_eqb_spec, !andb_true_iff, !same_bytes_spec, N.eqb_eq.
      split; [intros E; apply response_group_inj in E; tauto|intros [[-> ->] ->]; reflexivity]. }
  induction H.
  - reflexivity.
  - rewrite (proj1 (arrive_lists _ _ _ H _ _)), IHlives, number_app, number_one. cbn [answered snd]. rewrite andb_false_r. cbn [bit]. lia.
  - rewrite responses_snoc. cbn [responses flat_map]. rewrite app_nil_r. fold (responses evs (put r (p0, m0, Running now) ls)).
    rewrite (put_responses evs ls r p0 m0 Begun (Running now) H0), IHlives. pose proof (number_put (fun x => about p m x && answered c x) r (p0, m0, Running now) _ ls H0) as X.
    cbn [answered snd] in X. rewrite !andb_false_r in X. cbn [bit] in X. lia.
  - rewrite responses_snoc. cbn [responses flat_map]. rewrite app_nil_r. fold (responses evs (put r (p0, m0, Ended t0 now) ls)).
    rewrite (put_responses evs ls r p0 m0 (Running t0) (Ended t0 now) H0), IHlives. pose proof (number_put (fun x => about p m x && answered c x) r (p0, m0, Ended t0 now) _ ls H0) as X.
    cbn [answered snd] in X. rewrite !andb_false_r in X. cbn [bit] in X. lia.
  - rewrite responses_snoc, given_app, sum_app. rewrite (put_responses evs ls r p0 m0 (Ended t0 t1) (Answered t0 t1 code) H0), IHlives.
    pose proof (number_put (fun x => about p m x && answered c x) r (p0, m0, Answered t0 t1 code) _ ls H0) as X.
    unfold responses. cbn [flat_map]. rewrite nth_put, Nat.eqb_refl, H0. cbn [app]. rewrite ONE.
    cbn [answered snd] in X. rewrite !andb_false_r in X. cbn [bit] in X. unfold about in X at 3. cbn [fst snd] in X. lia.
  - rewrite responses_snoc. cbn [responses flat_map]. rewrite app_nil_r. fold (responses evs (put r (p0, m0, Dropped t0 now) ls)).
    rewrite (put_responses evs ls r p0 m0 (Running t0) (Dropped t0 now) H0), IHlives. pose proof (number_put (fun x => about p m x && answered c x) r (p0, m0, Dropped t0 now) _ ls H0) as X.
    cbn [answered snd] in X. rewrite !andb_false_r in X. cbn [bit] in X. lia.
  - rewrite responses_snoc. cbn [responses flat_map]. rewrite app_nil_r. exact IHlives.
Qed.
