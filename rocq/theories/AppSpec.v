(** What the example server's scrapes say about the requests it has served. *)
From Coq Require Import String List NArith ZArith Bool.
From Verif Require Import Base Writer NameModel NameSpec LabelModel VecModel FloatModel EncoderModel TextModel TextSpec MetricModel MetricSpec AppModel.
Import ListNotations.
Local Open Scope N_scope.

(** The label of an HTTP method. *)
Definition method_label (m : bytes) : bytes :=
  if list_eq_dec N.eq_dec m (str "GET") then str "Get"
  else if list_eq_dec N.eq_dec m (str "POST") then str "Post" else str "Other".

(** What has become of a request: it has been counted; its handler is running
    since [t0]; the handler ended at [t1], the response is not counted yet;
    answered; given up by the client, or by a panic, at [t1]. *)
Inductive life :=
| Begun
| Running (t0 : N)
| Ended (t0 t1 : N)
| Answered (t0 t1 code : N)
| Dropped (t0 t1 : N).

(** [path], [method], life *)
Notation served := (bytes * bytes * life)%type.

Fixpoint put {A} (i : nat) (x : A) (l : list A) : list A :=
  match l, i with
  | [], _ => []
  | _ :: t, O => x :: t
  | y :: t, S i' => y :: put i' x t
  end.

(** The lives of the requests after the events, in order of arrival; every
    request takes the steps of the middleware in order, codes are those of the
    HTTP library. *)
Inductive lives : list app_event -> list served -> Prop :=
| lives_none : lives [] []
| lives_arrive : forall evs ls path m, lives evs ls ->
    lives (evs ++ [Arrive path m]) (ls ++ [(match path with Some p => p | None => str "unknown" end, method_label m, Begun)])
| lives_start : forall evs ls r p m now, lives evs ls -> nth_error ls r = Some (p, m, Begun) ->
    lives (evs ++ [Start r now]) (put r (p, m, Running now) ls)
| lives_stop : forall evs ls r p m t0 now now', lives evs ls -> nth_error ls r = Some (p, m, Running t0) -> now < 2 ^ 64 ->
    lives (evs ++ [Stop r now now']) (put r (p, m, Ended t0 now) ls)
| lives_respond : forall evs ls r p m t0 t1 code, lives evs ls -> nth_error ls r = Some (p, m, Ended t0 t1) -> 100 <= code <= 999 ->
    lives (evs ++ [Respond r code]) (put r (p, m, Answered t0 t1 code) ls)
| lives_cancel : forall evs ls r p m t0 now, lives evs ls -> nth_error ls r = Some (p, m, Running t0) -> now < 2 ^ 64 ->
    lives (evs ++ [Cancel r now]) (put r (p, m, Dropped t0 now) ls)
| lives_scrape : forall evs ls, lives evs ls -> lives (evs ++ [Scrape]) ls.

(** The paths of the requests that arrived. *)
Definition arrived (evs : list app_event) : list bytes :=
  flat_map (fun e => match e with Arrive (Some p) _ => [p] | Arrive None _ => [str "unknown"] | _ => [] end) evs.

(** How many scrapes there were. *)
Definition scrapes_in (evs : list app_event) : nat := length (filter (fun e => match e with Scrape => true | _ => false end) evs).

(** The requests satisfying [P], counted. *)
Definition number (P : served -> bool) (ls : list served) : N := N.of_nat (length (filter P ls)).
Definition same_bytes (a b : bytes) : bool := if list_eq_dec N.eq_dec a b then true else false.

(** for this path and method, *)
Definition about (p m : bytes) (q : served) : bool := same_bytes (fst (fst q)) p && same_bytes (snd (fst q)) m.
(** answered with this code, *)
Definition answered (code : N) (q : served) : bool :=
  match snd q with Answered _ _ c => c =? code | _ => false end.
(** answered, *)
Definition done (q : served) : bool := match snd q with Answered _ _ _ => true | _ => false end.
(** in the server, *)
Definition inside (q : served) : bool := match snd q with Begun | Running _ => true | _ => false end.
(** between the end of the handler and its response being counted, *)
Definition between (q : served) : bool := match snd q with Ended _ _ => true | _ => false end.
(** given up. *)
Definition dropped (q : served) : bool := match snd q with Dropped _ _ => true | _ => false end.

(** The handler's time in seconds; no time if the clock went backwards. *)
Definition seconds (t0 t1 : N) : f64 :=
  as_secs_f64 {| d_secs := (t1 - t0) / 10 ^ 9; d_nanos := (t1 - t0) mod 10 ^ 9 |}.

(** The times of the handlers for a path and method, in the order they ended. *)
Definition time_of (p m : bytes) (ls : list served) (r : nat) : list f64 :=
  match nth_error ls r with
  | Some (p', m', Ended t0 t1) | Some (p', m', Answered t0 t1 _) | Some (p', m', Dropped t0 t1) =>
    if same_bytes p' p && same_bytes m' m then [seconds t0 t1] else []
  | _ => []
  end.
Definition times (p m : bytes) (evs : list app_event) (ls : list served) : list f64 :=
  flat_map (fun e => match e with Stop r _ _ | Cancel r _ => time_of p m ls r | _ => [] end) evs.

(** ** The text *)

(** A family: HELP, TYPE and a block of lines for each of the [keys]. *)
Definition family_of {T} (name help : bytes) (k : kind) (keys : T -> Prop) (lines : T -> list item -> Prop) (items : list item) : Prop :=
  exists gs parts, items = Help name help :: Type_ name (kind_word k) :: concat parts /\
    NoDup gs /\ (forall g, In g gs <-> keys g) /\ Forall2 lines gs parts.

Section Text.
  Variable heck : rename_all -> bytes -> bytes.
  Variable float_text : f64 -> bytes.

  (** The labels of a request, and of a response. *)
  Definition request_labels (p m : bytes) : labels := [(str "path", LStr p); (str "method", LStr (heck Snake m))].
  Definition response_labels (p m : bytes) (code : N) : labels := request_labels p m ++ [(str "status", LInt (Z.of_N code))].

  (** A body tells about the requests [ls] served by the events [evs], with the
      thresholds [ts]. *)
  Definition tells (ts : list f64) (evs : list app_event) (ls : list served) (body : bytes) : Prop :=
    exists items l1 l2 l3, parse body = Some items /\ filter meaningful items = l1 ++ l2 ++ l3 /\
      family_of (str "http_requests") (str "total number of HTTP requests by path and method") KCounter
        (fun q => 0 < number (about (fst q) (snd q)) ls)
        (fun q part => exists i, part = [i] /\
           int_sample float_text (str "http_requests") (request_labels (fst q) (snd q)) (Z.of_N (number (about (fst q) (snd q)) ls)) i) l1 /\
      family_of (str "http_responses") (str "total number of HTTP responses by path, method, and status") KCounter
        (fun q => 0 < number (fun x => about (fst (fst q)) (snd (fst q)) x && answered (snd q) x) ls)
        (fun q part => exists i, part = [i] /\
           int_sample float_text (str "http_responses") (response_labels (fst (fst q)) (snd (fst q)) (snd q))
             (Z.of_N (number (fun x => about (fst (fst q)) (snd (fst q)) x && answered (snd q) x) ls)) i) l2 /\
      family_of (str "http_request_duration") (str "duration of HTTP handlers by path and method") KHistogram
        (fun q => times (fst q) (snd q) evs ls <> [])
        (fun q part => observed_lines float_text [] (str "http_request_duration") (request_labels (fst q) (snd q)) ts
           (times (fst q) (snd q) evs ls) part) l3.
End Text.

(** The thresholds: 0.0001, and 15 times twice the one before (one more in the
    exponent of the float). *)
Definition doubling : list f64 := map (fun i => 4547007122018943789 + N.of_nat i * 2 ^ 52) (seq 0 16).

(** [f64::powi] is exact on the powers of two in question; Rust leaves its
    rounding open. *)
Definition powi_exact (powi : f64 -> Z -> f64) : Prop :=
  forall i, (0 <= i < 16)%Z -> powi (f_of_Z 2) i = f_of_Z (2 ^ i).
