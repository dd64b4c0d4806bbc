(** A run of the example server (C67). *)
From Coq Require Import String List NArith ZArith Bool Lia.
From Verif Require Import Base Writer NameModel LabelModel VecModel VecSpec FloatModel EncoderModel TextModel TextSpec TextExamples MetricModel ScrapeExamples EndExamples AppModel AppSpec.
Import ListNotations.
Local Open Scope N_scope.

(** Powers of two, exactly. *)
Definition ex_powi (x : f64) (i : Z) : f64 := f_of_Z (2 ^ i).

(** An interner for two paths. *)
Definition ex_accepts (l : list bytes) (v : bytes) : bool := (length l <? 2)%nat.

Definition ex_server : outcome (server Debug) :=
  app_new Debug (ex_world_at 0) (ex_world_at 0) (ex_world_at (hist_new 16)) ex_powi 3 (SInterner ex_accepts []).
Definition ex_serve (evs : list app_event) : outcome (list bytes) :=
  let! a := ex_server in
  let! q := app_run Debug StdFrom182 ex_heck ex_ryu (ex_world_at 0) (ex_world_at 0) (ex_world_at (hist_new 16)) evs a in
  Done (snd q).

Definition ex_visit : list app_event :=
  [ Arrive (Some (str "/a")) (str "GET"); Start 0 5000; Arrive None (str "PUT"); Scrape;
    Stop 0 3005000 3006000; Start 1 4000000; Respond 0 404; Cancel 1 5000000 ].
Definition ex_visitors : list served :=
  [ (str "/a", str "Get", Answered 5000 3005000 404); (str "unknown", str "Other", Dropped 4000000 5000000) ].
Lemma ex_lives : lives ex_visit ex_visitors.
Proof.
  assert (N64 : forall x, (x <? 2 ^ 64) = true -> x < 2 ^ 64) by (intros x; apply N.ltb_lt).
  pose proof (lives_arrive [] [] (Some (str "/a")) (str "GET") lives_none) as H. cbn in H.
  pose proof (lives_start _ _ 0 _ _ 5000 H eq_refl) as H1. cbn in H1.
  pose proof (lives_arrive _ _ None (str "PUT") H1) as H2. cbn in H2.
  pose proof (lives_scrape _ _ H2) as H3. cbn in H3.
  pose proof (lives_stop _ _ 0 _ _ _ 3005000 3006000 H3 eq_refl (N64 3005000 eq_refl)) as H4. cbn in H4.
  pose proof (lives_start _ _ 1 _ _ 4000000 H4 eq_refl) as H5. cbn in H5.
  assert (C : 100 <= 404 <= 999) by lia.
  pose proof (lives_respond _ _ 0 _ _ _ _ 404 H5 eq_refl C) as H6. cbn in H6.
  exact (lives_cancel _ _ 1 _ _ _ 5000000 H6 eq_refl (N64 5000000 eq_refl)).
Qed.

(** A text by lines. *)
Fixpoint lines_of (b : bytes) : list bytes :=
  match b with
  | [] => [[]]
  | x :: t => if x =? 10 then [] :: lines_of t else match lines_of t with l :: ls => (x :: l) :: ls | [] => [[x]] end
  end.

(** What the first scrape of [ex_visit] says. *)
Definition ex_first_body : bytes := concat (map (fun s => str s ++ [10]) [
  "# HELP http_requests total number of HTTP requests by path and method";
  "# TYPE http_requests counter";
  "http_requests{path=""unknown"",method=""other""} 1";
  "http_requests{path=""/a"",method=""get""} 1";
  "";
  "# HELP http_responses total number of HTTP responses by path, method, and status";
  "# TYPE http_responses counter";
  "# HELP http_request_duration duration of HTTP handlers by path and method";
  "# TYPE http_request_duration histogram"]%string).
Definition ex_last_body : bytes := match ex_serve (ex_visit ++ [Scrape]) with Done (_ :: b :: _) => b | _ => [] end.
