(** Property C63: threads looking up labels in the same set.  [prog] is any
    program of the threads, [s] any schedule, [m0] what the interners contain at
    the start, [loc] says which fields share an interner. *)
From Coq Require Import String List NArith ZArith Bool Arith Lia.
From Verif Require Import Base LabelModel LabelSpec ConcModel ConcSpec ConcExamples ConcVecExamples ConcLabelModel ConcLabelSpec
  ConcLabelTheorems ConcLabelExamples.
Import ListNotations.

(** A lookup never panics.  If it gives an id, then from then on decoding the id
    gives the group and looking the group up again gives the id and changes
    nothing. *)
Theorem C63_lookups : forall bd fields loc accepts m0 prog s i g r,
  sound_set fields -> (forall l, NoDup (m0 l)) -> lookups_shaped fields prog ->
  let c := run (label_machine bd fields loc accepts) prog s (start_config m0) in
  let now := current fields loc accepts (c_sh c) in
  In (LEncode g, r) (t_done (c_th c i)) ->
  r = LId None \/
  exists u, r = LId (Some u) /\ group_decode bd now u = Done g /\ group_encode bd now g = Done (now, Some u).
Proof. exact label_lookups. Qed.
Print Assumptions C63_lookups.

(** One id per group and one group per id, whichever threads asked. *)
Theorem C63_ids_unique : forall bd fields loc accepts m0 prog s,
  sound_set fields -> (forall l, NoDup (m0 l)) -> lookups_shaped fields prog ->
  let c := run (label_machine bd fields loc accepts) prog s (start_config m0) in
  forall i j g1 g2 u1 u2,
    In (LEncode g1, LId (Some u1)) (t_done (c_th c i)) -> In (LEncode g2, LId (Some u2)) (t_done (c_th c j)) ->
    (u1 = u2 <-> g1 = g2).
Proof. exact label_unique. Qed.
Print Assumptions C63_ids_unique.

(** Decoding of an id that some thread has got already: all the decodings of it
    that thread [j] starts later return the group, whatever others add meanwhile. *)
Theorem C63_decodes : forall bd fields loc accepts m0 prog s1 s2,
  sound_set fields -> (forall l, NoDup (m0 l)) -> lookups_shaped fields prog ->
  let c1 := run (label_machine bd fields loc accepts) prog s1 (start_config m0) in
  let c2 := run (label_machine bd fields loc accepts) prog (s1 ++ s2) (start_config m0) in
  forall i g u, In (LEncode g, LId (Some u)) (t_done (c_th c1 i)) ->
  forall j, t_cur (c_th c1 j) = None ->
  exists later, t_done (c_th c2 j) = t_done (c_th c1 j) ++ later /\
    forall r, In (LDecode u, r) later -> r = LGroup g.
Proof. exact label_decodes. Qed.
Print Assumptions C63_decodes.

(** A group is refused only if, at some moment, one of its fields refuses its
    value. *)
Theorem C63_refused_for_a_reason : forall bd fields loc accepts m0 prog s i g,
  sound_set fields -> (forall l, NoDup (m0 l)) -> lookups_shaped fields prog ->
  In (LEncode g, LId None) (t_done (c_th (run (label_machine bd fields loc accepts) prog s (start_config m0)) i)) ->
  exists s1 s2 f v, s = s1 ++ s2 /\
    In f (current fields loc accepts (c_sh (run (label_machine bd fields loc accepts) prog s1 (start_config m0)))) /\
    field_value g (f_name f) v /\ refuses f v.
Proof. exact label_rejection. Qed.
Print Assumptions C63_refused_for_a_reason.

(** A value no fixed field knows is always refused. *)
Theorem C63_fixed_refuses : forall bd fields loc accepts m0 prog s i g r f v,
  sound_set fields -> (forall l, NoDup (m0 l)) -> lookups_shaped fields prog ->
  In f fields -> is_dynamic (f_set f) = false -> field_value g (f_name f) v -> refuses f v ->
  In (LEncode g, r) (t_done (c_th (run (label_machine bd fields loc accepts) prog s (start_config m0)) i)) ->
  r = LId None.
Proof. exact label_fixed_rejection. Qed.
Print Assumptions C63_fixed_refuses.

(** A thread that is not interrupted does what the sequential functions of
    C01 to C07 do, if no two fields share an interner. *)
Theorem C63_alone : forall bd fields loc accepts, NoDup (map f_name fields) ->
  (forall f f', In f fields -> In f' fields -> is_dynamic (f_set f) = true -> is_dynamic (f_set f') = true ->
     loc (f_name f) = loc (f_name f') -> f_name f = f_name f') ->
  forall prog c i g, t_cur (c_th c i) = None -> prog i (t_done (c_th c i)) = Some (LEncode g) ->
  exists s, Forall (fun ic => fst ic = i) s /\
    let c' := run (label_machine bd fields loc accepts) prog s c in
    exists r, c_th c' i = {| t_cur := None; t_done := t_done (c_th c i) ++ [(LEncode g, r)] |} /\
      match group_encode bd (current fields loc accepts (c_sh c)) g with
      | Done (after, o) => after = current fields loc accepts (c_sh c') /\ r = LId o
      | Panic => r = LPanic
      end.
Proof. exact encode_alone. Qed.
Print Assumptions C63_alone.

Theorem C63_decode_alone : forall bd fields loc accepts prog c i u,
  t_cur (c_th c i) = None -> prog i (t_done (c_th c i)) = Some (LDecode u) ->
  exists s, Forall (fun ic => fst ic = i) s /\
    let c' := run (label_machine bd fields loc accepts) prog s c in
    c_sh c' = c_sh c /\
    c_th c' i = {| t_cur := None; t_done := t_done (c_th c i) ++
      [(LDecode u, match group_decode bd (current fields loc accepts (c_sh c)) u with Done g => LGroup g | Panic => LPanic end)] |}.
Proof. exact decode_alone. Qed.
Print Assumptions C63_decode_alone.

(** Three threads, two interners, one of them full after two strings and shared
    by two fields. *)
Example C63_hypotheses : sound_set ex_lfields /\ (forall l, NoDup (ex_interners l)) /\
  lookups_shaped ex_lfields (calls (at_nat ex_label_calls)).
Proof.
  split; [|split].
  - split; [split|vm_compute; split; reflexivity].
    + cbn. repeat (constructor; [vm_compute; intuition discriminate|]). constructor.
    + repeat (constructor; [cbn; repeat (constructor; [vm_compute; intuition discriminate|]); constructor|]). constructor.
  - intros [|l]; cbn; repeat (constructor; [easy|]); constructor.
  - intros i done g H. unfold calls in H. destruct i as [|[|[|i]]];
      [destruct done as [|? [|? [|? done]]]..|destruct done; destruct i; discriminate H]; cbn in H;
      try discriminate H; try (injection H as <-; reflexivity); now destruct (length done).
Qed.

Example C63_case : let c := ex_label_run ex_label_schedule in
  t_done (c_th c 0) = [(LEncode ex_get_ann, LId (Some (0%N, [2%N; 0%N; 1%N]))); (LDecode (0%N, [2%N; 0%N; 1%N]), LGroup ex_get_ann)] /\
  t_done (c_th c 1) = [(LEncode (ex_request "/b" "put" "bob" "ann"), LId (Some (1%N, [1%N; 1%N; 0%N])));
                       (LEncode (ex_request "/b" "put" "eve" "ann"), LId None)] /\
  t_done (c_th c 2) = [(LIntern 0 (str "/b"), LKey (Some 1%N)); (LEncode (ex_request "/a" "pop" "ann" "ann"), LId None);
                       (LEncode ex_get_ann, LId (Some (0%N, [2%N; 0%N; 1%N])))] /\
  t_cur (c_th (ex_label_run (firstn 18 ex_label_schedule)) 0) = None /\
  c_sh c 0 = [str "/old"; str "/b"; str "/a"]%string /\ c_sh c 1 = [str "ann"; str "bob"]%string.
Proof. vm_compute. repeat split. Qed.

(** Lookups are not one at a time: two threads can get ids that no order of the
    two lookups would give.  Nothing above depends on it. *)
Example C63_lookups_interleave : let c := ex_pair_end in
  t_done (c_th c 0) = [(LEncode (ex_pair "x" "y"), LId (Some (0%N, [0%N; 1%N])))] /\
  t_done (c_th c 1) = [(LEncode (ex_pair "u" "w"), LId (Some (0%N, [1%N; 0%N])))] /\
  let two g g' := match group_encode Debug ex_pair_fields g with
                  | Done (s', r) => match group_encode Debug s' g' with Done (_, r') => Some (r, r') | Panic => None end
                  | Panic => None
                  end in
  two (ex_pair "x" "y") (ex_pair "u" "w") = Some (Some (0%N, [0%N; 0%N]), Some (0%N, [1%N; 1%N])) /\
  two (ex_pair "u" "w") (ex_pair "x" "y") = Some (Some (0%N, [0%N; 0%N]), Some (0%N, [1%N; 1%N])).
Proof. vm_compute. repeat split. Qed.

(** The hypotheses of [C63_alone]. *)
Example C63_alone_case : NoDup (map f_name ex_pair_fields) /\
  (forall f f', In f ex_pair_fields -> In f' ex_pair_fields -> is_dynamic (f_set f) = true -> is_dynamic (f_set f') = true ->
     ex_pair_loc (f_name f) = ex_pair_loc (f_name f') -> f_name f = f_name f') /\
  calls (at_nat ex_pair_calls) 1 (@nil (label_op * label_res)) = Some (LEncode (ex_pair "u" "w")).
Proof.
  split; [|split].
  - repeat (constructor; [vm_compute; intuition discriminate|]). constructor.
  - intros f f' [<-|[<-|[]]] [<-|[<-|[]]] _ _; vm_compute; congruence.
  - reflexivity.
Qed.
