(** Concrete lookups by several threads. *)
From Coq Require Import String List NArith ZArith Bool Arith.
From Verif Require Import Base LabelModel LabelSpec ConcModel ConcSpec ConcExamples ConcVecExamples ConcLabelModel ConcLabelSpec.
Import ListNotations.
Local Open Scope nat_scope.

Definition any_interner : label_set := SInterner (fun _ _ => true) [].

(** Users and peers share an interner of two strings, paths have their own. *)
Definition ex_lfields : group_set :=
  [{| f_name := str "path"; f_rename := None; f_set := any_interner |};
   {| f_name := str "verb"; f_rename := None; f_set := SFixedSet [str "get"; str "put"] |};
   {| f_name := str "user"; f_rename := None; f_set := any_interner |};
   {| f_name := str "peer"; f_rename := None; f_set := any_interner |}]%string.
Definition ex_loc (n : bytes) : nat := if beqb n (str "path") then 0 else 1.
Definition ex_accepts (l : nat) (known : list bytes) (v : bytes) : bool :=
  match l with 0 => true | _ => Nat.ltb (List.length known) 2 end.
Definition ex_interners : interners := fun l => match l with 0 => [str "/old"]%string | _ => [] end.

Definition ex_request (p v u q : String.string) : group_val :=
  [(str "path", str p); (str "verb", str v); (str "user", str u); (str "peer", str q)]%string.

Definition ex_label_calls : list (list label_op) :=
  [[LEncode (ex_request "/a" "get" "ann" "bob"); LDecode (0%N, [2%N; 0%N; 1%N])];
   [LEncode (ex_request "/b" "put" "bob" "ann"); LEncode (ex_request "/b" "put" "eve" "ann")];
   [LIntern 0 (str "/b"); LEncode (ex_request "/a" "pop" "ann" "ann"); LEncode (ex_request "/a" "get" "ann" "bob")]]%string.
Definition ex_label_schedule : schedule := rounds 40 [(0, 0); (1, 0); (2, 0)].
Definition ex_label_run (s : schedule) :=
  run (label_machine Debug ex_lfields ex_loc ex_accepts) (calls (at_nat ex_label_calls)) s (start_config ex_interners).

(** Two separate interners and two lookups that cross. *)
Definition ex_pair_fields : group_set :=
  [{| f_name := str "a"; f_rename := None; f_set := any_interner |};
   {| f_name := str "b"; f_rename := None; f_set := any_interner |}]%string.
Definition ex_pair (x y : String.string) : group_val := [(str "a", str x); (str "b", str y)]%string.
Definition ex_pair_loc (n : bytes) : nat := if beqb n (str "a") then 0 else 1.
Definition ex_pair_calls : list (list label_op) := [[LEncode (ex_pair "x" "y")]; [LEncode (ex_pair "u" "w")]]%string.
Definition ex_pair_schedule : schedule :=
  [(0, 0); (0, 0); (0, 0); (1, 0); (1, 0); (1, 0); (1, 0); (0, 0); (0, 0); (1, 0)].
Definition ex_pair_end :=
  run (label_machine Debug ex_pair_fields ex_pair_loc (fun _ _ _ => true)) (calls (at_nat ex_pair_calls)) ex_pair_schedule
    (start_config (fun _ => [])).

Definition ex_get_ann : group_val := ex_request "/a" "get" "ann" "bob".
