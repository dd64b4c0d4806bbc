(** What a dense vec shared by threads should do: cells that have a metric or
    not, and the callers' variables. *)
From Coq Require Import List NArith ZArith Bool Arith.
From Verif Require Import Base FloatModel MetricModel ConcModel ConcSpec ConcDenseModel.
Import ListNotations.

Section Spec.
  Context {Op Res St : Type}.
  Variable spec : nat -> Op -> St -> option (St * Res).
  Variable st_new : St.
  Variable card : nat.

  Record adense := { ad_tab : nat -> option St; ad_env : nat -> nat -> option nat }.
  Definition ad_new : adense := {| ad_tab := fun _ => None; ad_env := fun _ _ => None |}.

  Definition ad_set (k : nat) (x : St) (a : adense) : adense :=
    {| ad_tab := upd (ad_tab a) k (Some x); ad_env := ad_env a |}.
  Definition ad_bind (i h k : nat) (a : adense) : adense :=
    {| ad_tab := ad_tab a; ad_env := upd (ad_env a) i (upd (ad_env a i) h (Some k)) |}.

  Definition dense_spec (i : nat) (op : dense_op Op) (a : adense) : option (adense * dense_res Res) :=
    match op with
    | DGet h k =>
      if Nat.ltb k card then
        match ad_tab a k with
        | Some _ => Some (ad_bind i h k a, DUnit)
        | None => Some (ad_bind i h k (ad_set k st_new a), DUnit)
        end
      else Some (a, DPanic)
    | DPeek h k =>
      if Nat.ltb k card then
        match ad_tab a k with
        | Some _ => Some (ad_bind i h k a, DFound true)
        | None => Some (a, DFound false)
        end
      else Some (a, DBad)
    | DUse h k u =>
      match ad_env a i h with
      | None => Some (a, DBad)
      | Some k' =>
        if Nat.eqb k' k then
          match ad_tab a k with
          | None => None
          | Some x =>
            match spec i u x with
            | None => None
            | Some (x', r) => Some (ad_set k x' a, DVal r)
            end
          end
        else Some (a, DBad)
      end
    end.

  (** The calls made on the metric of cell [k]. *)
  Definition on_cell (k : nat) (log : list (@entry (dense_op Op) (dense_res Res))) : list (@entry Op Res) :=
    flat_map (fun e => match e with (i, DUse _ k' u, DVal r) => if Nat.eqb k' k then [(i, u, r)] else [] | _ => [] end) log.

  (** Has cell [k] been asked for? *)
  Definition asked (k : nat) (log : list (@entry (dense_op Op) (dense_res Res))) : bool :=
    existsb (fun e => match e with (_, DGet _ k', DUnit) => Nat.eqb k' k | _ => false end) log.
End Spec.
Arguments adense : clear implicits.

(** The metric of a cell. *)
Definition dense_lookup {Sh} (k : nat) (c : dvec Sh) : option Sh :=
  match d_cells c k with CFull _ sh => Some sh | _ => None end.

(** An amount kept by a metric: what a call on cell [k] adds to it. *)
Definition dense_flow {Op Res} (add : Op -> Res -> Z) (k : nat) (d : dense_op Op * dense_res Res) : Z :=
  match d with
  | (DUse _ k' u, DVal r) => if Nat.eqb k' k then add u r else 0
  | _ => 0
  end%Z.

Definition dense_counter_vec (card : nat) := dense_machine counter_machine 0%N card.
Definition dense_hist_vec (nb card : nat) := dense_machine hist_machine {| ch_lock := rw_free; ch_state := hist_new nb |} card.
