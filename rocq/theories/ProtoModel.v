(** The protobuf encoder: prometheus-proto/src/encoding.rs and
    prometheus-proto/src/lib.rs.  Lengths are computed in [N]: overflow of the
    usize additions is not modelled, it would need 2^64 bytes of labels. *)
From Coq Require Import String List NArith ZArith Bool.
From Verif Require Import Base Writer NameModel LabelModel FloatModel EncoderModel TextModel.
Import ListNotations.
Local Open Scope N_scope.

(* ------------------------------------------------------------------ *)
(** ** encoding.rs.  Functions that append to a buffer return what they append. *)

(** encoding.rs:14-22, the loop of [encode_varint]: at most ten rounds *)
Fixpoint varint_loop (rounds : nat) (value : N) : bytes :=
  match rounds with
  | O => []
  | S r =>
    if value <? 128 then [value]
    else N.lor (N.land value 127) 128 :: varint_loop r (N.shiftr value 7)
  end.

(** encoding.rs:9-23 [encode_varint] *)
Definition encode_varint (value : N) : bytes := varint_loop 10 value.

(** [u64::leading_zeros] of a non-zero number *)
Definition leading_zeros (x : N) : N := 63 - N.log2 x.

(** encoding.rs:28-32 [encoded_len_varint] *)
Definition encoded_len_varint (value : N) : N :=
  (N.lxor (leading_zeros (N.lor value 1)) 63 * 9 + 73) / 64.

(** encoding.rs:36-43 [WireType] *)
Definition wt_varint : N := 0.
Definition wt_sixty_four_bit : N := 1.
Definition wt_length_delimited : N := 2.

(** encoding.rs:51-58 [encode_key]; the debug assertion holds for the constant
    tags 1 to 4 in use. *)
Definition encode_key (tag wire_type : N) : bytes :=
  encode_varint (N.lor (N.shiftl tag 3) wire_type).

(** encoding.rs:63-65 [key_len] *)
Definition key_len (tag : N) : N := encoded_len_varint (N.shiftl tag 3).

(** encoding.rs:67-76 [int32::encode], for values that are not negative *)
Definition int32_encode (tag value : N) : bytes :=
  encode_key tag wt_varint ++ encode_varint value.

(** [BufMut::put_u64_le]: the eight bytes, low byte first *)
Fixpoint le_bytes (n : nat) (x : N) : bytes :=
  match n with O => [] | S m => x mod 256 :: le_bytes m (x / 256) end.

(** encoding.rs:78-86 [double::encode] *)
Definition double_encode (tag : N) (value : f64) : bytes :=
  encode_key tag wt_sixty_four_bit ++ le_bytes 8 value.

(** encoding.rs:88-91 [double::encoded_len] *)
Definition double_len (tag : N) : N := key_len tag + 8.

(** encoding.rs:97-104 [string::encode] *)
Definition string_encode (tag : N) (value : bytes) : bytes :=
  encode_key tag wt_length_delimited ++ encode_varint (nlen value) ++ value.

(** encoding.rs:106-109 [string::encoded_len] *)
Definition string_len (tag : N) (value : bytes) : N :=
  key_len tag + encoded_len_varint (nlen value) + nlen value.

(* ------------------------------------------------------------------ *)
(** ** lib.rs *)

(** lib.rs:62-67 [State] *)
Inductive pstate := PInit | PHelp | PMetrics.

(** lib.rs:19-23 [ProtoEncoder] *)
Record proto_enc := { pe_state : pstate; pe_writer : writer; pe_buf : bytes }.

(** lib.rs:29-35 [new] *)
Definition proto_new (w : writer) : proto_enc :=
  {| pe_state := PInit; pe_writer := w; pe_buf := [] |}.

Definition set_pstate (t : pstate) (s : proto_enc) : proto_enc :=
  {| pe_state := t; pe_writer := pe_writer s; pe_buf := pe_buf s |}.

(** Append to [enc.buf], a [Vec<u8>]: never fails. *)
Definition put (b : bytes) : io proto_enc := fun s =>
  ({| pe_state := pe_state s; pe_writer := pe_writer s; pe_buf := pe_buf s ++ b |}, ROk).

(** The ten bytes kept free at the front of the buffer ([resize(10, 0)]). *)
(* prometheus-proto/src/lib.rs:53-55 *)
Definition header : bytes := repeat 0 10.

(** [Vec::resize(10, 0)] *)
(* prometheus-proto/src/lib.rs:53-55 *)
Definition resize10 (b : bytes) : bytes := firstn 10 b ++ repeat 0 (10 - length b).

(** lib.rs:179-193 [encode_message], with the debug assertion *)
Definition encode_message (bd : build) (tag len : N) (message : outcome bytes) : outcome bytes :=
  let! m := message in
  let! _ := debug_assert bd (nlen m =? len) in
  Done (encode_key tag wt_length_delimited ++ encode_varint len ++ m).

(** lib.rs:195-197 [message_len] *)
Definition message_len (tag len : N) : N := key_len tag + encoded_len_varint len + len.

Section Proto.
  (** The crate ryu: [ryu::Buffer::format]. *)
  Variable ryu : f64 -> bytes.
  Variable bd : build.

  (** lib.rs:43-60 [flush_buf].  [buf.len() - 10] panics in debug builds if the
      buffer is shorter; in release builds the length wraps to a ten byte varint
      and writing it into the slice panics. *)
  Definition flush_buf : io proto_enc := fun s =>
    match pe_state s with
    | PMetrics =>
      let s1 := set_pstate PInit s in
      if nlen (pe_buf s) <? 10 then (s1, RPanic) else
      let len := nlen (pe_buf s) - 10 in
      let offset := N.to_nat (10 - encoded_len_varint len) in
      let v := encode_varint len in
      let buf := firstn offset (pe_buf s) ++ v ++ skipn (offset + length v) (pe_buf s) in
      let (w, r) := write_all (skipn offset buf) (pe_writer s) in
      match r with
      | ROk => ({| pe_state := PInit; pe_writer := w; pe_buf := resize10 buf |}, ROk)
      | _ => ({| pe_state := PInit; pe_writer := w; pe_buf := buf |}, r)
      end
    | _ =>
      let s1 := match pe_buf s with
                | [] => {| pe_state := pe_state s; pe_writer := pe_writer s; pe_buf := header |}
                | _ => s
                end in
      (s1, match debug_assert bd (10 <=? nlen (pe_buf s1)) with Done _ => ROk | Panic => RPanic end)
    end.

  (** lib.rs:38-41 [flush]; [flush_ok] is the writer's answer *)
  Definition proto_flush (flush_ok : result) : io proto_enc :=
    flush_buf ;;? fun s => (s, flush_ok).

  (** The name field, written the same way in lib.rs:95-98, 227-230, 282-285,
      337-340 *)
  Definition put_name (n : mname) : io proto_enc :=
    put (encode_key 1 wt_length_delimited) ;;?
    put (encode_varint (encode_len n)) ;;?
    encode_utf8 put n.

  (** lib.rs:88-106 [write_help] *)
  Definition proto_write_help (n : mname) (help : bytes) : io proto_enc :=
    flush_buf ;;?
    put_name n ;;?
    put (string_encode 2 help) ;;?
    (fun s => (set_pstate PHelp s, ROk)).

  (** lib.rs:155-171: the string written for a label value *)
  Definition proto_value_text (v : lvalue) : bytes :=
    match v with
    | LInt x => itoa x
    | LFloat x =>
      if f_is_infinite x then
        if f_is_sign_positive x then str "+Inf" else str "-Inf"
      else if f_is_nan x then str "NaN"
      else ryu x
    | LStr s => s
    end.

  (** lib.rs:110-133 [LenVisitor], which goes through the same cases *)
  Definition len_visit (v : lvalue) : N :=
    match v with
    | LInt x => string_len 2 (itoa x)
    | LFloat x =>
      if f_is_infinite x then
        if f_is_sign_positive x then string_len 2 (str "+Inf") else string_len 2 (str "-Inf")
      else if f_is_nan x then string_len 2 (str "NaN")
      else string_len 2 (ryu x)
    | LStr s => string_len 2 s
    end.

  (** lib.rs:135-148 [GroupLenVisitor] over all labels *)
  Fixpoint group_len (ls : labels) : N :=
    match ls with
    | [] => 0
    | (n, v) :: rest => message_len 1 (string_len 1 n + len_visit v) + group_len rest
    end.

  (** lib.rs:199-217 [GroupVisitor::write_value] *)
  Definition proto_write_value (n : bytes) (v : lvalue) : outcome bytes :=
    encode_message bd 1 (string_len 1 n + len_visit v)
      (Done (string_encode 1 n ++ string_encode 2 (proto_value_text v))).

  Fixpoint proto_visit_values (ls : labels) : outcome bytes :=
    match ls with
    | [] => Done []
    | (n, v) :: rest =>
      let! a := proto_write_value n v in
      let! b := proto_visit_values rest in
      Done (a ++ b)
    end.

  (** lib.rs:220-238 (counter), 275-293 (gauge), 330-348 (float gauge).
      Histograms have no protobuf encoding, collecting one does not compile; the
      model panics. *)
  Definition proto_write_type (k : kind) (n : mname) : io proto_enc :=
    match k with
    | KHistogram => fun s => (s, RPanic)
    | _ =>
      flush_buf ;;?
      (fun s => match pe_state s with PInit => put_name n s | _ => (s, ROk) end) ;;?
      put (int32_encode 3 (match k with KCounter => 0 | _ => 1 end))
    end.

  (** The body shared by lib.rs:247-270, 302-325, 357-380: [tag] is 3 (counter)
      or 2 (gauge); the length is computed with tag 3 for all of them. *)
  Definition proto_put_metric (tag : N) (ls : labels) (value : f64) : io proto_enc := fun s =>
    let value_len := double_len 1 in
    let metric_len := group_len ls + message_len 3 value_len in
    match encode_message bd 4 metric_len
            (let! a := proto_visit_values ls in
             let! b := encode_message bd tag value_len (Done (double_encode 1 value)) in
             Done (a ++ b)) with
    | Done m => put m (set_pstate PMetrics s)
    | Panic => (set_pstate PMetrics s, RPanic)
    end.

  (** lib.rs:240-271, 295-326, 350-381 [collect_into]; the name is not used *)
  Definition proto_collect (m : metric) (ls : labels) (n : mname) : io proto_enc :=
    match m with
    | MCounter c => proto_put_metric 3 ls (f_of_Z (Z.of_N c))
    | MGauge z => proto_put_metric 2 ls (f_of_Z z)
    | MFloatGauge x => proto_put_metric 2 ls x
    | MHistogram _ _ _ _ => fun s => (s, RPanic)
    end.

  Definition proto_encoder : encoder proto_enc := {|
    e_help := proto_write_help;
    e_type := proto_write_type;
    e_collect := proto_collect |}.
End Proto.
