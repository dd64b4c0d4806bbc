(** The text encoder: core/src/text.rs *)
From Coq Require Import String List NArith ZArith Bool.
From Verif Require Import Base Writer NameModel LabelModel FloatModel EncoderModel.
Import ListNotations.
Local Open Scope N_scope.

(** text.rs:30-34 [State] *)
Inductive tstate := TInfo | TMetrics.

(** text.rs:24-28 [TextEncoder] *)
Record text_enc := { te_state : tstate; te_writer : writer }.

(** text.rs:78-83 [TextEncoder::new] *)
Definition text_new (w : writer) : text_enc := {| te_state := TInfo; te_writer := w |}.

(** [self.writer.write_all(b)] *)
Definition wr (b : bytes) : io text_enc := fun s =>
  let (w', r) := write_all b (te_writer s) in
  ({| te_state := te_state s; te_writer := w' |}, r).

Definition set_state (t : tstate) : io text_enc := fun s =>
  ({| te_state := t; te_writer := te_writer s |}, ROk).

(** [if self.state == State::Metrics { self.write_line()?; }]
    (text.rs:60-62, 101-103; write_line 91-93) *)
Definition line_if_metrics : io text_enc := fun s =>
  match te_state s with TMetrics => wr [10] s | TInfo => (s, ROk) end.

(** text.rs:55-71 [write_help]; the help text is written as it is *)
Definition text_write_help (n : mname) (help : bytes) : io text_enc :=
  line_if_metrics ;;?
  set_state TInfo ;;?
  wr (str "# HELP ") ;;?
  encode_utf8 wr n ;;?
  wr (str " ") ;;?
  wr help ;;?
  wr [10].

(** text.rs:37-49 [MetricType]; [Summary] and [Untyped] are never used by the
    metric types of the crate. *)
Inductive mtype := TyCounter | TyHistogram | TyGauge | TySummary | TyUntyped.

(** text.rs:108-114 *)
Definition mtype_text (t : mtype) : bytes :=
  match t with
  | TyCounter => str " counter" ++ [10]
  | TyHistogram => str " histogram" ++ [10]
  | TyGauge => str " gauge" ++ [10]
  | TySummary => str " summary" ++ [10]
  | TyUntyped => str " untyped" ++ [10]
  end.

(** text.rs:96-115 [TextEncoder::write_type] *)
Definition text_write_type (n : mname) (t : mtype) : io text_enc :=
  line_if_metrics ;;?
  set_state TInfo ;;?
  wr (str "# TYPE ") ;;?
  encode_utf8 wr n ;;?
  wr (mtype_text t).

(** The crate itoa: decimal digits of an i64. *)
Fixpoint digits (fuel : nat) (n : N) : bytes :=
  match fuel with
  | O => []
  | S f => if n <? 10 then [48 + n] else digits f (n / 10) ++ [48 + n mod 10]
  end.
(* the crate itoa, used in text.rs:129-132 *)
Definition itoa_nat (n : N) : bytes := digits (S (N.to_nat (N.log2 n))) n.
(* the crate itoa, used in text.rs:129-132 *)
Definition itoa (x : Z) : bytes :=
  match x with
  | Zneg p => 45 :: itoa_nat (Npos p)
  | _ => itoa_nat (Z.to_N x)
  end.

(** text.rs:409-413: what an escaped byte turns into *)
Definition escape_byte (b : N) : option bytes :=
  if b =? 92 then Some [92; 92]
  else if b =? 34 then Some [92; 34]
  else if b =? 10 then Some [92; 110]
  else None.

(** text.rs:404-417 [write_label_str_value].  [pending] is [s[i..j]]: the bytes
    since the last escaped one; [memchr3_iter] yields the positions of the three
    special bytes in order. *)
Fixpoint write_escaped (s : bytes) (pending : bytes) : io text_enc :=
  match s with
  | [] => wr pending
  | b :: rest =>
    match escape_byte b with
    | Some e => wr pending ;;? wr e ;;? write_escaped rest []
    | None => write_escaped rest (pending ++ [b])
    end
  end.
(* text.rs:404-417 *)
Definition write_label_str_value (s : bytes) : io text_enc := write_escaped s [].

(** group.rs:12-17 [MetricValue] *)
Inductive mvalue := VInt (x : Z) | VFloat (x : f64).

Section Text.
  (** The crate ryu: [ryu::Buffer::format]. *)
  Variable ryu : f64 -> bytes.
  Variable bd : build.

  (** text.rs:147-152 [Visitor::write_str] *)
  Definition visitor_write_str (x : bytes) : io text_enc :=
    wr [61; 34] ;;? write_label_str_value x ;;? wr [34].

  (** text.rs:133-145 [Visitor::write_float] *)
  Definition float_label_text (x : f64) : bytes :=
    if f_is_infinite x then
      if f_is_sign_positive x then str "+Inf" else str "-Inf"
    else if f_is_nan x then str "NaN"
    else ryu x.

  (** text.rs:129-131, 133-145, 147-152: [LabelVisitor] *)
  Definition visit_value (v : lvalue) : io text_enc :=
    match v with
    | LInt x => visitor_write_str (itoa x)
    | LFloat x => visitor_write_str (float_label_text x)
    | LStr s => visitor_write_str s
    end.

  (** text.rs:161-176 [GroupVisitor::write_value]; [first] becomes false before
      anything is written. *)
  Definition write_value (first : bool) (name : bytes) (v : lvalue) : io text_enc :=
    wr (if first then [123] else [44]) ;;? wr name ;;? visit_value v.

  (** text.rs:182-186: [labels.visit_values(&mut visitor)]; the results of the
      [write_value] calls are dropped by [visit_values]
      (label_group/to_tokens.rs:22-27, label/group.rs:120-125).  Returns the visitor's
      [first]. *)
  Fixpoint visit_values (ls : labels) (first : bool) (s : text_enc) : bool * text_enc :=
    match ls with
    | [] => (first, s)
    | (n, v) :: rest => visit_values rest false (fst (write_value first n v s))
    end.

  (** text.rs:192-199 *)
  Definition value_text (v : mvalue) : bytes :=
    match v with VInt x => itoa x | VFloat x => ryu x end.

  (** text.rs:118-201 [write_metric_value] *)
  Definition write_metric_value (n : mname) (ls : labels) (v : mvalue) : io text_enc :=
    set_state TMetrics ;;?
    encode_utf8 wr n ;;?
    fun s =>
      let (first, s') := visit_values ls true s in
      ((if first then ret_ok else wr [125]) ;;?
       wr (str " ") ;;?
       wr (value_text v) ;;?
       wr [10]) s'.

  (** text.rs:225-234 [HistogramLabelLe] *)
  Definition le_label (le : f64) : labels := [(str "le", LFloat le)].

  (** text.rs:239-266: the loop over the buckets, then [+Inf], [_sum], [_count].
      [for i in 0..N] indexes two arrays of length N, modelled as lists of the
      same length. *)
  Fixpoint collect_histogram (ts : list f64) (bs : list N) (inf : N) (sum : f64)
      (val : N) (ls : labels) (n : mname) : io text_enc :=
    match ts, bs with
    | le :: ts', b :: bs' => fun s =>
      match u_add bd val b with
      | Panic => (s, RPanic)
      | Done val' =>
        (write_metric_value (NSuffix n Bucket) (compose_labels ls (le_label le))
           (VInt (u64_as_i64 val')) ;;?
         collect_histogram ts' bs' inf sum val' ls n) s
      end
    | _, _ => fun s =>
      match u_add bd val inf with
      | Panic => (s, RPanic)
      | Done count =>
        (write_metric_value (NSuffix n Bucket) (compose_labels ls (le_label f_infinity))
           (VInt (u64_as_i64 count)) ;;?
         write_metric_value (NSuffix n Sum) ls (VFloat sum) ;;?
         write_metric_value (NSuffix n Count) ls (VInt (u64_as_i64 count))) s
      end
    end.

  (** [MetricEncoding<TextEncoder<W>>]: text.rs:271-291 (counter), 293-313
      (gauge), 315-331 (float gauge), 204-269 (histogram). *)
  Definition text_collect (m : metric) (ls : labels) (n : mname) : io text_enc :=
    match m with
    | MCounter c => write_metric_value n ls (VInt (u64_as_i64 c))
    | MGauge z => write_metric_value n ls (VInt z)
    | MFloatGauge x => write_metric_value n ls (VFloat x)
    | MHistogram ts bs inf sum => collect_histogram ts bs inf sum 0 ls n
    end.

  Definition text_kind (k : kind) : mtype :=
    match k with
    | KCounter => TyCounter
    | KGauge => TyGauge
    | KFloatGauge => TyGauge
    | KHistogram => TyHistogram
    end.

  (* text.rs:51-72 and 204-331 *)
  Definition text_encoder : encoder text_enc := {|
    e_help := text_write_help;
    e_type := fun k n => text_write_type n (text_kind k);
    e_collect := text_collect |}.

  (** text.rs:86-89 [TextEncoder::flush]; [flush_ok] is the writer's answer *)
  Definition text_flush (flush_ok : result) : io text_enc := fun s =>
    ({| te_state := TInfo; te_writer := te_writer s |}, flush_ok).

  (** text.rs:334-336 [BufferedTextEncoder], 360-368 [new]: a text encoder over
      a growing buffer, which never fails (text.rs:423-440). *)
  Definition buffered_new : text_enc := text_new (good_writer []).

  (** text.rs:348-355 [Unreachable]: an error becomes a panic *)
  Definition unreachable (a : io text_enc) : io text_enc := fun s =>
    let (s', r) := a s in (s', match r with ROk => ROk | _ => RPanic end).

  (** text.rs:357-364, 385-402 *)
  Definition buffered_encoder : encoder text_enc := {|
    e_help := fun n h => unreachable (text_write_help n h);
    e_type := fun k n => unreachable (text_write_type n (text_kind k));
    e_collect := fun m ls n => unreachable (text_collect m ls n) |}.

  (** text.rs:379-382 [finish]: flush, then take the buffer, leaving it empty *)
  Definition buffered_finish (s : text_enc) : text_enc * outcome bytes :=
    let (s', r) := unreachable (text_flush ROk) s in
    match r with
    | ROk => ({| te_state := te_state s';
                 te_writer := {| w_out := []; w_calls := w_calls (te_writer s');
                                 w_plan := w_plan (te_writer s') |} |},
              Done (w_out (te_writer s')))
    | _ => (s', Panic)
    end.
End Text.
