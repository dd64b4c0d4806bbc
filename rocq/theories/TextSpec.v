(** The Prometheus text exposition format, written from its documentation and
    without reference to the encoder: a parser from bytes to lines, the UTF-8
    grammar, and what the lines of a metric have to say. *)
From Coq Require Import String List NArith ZArith Bool.
From Verif Require Import Base NameModel NameSpec LabelModel FloatModel EncoderModel.
Import ListNotations.
Local Open Scope N_scope.

(* ------------------------------------------------------------------ *)
(** ** Lines *)

(** Every line ends with a line feed, also the last one. *)
Fixpoint split_lines_acc (acc : bytes) (s : bytes) : option (list bytes) :=
  match s with
  | [] => match acc with [] => Some [] | _ => None end
  | b :: t =>
    if b =? 10 then option_map (cons (rev acc)) (split_lines_acc [] t)
    else split_lines_acc (b :: acc) t
  end.
Definition split_lines (s : bytes) : option (list bytes) := split_lines_acc [] s.

(** One line of an exposition. *)
Inductive item :=
| Blank
| Comment
| Help (name help : bytes)
| Type_ (name word : bytes)
| Sample (name : bytes) (ls : list (bytes * bytes)) (value : bytes) (timestamp : option bytes).

(* ------------------------------------------------------------------ *)
(** ** Tokens *)

Definition blank (b : N) : bool := (b =? 32) || (b =? 9).
Definition between (lo hi b : N) : bool := (lo <=? b) && (b <=? hi).
Definition letter (b : N) : bool := between 97 122 b || between 65 90 b.
Definition digit (b : N) : bool := between 48 57 b.
Definition name_start (b : N) : bool := letter b || (b =? 95) || (b =? 58).
Definition name_char (b : N) : bool := name_start b || digit b.
Definition label_start (b : N) : bool := letter b || (b =? 95).
Definition label_rest (b : N) : bool := label_start b || digit b.

Fixpoint skip_blanks (s : bytes) : bytes :=
  match s with
  | b :: t => if blank b then skip_blanks t else s
  | [] => []
  end.

(** The longest prefix of bytes satisfying [p], and the rest. *)
Fixpoint span (p : N -> bool) (s : bytes) : bytes * bytes :=
  match s with
  | b :: t => if p b then let (x, y) := span p t in (b :: x, y) else ([], s)
  | [] => ([], [])
  end.

Definition take_name (start rest : N -> bool) (s : bytes) : option (bytes * bytes) :=
  match s with
  | b :: t => if start b then let (x, y) := span rest t in Some (b :: x, y) else None
  | [] => None
  end.

(** HELP text: a backslash may only start the two sequences for a backslash
    and for a line feed. *)
Fixpoint unescape_help (s : bytes) : option bytes :=
  match s with
  | [] => Some []
  | b :: t =>
    if b =? 92 then
      match t with
      | [] => None
      | c :: t' =>
        if c =? 92 then option_map (cons 92) (unescape_help t')
        else if c =? 110 then option_map (cons 10) (unescape_help t')
        else None
      end
    else option_map (cons b) (unescape_help t)
  end.

(** The inside of a label value up to the closing quote: a backslash starts the
    sequences for backslash, quote and line feed; a raw line feed is illegal.
    Returns the value and what follows the quote. *)
Fixpoint quoted (s : bytes) : option (bytes * bytes) :=
  match s with
  | [] => None
  | b :: t =>
    if b =? 34 then Some ([], t)
    else if b =? 10 then None
    else if b =? 92 then
      match t with
      | [] => None
      | c :: t' =>
        if c =? 92 then option_map (fun p => (92 :: fst p, snd p)) (quoted t')
        else if c =? 34 then option_map (fun p => (34 :: fst p, snd p)) (quoted t')
        else if c =? 110 then option_map (fun p => (10 :: fst p, snd p)) (quoted t')
        else None
      end
    else option_map (fun p => (b :: fst p, snd p)) (quoted t)
  end.

(** [expect c s]: the next byte after blanks is [c]; what follows it. *)
Definition expect (c : N) (s : bytes) : option bytes :=
  match skip_blanks s with
  | b :: t => if b =? c then Some t else None
  | [] => None
  end.

(** Label pairs separated by commas (a trailing comma is allowed), closed by a
    brace; the opening brace has been read.  The fuel bounds the number of
    labels. *)
Fixpoint parse_labels (fuel : nat) (s : bytes) : option (list (bytes * bytes) * bytes) :=
  match fuel with
  | O => None
  | S fuel' =>
    match expect 125 s with
    | Some t => Some ([], t)
    | None =>
      match take_name label_start label_rest (skip_blanks s) with
      | None => None
      | Some (n, s2) =>
        match expect 61 s2 with
        | None => None
        | Some s3 =>
          match expect 34 s3 with
          | None => None
          | Some s4 =>
            match quoted s4 with
            | None => None
            | Some (v, s5) =>
              match expect 125 s5 with
              | Some t => Some ([(n, v)], t)
              | None =>
                match expect 44 s5 with
                | None => None
                | Some t =>
                  option_map (fun p => ((n, v) :: fst p, snd p)) (parse_labels fuel' t)
                end
              end
            end
          end
        end
      end
    end
  end.

Definition parse_value (name : bytes) (ls : list (bytes * bytes)) (s : bytes) : option item :=
  match span (fun b => negb (blank b)) (skip_blanks s) with
  | ([], _) => None
  | (v, s1) =>
    match skip_blanks s1 with
    | [] => Some (Sample name ls v None)
    | s2 =>
      let (t, s3) := span (fun b => negb (blank b)) s2 in
      match skip_blanks s3 with
      | [] => Some (Sample name ls v (Some t))
      | _ => None
      end
    end
  end.

Definition parse_sample (s : bytes) : option item :=
  match take_name name_start name_char s with
  | None => None
  | Some (n, s1) =>
    match expect 123 s1 with
    | Some s2 =>
      match parse_labels (S (length s2)) s2 with
      | None => None
      | Some (ls, s3) => parse_value n ls s3
      end
    | None => parse_value n [] s1
    end
  end.

Definition type_words : list bytes :=
  [str "counter"; str "gauge"; str "histogram"; str "summary"; str "untyped"].

(** The rest of a line that starts with '#'. *)
Definition parse_comment (s : bytes) : option item :=
  let (w, s1) := span (fun b => negb (blank b)) (skip_blanks s) in
  if beqb w (str "HELP") then
    match take_name name_start name_char (skip_blanks s1) with
    | None => None
    | Some (n, s2) =>
      match s2 with
      | [] => Some (Help n [])
      | b :: s3 => if blank b then option_map (Help n) (unescape_help (skip_blanks s3)) else None
      end
    end
  else if beqb w (str "TYPE") then
    match take_name name_start name_char (skip_blanks s1) with
    | None => None
    | Some (n, s2) =>
      let (ty, s3) := span (fun b => negb (blank b)) (skip_blanks s2) in
      match skip_blanks s3 with
      | [] => if existsb (beqb ty) type_words then Some (Type_ n ty) else None
      | _ => None
      end
    end
  else Some Comment.

Definition parse_line (s : bytes) : option item :=
  match skip_blanks s with
  | [] => Some Blank
  | b :: t => if b =? 35 then parse_comment t else parse_sample (b :: t)
  end.

Fixpoint parse_lines (l : list bytes) : option (list item) :=
  match l with
  | [] => Some []
  | x :: t =>
    match parse_line x, parse_lines t with
    | Some i, Some r => Some (i :: r)
    | _, _ => None
    end
  end.

Definition parse (s : bytes) : option (list item) :=
  match split_lines s with
  | None => None
  | Some l => parse_lines l
  end.

(** Blank lines and comments carry no information. *)
Definition meaningful (i : item) : bool :=
  match i with Blank | Comment => false | _ => true end.

(* ------------------------------------------------------------------ *)
(** ** Numbers *)

Fixpoint read_digits (acc : N) (s : bytes) : option N :=
  match s with
  | [] => Some acc
  | b :: t => if digit b then read_digits (10 * acc + (b - 48)) t else None
  end.

(** A decimal integer, with an optional minus sign. *)
Definition read_int (s : bytes) : option Z :=
  match s with
  | [] => None
  | b :: t =>
    if b =? 45 then
      match t with
      | [] => None
      | _ => option_map (fun n => (- Z.of_N n)%Z) (read_digits 0 t)
      end
    else option_map Z.of_N (read_digits 0 s)
  end.

(* ------------------------------------------------------------------ *)
(** ** What a collection consists of *)

(** Collecting a group means doing these things in order.  The name is given by
    its namespaces from the outside in and the name of the field. *)
Inductive event :=
| EvHelp (namespaces : list bytes) (base : bytes) (help : bytes)
| EvType (namespaces : list bytes) (base : bytes) (k : kind)
| EvSample (namespaces : list bytes) (base : bytes) (ls : labels) (m : metric)
| EvPanic.

(** What a metric is announced as. *)
Definition metric_kind (m : metric) : kind :=
  match m with
  | MCounter _ => KCounter
  | MGauge _ => KGauge
  | MFloatGauge _ => KFloatGauge
  | MHistogram _ _ _ _ => KHistogram
  end.

(** The family's own events. *)
Fixpoint family_events (nss : list bytes) (base : bytes) (f : family) : list event :=
  match f with
  | FamMetric m => [EvType nss base (metric_kind m); EvSample nss base [] m]
  | FamVec k (Done l) => EvType nss base k :: map (fun p => EvSample nss base (fst p) (snd p)) l
  | FamVec k Panic => [EvType nss base k; EvPanic]
  | FamSome f => family_events nss base f
  | FamNone => []
  end.

(** The code points with the Unicode property White_Space, and the UTF-8 form of
    code points below 2^16. *)
Definition white_space (c : N) : Prop :=
  9 <= c <= 13 \/ 0x2000 <= c <= 0x200A \/ In c [0x20; 0x85; 0xA0; 0x1680; 0x2028; 0x2029; 0x202F; 0x205F; 0x3000].
Definition utf8_form (c : N) : bytes :=
  if c <? 0x80 then [c]
  else if c <? 0x800 then [0xC0 + c / 64; 0x80 + c mod 64]
  else [0xE0 + c / 4096; 0x80 + c / 64 mod 64; 0x80 + c mod 64].
Definition white (s : bytes) : Prop := exists cs, Forall white_space cs /\ s = concat (map utf8_form cs).

(** Leading and trailing white space of a doc comment does not matter. *)
Definition trimmed (s t : bytes) : Prop :=
  exists a b, s = a ++ t ++ b /\ white a /\ white b /\
    (forall c r, white_space c -> t <> utf8_form c ++ r) /\
    (forall c r, white_space c -> t <> r ++ utf8_form c).

(** The events of a group below the namespaces [nss], as a relation because of
    the trimming of help texts. *)
Inductive group_events : list bytes -> group -> list event -> Prop :=
| GE_struct : forall nss fs l, fields_events nss fs l -> group_events nss (GStruct fs) l
| GE_composed : forall nss a b la lb, group_events nss a la -> group_events nss b lb ->
    group_events nss (GComposed a b) (la ++ lb)
| GE_ns : forall nss ns g l, group_events (nss ++ [ns]) g l -> group_events nss (GNamespace ns g) l
| GE_some : forall nss g l, group_events nss g l -> group_events nss (GSome g) l
| GE_none : forall nss, group_events nss GNone []
with fields_events : list bytes -> gfields -> list event -> Prop :=
| FE_nil : forall nss, fields_events nss FieldsNil []
| FE_undocumented : forall nss name rename f rest l,
    fields_events nss rest l ->
    fields_events nss (FieldMetric name rename [] f rest)
      (family_events nss (match rename with Some r => r | None => name end) f ++ l)
| FE_documented : forall nss name rename docs help f rest l, docs <> [] ->
    trimmed (concat docs) help ->
    fields_events nss rest l ->
    fields_events nss (FieldMetric name rename docs f rest)
      (EvHelp nss (match rename with Some r => r | None => name end) help
       :: family_events nss (match rename with Some r => r | None => name end) f ++ l)
| FE_group : forall nss g rest lg l, group_events nss g lg -> fields_events nss rest l ->
    fields_events nss (FieldGroup g rest) (lg ++ l)
| FE_ns : forall nss ns g rest lg l, valid_metric_name ns ->
    group_events (nss ++ [ns]) g lg -> fields_events nss rest l ->
    fields_events nss (FieldNamespace ns g rest) (lg ++ l)
| FE_bad_ns : forall nss ns g rest, ~ valid_metric_name ns ->
    fields_events nss (FieldNamespace ns g rest) [EvPanic].

(* ------------------------------------------------------------------ *)
(** ** What the lines have to say *)

Section Shows.
  (** The text the float formatter produces for a number. *)
  Variable float_text : f64 -> bytes.

  (** A label value is shown by the text [t]. *)
  Definition label_shows (v : lvalue) (t : bytes) : Prop :=
    match v with
    | LInt z => read_int t = Some z
    | LStr s => t = s
    | LFloat x =>
      match f_decode x with
      | SpecFloat.S754_nan => t = str "NaN"
      | SpecFloat.S754_infinity false => t = str "+Inf"
      | SpecFloat.S754_infinity true => t = str "-Inf"
      | _ => t = float_text x
      end
    end.

  Definition labels_show (ls : labels) (ts : list (bytes * bytes)) : Prop :=
    Forall2 (fun l t => fst t = fst l /\ label_shows (snd l) (snd t)) ls ts.

  (** A sample line with an integer value. *)
  Definition int_sample (name : bytes) (ls : labels) (z : Z) (i : item) : Prop :=
    exists ts v, i = Sample name ts v None /\ labels_show ls ts /\ read_int v = Some z.
  Definition float_sample (name : bytes) (ls : labels) (x : f64) (i : item) : Prop :=
    exists ts, i = Sample name ts (float_text x) None /\ labels_show ls ts.

  (** Number of observations in the first [k] buckets. *)
  Definition first_buckets (k : nat) (bs : list N) : N := fold_right N.add 0 (firstn k bs).

  (** The series of a histogram: per threshold the observations up to it, then
      all, the sum and the count. *)
  Definition histogram_lines (nss : list bytes) (base : bytes) (ls : labels)
      (ts : list f64) (bs : list N) (inf : N) (sum : f64) (items : list item) : Prop :=
    let total := first_buckets (length bs) bs + inf in
    exists buckets i_inf i_sum i_count,
      items = buckets ++ [i_inf; i_sum; i_count] /\
      length buckets = length ts /\
      (forall k t i, nth_error ts k = Some t -> nth_error buckets k = Some i ->
         int_sample (full_name nss base [str "bucket"]) (ls ++ [(str "le", LFloat t)])
           (Z.of_N (first_buckets (S k) bs)) i) /\
      int_sample (full_name nss base [str "bucket"])
        (ls ++ [(str "le", LFloat f_infinity)]) (Z.of_N total) i_inf /\
      float_sample (full_name nss base [str "sum"]) ls sum i_sum /\
      int_sample (full_name nss base [str "count"]) ls (Z.of_N total) i_count.

  Definition metric_lines (nss : list bytes) (base : bytes) (ls : labels) (m : metric)
      (items : list item) : Prop :=
    match m with
    | MCounter c => exists i, items = [i] /\ int_sample (full_name nss base []) ls (Z.of_N c) i
    | MGauge z => exists i, items = [i] /\ int_sample (full_name nss base []) ls z i
    | MFloatGauge x => exists i, items = [i] /\ float_sample (full_name nss base []) ls x i
    | MHistogram ts bs inf sum => histogram_lines nss base ls ts bs inf sum items
    end.

  Definition kind_word (k : kind) : bytes :=
    match k with
    | KCounter => str "counter"
    | KGauge | KFloatGauge => str "gauge"
    | KHistogram => str "histogram"
    end.

  Definition event_lines (e : event) (items : list item) : Prop :=
    match e with
    | EvHelp nss base help => items = [Help (full_name nss base []) (skip_blanks help)]
    | EvType nss base k => items = [Type_ (full_name nss base []) (kind_word k)]
    | EvSample nss base ls m => metric_lines nss base ls m items
    | EvPanic => False
    end.

  (** The exposition says what the events say, in the same order. *)
  Definition exposes (evs : list event) (items : list item) : Prop :=
    exists parts, Forall2 event_lines evs parts /\
      filter meaningful items = concat parts.
End Shows.

(** ** Well-formed inputs *)

(** Help text that needs no escaping. *)
Definition plain_help (h : bytes) : Prop := ~ In 10 h /\ ~ In 92 h.

(** Values in range: what the Rust types guarantee, plus totals below 2^63. *)
Definition metric_in_range (m : metric) : Prop :=
  match m with
  | MCounter c => c < 2 ^ 63
  | MGauge z => (- 2 ^ 63 <= z < 2 ^ 63)%Z
  | MFloatGauge x => x < 2 ^ 64
  | MHistogram ts bs inf sum =>
    length ts = length bs /\ first_buckets (length bs) bs + inf < 2 ^ 63
  end.

Definition labels_valid (ls : labels) : Prop := Forall (fun l => valid_label_name (fst l)) ls.

Definition event_ok (e : event) : Prop :=
  match e with
  | EvHelp nss base h => Forall valid_metric_name (base :: nss) /\ plain_help h
  | EvType nss base _ => Forall valid_metric_name (base :: nss)
  | EvSample nss base ls m =>
    Forall valid_metric_name (base :: nss) /\ labels_valid ls /\ metric_in_range m
  | EvPanic => False
  end.

(** What is assumed of the float formatter: some text made of digits, letters
    (exponents, NaN, inf), points and signs. *)
Definition float_char (b : N) : bool :=
  digit b || letter b || (b =? 43) || (b =? 45) || (b =? 46).
Definition float_text_ok (float_text : f64 -> bytes) : Prop :=
  forall x, float_text x <> [] /\ forallb float_char (float_text x) = true.

(* ------------------------------------------------------------------ *)
(** ** Framing *)

Definition is_header (i : item) : Prop :=
  match i with Help _ _ | Type_ _ _ => True | _ => False end.
Definition is_sample (i : item) : Prop :=
  match i with Sample _ _ _ _ => True | _ => False end.

(** Blank lines separate a sample from a following header and occur nowhere
    else. *)
Definition framed (items : list item) : Prop :=
  (forall a b x y, items = a ++ x :: y :: b -> is_sample x -> ~ is_header y) /\
  (forall a b, items = a ++ Blank :: b ->
     exists a' x y b', a = a' ++ [x] /\ b = y :: b' /\ is_sample x /\ is_header y).

(* ------------------------------------------------------------------ *)
(** ** UTF-8 (RFC 3629, section 4) *)

Definition tail (b : N) : Prop := 128 <= b <= 191.
Inductive utf8_char : bytes -> Prop :=
| U1 : forall a, a <= 127 -> utf8_char [a]
| U2 : forall a b, 194 <= a <= 223 -> tail b -> utf8_char [a; b]
| U3a : forall b c, 160 <= b <= 191 -> tail c -> utf8_char [224; b; c]
| U3b : forall a b c, 225 <= a <= 236 -> tail b -> tail c -> utf8_char [a; b; c]
| U3c : forall b c, 128 <= b <= 159 -> tail c -> utf8_char [237; b; c]
| U3d : forall a b c, 238 <= a <= 239 -> tail b -> tail c -> utf8_char [a; b; c]
| U4a : forall b c d, 144 <= b <= 191 -> tail c -> tail d -> utf8_char [240; b; c; d]
| U4b : forall a b c d, 241 <= a <= 243 -> tail b -> tail c -> tail d -> utf8_char [a; b; c; d]
| U4c : forall b c d, 128 <= b <= 143 -> tail c -> tail d -> utf8_char [244; b; c; d].

Inductive utf8 : bytes -> Prop :=
| Utf8_nil : utf8 []
| Utf8_cons : forall c s, utf8_char c -> utf8 s -> utf8 (c ++ s).

(** Events all of whose strings are UTF-8. *)
Definition labels_utf8 (ls : labels) : Prop :=
  Forall (fun l => utf8 (fst l) /\ match snd l with LStr s => utf8 s | _ => True end) ls.

Definition event_utf8 (e : event) : Prop :=
  match e with
  | EvHelp nss base h => Forall utf8 (base :: nss) /\ utf8 h
  | EvType nss base _ => Forall utf8 (base :: nss)
  | EvSample nss base ls _ => Forall utf8 (base :: nss) /\ labels_utf8 ls
  | EvPanic => True
  end.
