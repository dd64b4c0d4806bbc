# Formal model of `measured` — design

This document is written before the proofs and kept current.  It says what is
modelled, how each property of `properties.jsonl` is to be proved, and what has
to be trusted.

## 1. Method

* The model is a set of total Gallina functions, one per Rust function, in
  `rocq/theories/*Model*.v` style files.  Each definition cites the file and lines
  in /repo that it mirrors and notes simplifications.
* Specifications (`*Spec.v`) are written without using the model's helpers:
  regular-expression predicates, a text-format parser, a protobuf parser, a
  finite map, counting functions, abstract logs.
* Proofs live in `*Proofs.v`.  Theorem statements for the properties live in
  `P_*.v`, each closed by `exact lemma`, followed by `Print Assumptions`, with
  non-vacuity examples beside them.
* A claim that is false of the faithful model is stated as `..._refuted` with a
  concrete witness, and the strongest true version is proved beside it.

## 2. Representation choices

| Rust | model |
|---|---|
| `u64`, `usize` (64-bit target) | `N`, operations explicitly `mod 2^64`, or checked with a panic value in debug builds |
| `i64` | `Z`, explicit wrap into [-2^63, 2^63) |
| `f64` | stdlib `SpecFloat.spec_float` with precision 53, emax 1024 (axiom-free); bit patterns as `N` |
| `&str`, `[u8]` | `list N` (bytes) |
| panic | constructor `Panic` of `outcome` |
| `Result<_, io::Error>` | `Ok`/`Err` with the error opaque |
| `&mut self` | state passing |
| `W: Write` | a list of outcomes for the successive `write_all` calls: success, or failure after writing a prefix of k bytes |
| generic trait parameters | records of functions with law predicates, proved of every implementation in the repository |
| hash functions, `HashTable` | arbitrary function; table = list of (hash, key, value) |
| threads | small-step interleaving; a schedule is an arbitrary list of thread numbers (and, where needed, spurious-failure bits) |

## 3. Plan per property

| id | modelled | proof |
|---|---|---|
| C01 | derived enum encode/decode arms | list lookup, NoDup |
| C02 | `IndexSet`/`RodeoReader`/`OrderedSet` as duplicate-free list | same |
| C03, C05, C06, C07 | macro output of `derive(LabelGroup)`: sort, split, reverse, unchecked mixed-radix loop, div/mod decode | induction over the field list; C06 refuted in release builds |
| C04 | same with interner state | invariant over histories |
| C08 | `ComposedGroup` label set | law transfer |
| C09-C12, C14-C17 | `MetricVec` dense and sparse, arbitrary metric type | refinement to a finite map for all operation sequences |
| C13 | shard index arithmetic on 32/64-bit words | bit arithmetic for all words |
| C18, C20 | counter and gauge atomics | interleaving semantics, induction over schedules |
| C19 | `as i64` cast and decimal output | refuted above 2^63-1, proved below |
| C21, C23 | `AtomicF64` CAS loop, `to_bits`/`from_bits` | linearizability by a ghost log invariant; bit round trip |
| C22 | `&mut` operations | pointwise equality |
| C24, C25, C30 | `partition_point`, `observe`, cumulative output | counting induction; NaN refuted |
| C26 | histogram `RwLock` protocol | invariant over interleavings |
| C27-C29 | threshold constructors | list induction; monotonicity of rounding on scaled integers; refutations |
| C31 | timer life cycle, seconds as a float | state machine over all call sequences; relative rounding error on scaled integers |
| C32, C33 | name validators | equivalence with a regular expression predicate; `-` refuted |
| C34, C35, C43 | name composition, groups | structural induction |
| C36 | escaping | decoder round trip |
| C37, C38, C39, C42 | text encoder | parser round trip, framing automaton, UTF-8 grammar |
| C40, C41 | help, failing writers | refutations; prefix theorem for sticky failures |
| C44, C45 | varint and lengths | case split on log2; structural induction |
| C46-C49 | protobuf encoder state machine | wire-format parser round trip; refutations |
| C50-C52, C56, C73 | process and tokio collectors | evaluation over arbitrary OS readings |
| C57, C61 | attribute parsers and constructors of the derive macros | a bag-of-arguments specification, both directions; lookup in the generated field lists |
| C58-C60 | visiting, vecs and group trees through to the text read back | uniqueness carried from groups over label sets to parsed lines; refutations where conditions are dropped |
| C62 | calls on counter, gauge, float gauge and histogram vecs followed by a scrape | calls as programs of vec operations, the refinement of C09, then the read-back of C37 |
| C65 | the same calls followed by a protobuf scrape | the refinement of C09, then the read-back of C46; error of the nearest double |
| C63 | derived lookups over shared interners, one interner call per step | invariant: digits of finished and of half-done lookups stay valid as interners grow |
| C64 | whole calls as scripts over the machines of C63 and C53 side by side | projection of a run to each machine, then flows per key summed per thread |
| C68 | whole calls as scripts over the cells of C54, lookups as functions | label sets of known cardinality never change (structural induction); then as C64 |
| C71 | the runs of C64 and C68 | operations begun so far, closed by a drop, take turns; then C55 on the projection to the vec |
| C74 | the runs of C64 and C68 | both reads in one legal history of the vec, the life of a key kept in between; amounts compared by prefixes |
| C75 | the rows of these collections handed to the text encoder | exact lines of every event, then the brackets of C64 and C68 and the order of C74 on the numbers read back |
| C78 | the rows of these collections handed to the protobuf encoder | the read-back of C46, then the same brackets and order on the doubles of the counts |
| C79 | the writes of each thread to one metric, cut at the moment a collection reads it | the linear history of C64 split per thread, each part between the finished and the begun writes; gauges summed over the parts |
| C80 | the cells of a vec accessed by calls and collections, in any execution graph with the coherence axioms | the theorem of C66 about one cell, for each cell of the vec; sums and cuts of C66 and C79 on the rows |
| C81 | text and protobuf scrapes whose rows were read in any execution graph with the coherence axioms | the rows of C80 under the scrape theorems of C75 and C78, which hold for any rows; the range of each number from the sums |
| C76 | the script of a count added to those of C64 | keys seen in the shards are distinct and each has a group; a key got before and not removed is seen |
| C77 | the runs of C64 and C68 along schedules without end | a rank of calls underway that every step lowers, what a success sets others back being paid by its thread; then no deadlock (C71) |
| C72 | vec operations mixed with calls through any other ids | the run with and the run without them kept equal on entries of other ids (cells of other positions) |
| C69, C70 | group trees through both encoders, both outputs read back | the read-backs of C37 and C46 met at the families; witnesses where conditions are dropped |
| C66 | accesses of calls in any execution graph with the coherence axioms | the modification order gives the order of calls; induction along it |
| C67 | the example server as events of any number of requests and scrapes | the three vecs as finite maps through ids and calls (C09), label sets that learn elsewhere, read-back of C37 |
| C53-C55 | sparse shard locks, dense `OnceLock`, lock order | invariants over interleavings, progress |

## 4. Trusted base

* The Coq 8.16.1 kernel (`coqc`, `coqchk`).
* Assumptions of the theorems: `Print Assumptions` is run under every theorem of
  the `P_*.v` files.  All theorems listed below are "Closed under the global
  context" unless section 6 says otherwise.  `coqchk -o` also lists seven
  constants of the standard library's `Coq.ssr.ssrunder.Under_rel`, loaded with
  `lia`; no theorem depends on them.
* That the Gallina model follows the Rust code as cited in each definition.
* External code that is a parameter (any behaviour, or the behaviour assumed in a
  hypothesis): the hash function and the iteration order and probing of
  `hashbrown` tables (`world_ok`: a permutation; equal hashes are found),
  `heck` case conversion (also the check of identifiers by `format_ident!`), the float formatter `ryu` (`float_text_ok`: non-empty,
  made of digits, letters, points and signs), the underlying `io::Write`,
  `f64::powi`, what `procfs`, `libc::sysconf` and
  `tokio::runtime::RuntimeMetrics` answer.  `partition_point` is modelled from the sources of the standard
  library, before and after its rewrite in Rust 1.82; float addition,
  multiplication, division and comparison are those of Coq's `SpecFloat`.

### Code that is modelled

| file | parts | model |
|---|---|---|
| core/src/metric/name.rs, core/src/label/name.rs | all | NameModel.v |
| core/src/label/*.rs, derive/src/value, derive/src/label_group | sets, derived groups, composition, visiting | LabelModel.v |
| core/src/metric.rs, core/src/metric/sparse.rs | `MetricVec` sequentially, sharding | VecModel.v |
| core/src/metric.rs:356-386 | the same calls with ids of other vecs | ForeignModel.v |
| core/src/metric.rs:406-471, core/src/metric/group.rs, derive/src/metric_group | encoders, families, groups | EncoderModel.v, FamilyModel.v |
| core/src/text.rs | all but `write_metric_value` callers outside the crate | TextModel.v |
| prometheus-proto/src/*.rs | all (histograms do not compile with this encoder) | ProtoModel.v |
| core/src/metric/counter.rs, gauge.rs, histogram.rs | all states, guards, thresholds, timers, call by call | MetricModel.v |
| counter.rs:30-39, gauge.rs:59-88 and 301-360, histogram.rs:29-59 and 155-160, the loads of text.rs and prometheus-proto | the same metrics shared by threads, cut into atomic steps | ConcModel.v |
| the same lines | the same metrics under the axioms of the memory model | ConcWeakModel.v |
| core/src/metric/sparse.rs:48-116, core/src/metric.rs:448-471 (sparse) | sparse vecs shared by threads, around any metric | ConcVecModel.v |
| core/src/metric.rs:244-252, 389-397, 448-471 (dense) | dense vecs shared by threads, around any metric | ConcDenseModel.v |
| derive/src/label_group/to_tokens.rs:279-293 and 353-372, core/src/label/impls.rs:77-142 | lookups by threads in shared interners | ConcLabelModel.v |
| counter.rs:55-75, gauge.rs:117-142 and 268-293, histogram.rs:212-226, core/src/metric.rs:451-469 | the accesses of calls on vecs and of collections, under the axioms of the memory model | ConcWeakVecModel.v |
| counter.rs:55-75, gauge.rs:117-142 and 269-294, histogram.rs:212-242 | the methods of vecs that look up and update | CallModel.v |
| the same with core/src/metric.rs:332-378, 389-397, 461-467 and metric/sparse.rs:111-116 | these methods, deletions, collections and counts of sparse vecs, made by threads | ConcCallModel.v |
| the same with core/src/metric.rs:332-378, 389-397 and 450-460 | these methods, attempted deletions, collections and counts of dense vecs, made by threads | ConcDenseCallModel.v |
| core/src/metric.rs:450-467, core/src/text.rs:236-268 | what an encoder is given by a collection among threads | ConcScrapeModel.v |
| process/src/lib.rs (Linux), tokio/src/lib.rs | all | CollectorModel.v |
| examples/axum-server/src/metrics.rs | all: groups, label sets, middleware, scrape handler | AppModel.v |
| derive/src/*/attr.rs, parse.rs, the constructors of to_tokens.rs | what is accepted, what attributes mean, `new` | DeriveModel.v |

### Threads

Calls are cut at every access to a shared location and at every lock operation;
steps interleave arbitrarily (ConcModel.v).  All atomics in the crate are
`Relaxed` but for the acquire load and release exchange of `AtomicF64::inc_by`.
Interleaving lets a load see only the latest value; the memory model of Rust
lets a `Relaxed` load return an older one.  ConcWeakModel.v drops that
simplification for the metrics: an execution there is any graph of accesses with
the coherence axioms of C++20, and C66 shows what remains true (and
`C66_no_common_order` what does not: reads of two counters need not fit any
order of the increments).  That the axioms `consistent` are those of the language
is trusted.  For vecs (C53, C54, C63, C64, C68, C74–C76, C78, C79) interleaving is trusted to lose
nothing, since the tables are read under a `RwLock` or published by a `OnceLock`
whose acquire/release edges order the accesses; the values of counters within
the rows of a collection may in addition be older than C64, C68, C74, C75, C78 and C79 say, as far as C66 allows
(coherence keeps C74 where one collection happens before the other, and `C79_weak_*` has C79 for single
gauges under the axioms).  C80 says how old: it has the rows of vecs under the axioms, with
happens-before in the place of "has returned" and "has begun"; which rows there are is left to the
execution.  C81 has the texts and streams of such scrapes.
The lock is
parking_lot's: any number of readers or one writer, a reader may or may not
overtake waiting writers (a choice of the schedule).  A call of an interner
(lasso's `ThreadedRodeo`) is taken to be atomic.

An id that is looked up once and used later, as a `HistogramVecTimer` does, is
not a call of its own in ConcCallModel.v.  It is the call of one more thread,
which looks up, waits, and goes on when the id is used; the number of threads is
not bounded.  C53 and C63 are about programs that keep ids as they like.

That calls come to an end (C77) is said of programs with a bounded number of
calls, under schedules that leave no thread out for ever, with boundedly many
spurious failures of `compare_exchange_weak` (failures because another thread
has written need no hypothesis).  A schedule may let a writer of a shard be
overtaken by readers again and again; that threads which never cease to call
starve no other thread is not claimed.

### The example server

AppModel.v has one event per statement of the middleware that touches a metric,
and one for a scrape; events of different requests interleave in any order.  Each
event is one step (C63, C64 and C66 are about what happens inside).  The interner
behind the three `Arc`s is one value, put into a label set when that is used.
Dropping the middleware's future while the handler runs (a client that goes
away, or a panic of the handler) drops the timer, which observes.  A panic of the
metrics ends the run of the model.  Axum, tower and tokio are not modelled.
`f64::powi` is assumed exact on powers of two (`powi_exact`).

### Tests of the model

`Conformance.v` runs the model on the repository's own tests and documentation
examples and compares with what they expect: the derived enums and label sets of
the documentation, the composed set, cardinality and removal, escaping, the
counter vec, histogram and group scrapes (float sums included), the examples
page, and the protobuf messages of the two encoder tests byte for byte (encoded
outside Coq).  Formatted floats come from a table, sparse maps are read in order
of insertion, snake case is a table.  These are tests that the model is faithful,
not proofs.

### Not modelled

Generics and trait resolution, the Rust type checker, lifetimes, memory
allocation failure, weak memory beyond the metrics themselves (C66, C79, C80, C81), real time.
`&T`/`Arc<T>`/`&mut T` delegation impls pass calls on and are not represented.
Rust tokens: an attribute is a list of arguments already read (path; nothing,
parentheses or `=` with a literal, identifier or expression); the type checker's
part in rejecting generated code is not represented.
An interner shared (through `Arc`) between several fields or with outside code
(only ConcLabelModel.v and AppModel.v have that; the sequential model gives each field its own), shard counts for which 4 * parallelism exceeds half the address space.  NaN results of float arithmetic carry the canonical payload.

## 5. Findings

Claims that are false of the code, each refuted by a theorem with a witness, and
other observations made while modelling.

1. `MetricName::try_from_str` accepts `-`, so invalid names reach the output
   (C32_try_from_str_refuted).
2. The encoding of a derived label group multiplies without overflow check: in
   release builds two different groups can share an id from 2^64 combinations on,
   in debug builds encoding panics (C06_distinct_ids_refuted).
3. Help text is written without escaping.  A line feed (block doc comments) ends
   the HELP line and injects lines; a backslash is read back as an escape
   (C40_help_line_feed_refuted, C40_help_backslash_refuted).
4. Counters from 2^63 on are shown as negative numbers (C19_counter_refuted).
5. Errors of the writer inside the label list are swallowed: a writer failing
   once there gives Ok with bytes missing (C41_ok_complete_refuted).
6. A documented `Option` field that is `None` still writes its HELP line.
7. `ComposedGroup::encode` interns the first part even if the second is rejected.
8. Protobuf: after a documented family without samples, the samples of the next
   undocumented family are exported under the documented family's name
   (C47_misattribution_refuted, C47_misleading); the state survives `flush`.
9. Protobuf: after a failed write the buffer is kept, and the next family contains
   the old samples (C49_failed_write_refuted).
10. Protobuf: integers above 2^53 in magnitude are rounded (C48_lossy).
11. `Thresholds::with_buckets` of one element accepts NaN (every observation then
    counts as at most NaN), and of more elements accepts +Inf as the last one, so
    that `le="+Inf"` is written twice; the arguments of the other constructors
    are checked but not their results, so that thresholds can coincide, overflow
    to +Inf or be NaN (C28_well_formed_refuted).  N = 0 panics in every build.
12. A NaN observation is counted in the lowest bucket and makes the sum NaN for
    good (C30_nan_is_small_refuted, C30_sum_stays_nan).
13. A lookup of a new label makes its metric visible to collections before the
    update it was made for (C53_order shows the label from its lookup on).
14. A thread that keeps the guard of one label of a sparse vec and looks up a new
    label of the same shard waits for itself; a thread that keeps a guard and
    collects can wait for ever if another thread waits to remove a label
    (C55_two_guards_refuted).  Nothing in the types prevents either.  The methods
    of the vecs themselves never do this (C71).
15. `ProcessCollector::new(pid)` remembers the start time of the calling process,
    not of `pid` (C50_start_refuted).  CPU time is cut to whole seconds; figures
    from 2^63 on (a soft limit, say) are shown as negative numbers.  Collecting
    panics where clk_tck is 0, and in debug builds where the bytes or ticks
    overflow (C50_panics); -1, which sysconf gives on failure, is divided by.
16. The process and tokio collectors never write a type (C51_type_refuted), and
    protobuf readers take the default, COUNTER.
17. Protobuf ignores the names passed with samples, so that the `_bucket`, `_count`
    and `_sum` samples of the tokio poll times are indistinguishable members of one
    family (C51_proto_suffix_refuted).
18. `NamedRuntimesCollector::add` accepts a name twice and then exports every
    series twice (C56_same_name_refuted).
19. Without runtimes the tokio collector writes HELP lines only; in protobuf the
    last of these then claims the samples of a following undocumented family (as
    in 8).
20. `#[metric(namespace = "my-app")]` compiles; the name is checked when collecting,
    and every scrape panics (C43_bad_namespace).
21. Derive macros: the attribute of an enum rejects a trailing comma, those of
    structs and fields accept it; `#[doc(hidden)]` or `#[doc = include_str!(..)]` on
    a metric field is an error; negative discriminants are errors; a discriminant
    takes precedence over `rename`; names differing only in case or underscores
    are rejected because their constants coincide (C57_enums, C57_metric_groups).
22. The arguments of the generated `new` of a label set are not in declaration
    order: dynamic fields come first (C61_new_arguments).
23. A user's label `le` on a histogram vec, and a label common to both parts of a
    `ComposedGroup`, are written twice on one line (C58_le_refuted,
    C58_composed_refuted; in protobuf C69_composed_refuted).
24. Variants shown by the same text (two renames, or a rename equal to a
    discriminant) give the same series twice (C59_same_text_refuted,
    C69_same_text_refuted).
25. Nothing keeps family names apart across subgroups: flattened groups with a
    common name, namespaces `a` + `b_c` and `a_b` + `c`, a counter `x_count` beside a
    histogram `x` (C60_flatten_refuted, C60_namespaces_refuted,
    C60_suffix_refuted, C69_flatten_refuted).
26. `MetricName` lacks the `#[repr(transparent)]` that the cast in its
    `from_str_unchecked` relies on (`LabelName` has it); not modelled.
27. Float samples of infinity are written by `ryu` as `inf` and `-inf`, while bucket
    labels show `+Inf`.
28. A lookup of a group with several dynamic fields is not atomic: two threads can
    get ids that no order of the two lookups gives (`C63_lookups_interleave`).
    Harmless, since ids keep denoting their groups (C63).
29. A collection is not a snapshot: its rows may be from different moments
    (`C64_no_snapshot`); each value lies between the totals at the collection's
    start and end (C64, C68).  Nor is the count of `get_cardinality` on a sparse vec
    its size at some moment: it can count a metric deleted before another one it
    counts was made (`C76_no_snapshot`).
30. Counters are incremented and read with `Relaxed` ordering: a thread can read a
    counter incremented second as incremented and then one incremented first as
    not (`C66_no_common_order`).  Within one counter nothing is lost (C66).
31. The buckets of the example server end at 3.2768 s, not at 6.5 s as its comment
    says (C67_thresholds).  A request whose client goes away is counted in
    `http_requests` and `http_request_duration` but in no `http_responses`
    (C67_accounting).
32. A `LabelId<L>` can be used with any vec over the same `L`, which is documented
    as unsupported.  What happens (C72): groups that the id is not taken for are
    never affected.  An id of a dense vec makes a sparse vec report its group
    twice (`C72_doubled_case`), an id of a sparse vec panics on a dense one
    (`C72_dense_beyond`), an id beyond the interner makes every collection of a
    sparse vec panic until the interner has grown that far (`C72_case`), and
    amounts appear under labels that were not given (`C72_other_group_case`).

## 6. Axioms per theorem

None: every theorem of P_Names.v, P_Labels.v, P_Vec.v, P_Text.v, P_Proto.v,
P_Metrics.v, P_Conc.v, P_ConcVec.v, P_ConcDense.v, P_ConcProgress.v,
P_ConcLabel.v, P_Collectors.v, P_Tokio.v, P_Derive.v, P_Scrape.v, P_End.v,
P_ProtoEnd.v, P_ConcCall.v, P_ConcCount.v, P_ConcWeak.v, P_App.v,
P_ConcDenseCall.v, P_ProtoScrape.v, P_ConcCallProgress.v, P_Foreign.v,
P_ConcOrder.v, P_ConcScrape.v, P_ConcProto.v, P_ConcMoment.v, P_ConcWeakMoment.v, P_ConcWeakVec.v, P_ConcWeakHistVec.v, P_ConcWeakScrape.v,
P_ConcWeakProto.v and P_ConcFinish.v is closed under
the global context.
