{"id": "C01", "title": "Derived enum labels are a bijection with 0..n", "statement": "For any enum with #[derive(FixedCardinalityLabel)], encoding a variant yields an index below the advertised cardinality, decoding that index yields the same variant, every index below the cardinality is reached by exactly one variant, and decoding any index at or above the cardinality panics instead of returning a wrong variant.", "quantifier": "for every non-empty list of distinct variants, every variant and every usize index", "why_tests_cant": "tests cover one enum with a fixed number of variants; the macro generates code for any enum", "anchors": ["derive/src/value/to_tokens.rs: ToTokens for FixedCardinalityLabel", "core/src/label/value.rs: FixedCardinalityLabel, StaticLabelSet"]}
{"id": "C02", "title": "Fixed label sets give dense, stable, invertible indices", "statement": "For a fixed set of strings (indexmap IndexSet, lasso RodeoReader, phf OrderedSet): encoding a member yields an index below the set's size that decodes back to that member, encoding a non-member yields None, and two members share an index only if they are equal.", "quantifier": "for every duplicate-free set and every string", "why_tests_cant": "unbounded sets and strings", "anchors": ["core/src/label/impls.rs: LabelSet for IndexSet/RodeoReader/OrderedSet", "core/src/label/value.rs: LabelSet"]}
{"id": "C03", "title": "Derived label group index is a bijection onto 0..cardinality", "statement": "When a derived label-group set reports cardinality Some(c), encoding a member group succeeds without overflow and yields an index below c, decoding it gives back the same value in every field, two groups with the same index are equal, and every index below c is the encoding of the group it decodes to.", "quantifier": "for every number of fields, every mix of enum and fixed-set fields in any declaration order, every set contents and every group value", "why_tests_cant": "the macro is generic in the number, order and sizes of fields; a test fixes one shape", "anchors": ["derive/src/label_group/to_tokens.rs: Set, SetEncode, SetDecode", "core/src/label/group.rs: LabelGroupSet"]}
{"id": "C04", "title": "Label groups with dynamic fields keep stable ids", "statement": "For a derived label group with dynamic (interned) fields, a successful encode returns an id that decodes to the same label values, encoding equal labels again (at any later time) returns the same id, different labels never get the same id, and ids handed out earlier keep decoding to the same labels whatever is encoded afterwards.", "quantifier": "for every field layout whose fixed part fits in usize, every history of encode calls, every pair of points in that history", "why_tests_cant": "property over unbounded histories of a growing interner", "anchors": ["derive/src/label_group/to_tokens.rs: SetEncode, SetDecode", "core/src/label/impls.rs: LabelSet for ThreadedRodeo"]}
{"id": "C05", "title": "A label group is rejected exactly when a field value is unknown", "statement": "Encoding a derived label group returns None if and only if some fixed field holds a value outside its set or some dynamic set refuses to intern its value; when a fixed field is the reason, no dynamic set has been changed.", "quantifier": "for every field layout, every set contents, every group", "why_tests_cant": "unbounded value space; absence of a side effect", "anchors": ["derive/src/label_group/to_tokens.rs: SetEncode", "core/src/metric.rs: MetricVec::try_with_labels"]}
{"id": "C06", "title": "Distinct label groups have distinct ids whatever the cardinalities", "statement": "Encoding two different member label groups of a derived set never gives the same id, even when the product of the fixed cardinalities exceeds usize (where cardinality() is None and the vec is sparse). (Found false: the index arithmetic is unchecked.)", "quantifier": "for every list of field cardinalities and every pair of groups", "why_tests_cant": "needs more than 2^64 label combinations to observe", "anchors": ["derive/src/label_group/to_tokens.rs: SetEncode lines 279-293", "derive/src/label_group/to_tokens.rs: cardinality lines 160-165"]}
{"id": "C07", "title": "Dense order is lexicographic in declaration order", "statement": "For a derived label group without dynamic fields, comparing two dense indices is the same as comparing the field index tuples lexicographically in field declaration order (the first declared field is the most significant), so a dense metric is exported in that order.", "quantifier": "for every field layout and every pair of member groups", "why_tests_cant": "unbounded layouts", "anchors": ["derive/src/label_group/to_tokens.rs: Set lines 84-91, SetEncode", "core/src/metric.rs: MetricFamilyEncoding for MetricVec"]}
{"id": "C08", "title": "Composed label-group sets keep the bijection", "statement": "For a ComposedGroup of two well-behaved label-group sets: encode/decode are inverse, ids of different pairs differ, and when the cardinality is Some(c) the dense index of every id is below c, is different for different ids, and decodes to the same pair of groups; nesting compositions keeps all of this.", "quantifier": "for every pair of lawful component sets and every finite nesting of compositions", "why_tests_cant": "generic code; only one instance is tested", "anchors": ["core/src/label/group.rs: LabelGroupSet for ComposedGroup"]}
{"id": "C09", "title": "MetricVec behaves as a map from label group to metric", "statement": "Any sequence of with_labels / get_metric / get_metric_mut / remove_metric / init_all_dense / get_cardinality / collect calls on a MetricVec returns exactly what a plain finite map from label group to metric state would return (missing entries spring into existence with the default state on access); in particular an update through one label never affects another label, and ids obtained earlier keep referring to the same labels.", "quantifier": "for every lawful label set, every metric type, every hash function, every shard count and every sequence of operations", "why_tests_cant": "all operation histories, hash collisions and shard layouts", "anchors": ["core/src/metric.rs: MetricVec, VecInner", "core/src/metric/sparse.rs: ShardedMap"]}
{"id": "C10", "title": "Dense and sparse storage are indistinguishable", "statement": "Replacing the storage strategy of a MetricVec (dense or sparse) does not change any value read back or any exported sample (as a set), for programs that do not call remove_metric or init_all_dense.", "quantifier": "for every lawful label set with known cardinality and every such operation sequence", "why_tests_cant": "all histories; relation between two runs", "anchors": ["core/src/metric.rs: VecInner", "core/src/metric/sparse.rs"]}
{"id": "C11", "title": "Storage choice follows the cardinality", "statement": "A MetricVec built with the default constructors is dense exactly when the label set reports a cardinality of at most 1024, has then one slot per label combination, and is sparse otherwise; the forced dense constructor panics exactly when the cardinality is unknown; the forced sparse one never fails.", "quantifier": "for every label set cardinality", "why_tests_cant": "boundary over all cardinalities", "anchors": ["core/src/metric.rs: with_label_set_and_metadata, dense_with_label_set_and_metadata, sparse_with_label_set_and_metadata"]}
{"id": "C12", "title": "Looking up labels creates nothing", "statement": "with_labels / try_with_labels never adds a metric: exported samples and get_cardinality are unchanged; it returns None exactly when the label set refuses the group; and two ids from the same vec are equal if and only if the label groups are equal.", "quantifier": "for every vec state and every group", "why_tests_cant": "absence of effects over all states", "anchors": ["core/src/metric.rs: try_with_labels, with_labels, LabelId"]}
{"id": "C13", "title": "Shard selection is always in bounds", "statement": "The shard index computed from any hash is below the number of shards, for the shard count produced from any available parallelism, on 32- and 64-bit targets; and it is the same in every operation using the same label id.", "quantifier": "for every hash value, every parallelism, both word sizes", "why_tests_cant": "2^64 hashes times machine configurations the CI does not have", "anchors": ["core/src/metric/sparse.rs: default_shard_amount, new, get_metric, remove_metric, get_metric_mut"]}
{"id": "C14", "title": "remove_metric returns the metric and forgets it", "statement": "On a sparse vec remove_metric returns the exact current state of the labelled metric if it exists (None otherwise), afterwards that label is not exported, does not count in get_cardinality and starts again from the default, and other labels are untouched; on a dense vec it returns None and changes nothing.", "quantifier": "for every state, label and subsequent operation", "why_tests_cant": "all histories", "anchors": ["core/src/metric.rs: remove_metric", "core/src/metric/sparse.rs: remove_metric"]}
{"id": "C15", "title": "get_cardinality bounds are truthful", "statement": "The lower bound of get_cardinality is the number of distinct labels currently holding a metric (the number of samples groups a collection emits), the upper bound is the label set's cardinality, and lower <= upper whenever the upper bound is known.", "quantifier": "for every operation history", "why_tests_cant": "counting over all histories", "anchors": ["core/src/metric.rs: get_cardinality", "core/src/metric/sparse.rs: get_cardinality"]}
{"id": "C16", "title": "init_all_dense fills without overwriting", "statement": "After init_all_dense a dense vec exports every label combination of the set exactly once, previously touched metrics keep their value, the others have the default; on a sparse vec it does nothing.", "quantifier": "for every state", "why_tests_cant": "all histories and sizes", "anchors": ["core/src/metric.rs: init_all_dense"]}
{"id": "C17", "title": "Collection exports each live label exactly once", "statement": "Collecting a MetricVec emits its type once and then exactly one sample group per label that has a metric, with that label's own label values and the metric's current state, nothing for other labels, and no label twice.", "quantifier": "for every state and every encoder", "why_tests_cant": "all states", "anchors": ["core/src/metric.rs: MetricFamilyEncoding for MetricVec"]}
{"id": "C18", "title": "Counters lose no increments", "statement": "Whatever the interleaving of inc/inc_by calls from any number of threads, the value read afterwards is the initial value plus the sum of all increments, modulo 2^64; a reader never sees the counter go down unless the sum passes 2^64.", "quantifier": "for every number of threads, every program per thread, every schedule", "why_tests_cant": "all schedules", "anchors": ["core/src/metric/counter.rs: CounterLockGuard inc, inc_by"]}
{"id": "C19", "title": "Exported counters show the counted value", "statement": "A counter sample in the text format shows the counter's value as a decimal number. (Found false above i64::MAX: the value is printed as negative.)", "quantifier": "for every u64 value", "why_tests_cant": "needs 2^63 increments", "anchors": ["core/src/text.rs: MetricEncoding<TextEncoder<W>> for CounterState"]}
{"id": "C20", "title": "Integer gauges follow set/inc/dec exactly", "statement": "After any interleaving of set, inc, inc_by, dec, dec_by from any threads the gauge equals, in i64 wrapping arithmetic, the value of the last set plus all later increments minus all later decrements in the order in which the operations took effect; without sets the result does not depend on the schedule.", "quantifier": "for every schedule of every finite set of thread programs", "why_tests_cant": "all schedules", "anchors": ["core/src/metric/gauge.rs: GaugeState ops"]}
{"id": "C21", "title": "Float gauge updates are linearizable", "statement": "Every inc_by/dec_by/set/get on a float gauge takes effect atomically: in every schedule (including spurious failures of compare_exchange_weak) each completed addition is applied exactly once to the value left by its predecessor, in an order compatible with each thread's program order, and get returns the value at its point in that order.", "quantifier": "for every number of threads, programs, schedule and pattern of spurious failures", "why_tests_cant": "all schedules and spurious failures", "anchors": ["core/src/metric/gauge.rs: AtomicF64::inc_by, set, get"]}
{"id": "C22", "title": "Exclusive and shared access agree", "statement": "The &mut variants of counter, gauge, float gauge and histogram operations produce the same stored state as the shared (atomic) variants, except that a debug build panics on integer overflow where the shared variant wraps.", "quantifier": "for every state and argument, both build modes", "why_tests_cant": "all states and float values", "anchors": ["core/src/metric/counter.rs: CounterMut", "core/src/metric/gauge.rs: GaugeMut, FloatGaugeMut", "core/src/metric/histogram.rs: HistogramMut"]}
{"id": "C23", "title": "Float gauge stores every bit pattern", "statement": "A float gauge that was set to x reads back exactly x (same bits, including NaN and signed zero), and decrementing by x stores the IEEE difference of the two values.", "quantifier": "for all 2^64 bit patterns and pairs of them", "why_tests_cant": "2^128 pairs", "anchors": ["core/src/metric/gauge.rs: AtomicF64::set, get, dec_by"]}
{"id": "C24", "title": "An observation lands in the first bucket that can hold it", "statement": "For thresholds accepted by Thresholds::with_buckets and a non-NaN observation x, exactly one bucket count grows by one: the first bucket whose threshold is >= x, or the overflow (+Inf) bucket if there is none; the sum grows by x and the bucket assertion never fires.", "quantifier": "for every N, every strictly increasing threshold list, every float", "why_tests_cant": "all lists and floats; binary search corner cases", "anchors": ["core/src/metric/histogram.rs: observe (LockGuard, HistogramMut), HistogramStateInner::observe"]}
{"id": "C25", "title": "Exported histograms are cumulative counts of the observations", "statement": "After any list of non-NaN observations, the exported series le=t counts exactly the observations <= t, series are non-decreasing in le order, the +Inf series and _count both equal the number of observations, and _sum is the float sum in observation order.", "quantifier": "for every threshold list, every list of observations (fewer than 2^63)", "why_tests_cant": "unbounded observation lists", "anchors": ["core/src/text.rs: MetricEncoding<TextEncoder<W>> for HistogramState<N>", "core/src/metric/histogram.rs"]}
{"id": "C26", "title": "Histogram snapshots are consistent under concurrency", "statement": "In every schedule of observing threads and collecting threads, the buckets and the sum read by a collection are those of one and the same set of observations, which contains every observation completed before the collection started and none started after it finished; torn snapshots (count without sum) are impossible.", "quantifier": "for every number of threads, programs and schedules", "why_tests_cant": "all schedules", "anchors": ["core/src/metric/histogram.rs: HistogramState (RwLock), observe, sample", "core/src/text.rs: MetricEncoding for HistogramState"]}
{"id": "C27", "title": "Threshold validation is exact", "statement": "Thresholds::with_buckets accepts a non-empty array exactly when every threshold is strictly less than its successor (NaN compares false), and returns the array unchanged.", "quantifier": "for every array length and contents", "why_tests_cant": "all arrays", "anchors": ["core/src/metric/histogram.rs: Thresholds::with_buckets"]}
{"id": "C28", "title": "Accepted thresholds give well-formed buckets", "statement": "Thresholds accepted by any of the three constructors are strictly increasing finite numbers, so that exported le series are distinct. (Found false: NaN for N=1, +Inf as last threshold, rounding in linear_buckets/exponential_buckets.)", "quantifier": "for every constructor call that does not panic", "why_tests_cant": "all floats", "anchors": ["core/src/metric/histogram.rs: Thresholds::exponential_buckets, linear_buckets, with_buckets"]}
{"id": "C29", "title": "Linear buckets never decrease", "statement": "Thresholds::linear_buckets(start, width) with finite start and finite width > 0 yields N thresholds, the first equal to start, each at least as large as the previous one in spite of rounding and overflow; it panics exactly when width > 0 is false.", "quantifier": "for all N, start, width", "why_tests_cant": "all floats", "anchors": ["core/src/metric/histogram.rs: Thresholds::linear_buckets"]}
{"id": "C30", "title": "NaN observations do not count as small", "statement": "An observation of NaN is not counted in a bucket le=t for a finite t. (Found false: it is counted in the lowest bucket.)", "quantifier": "for every threshold list", "why_tests_cant": "values tests do not use", "anchors": ["core/src/metric/histogram.rs: observe"]}
{"id": "C31", "title": "Timers observe at most once", "statement": "A histogram timer records exactly one observation: at drop, or at the explicit observe call and then not again at drop; after forget it records none. The observed value is the elapsed time at that moment, and starting a timer records nothing.", "quantifier": "for every interleaving of lifecycle calls on any number of timers", "why_tests_cant": "all lifecycles", "anchors": ["core/src/metric/histogram.rs: HistogramTimer, HistogramVecTimer"]}
{"id": "C32", "title": "Metric name validation matches the documented grammar", "statement": "MetricName::from_str accepts exactly the strings matching [a-zA-Z_:][a-zA-Z0-9_:]* and try_from_str accepts the same strings, reporting an error for the others. (from_str: proved. try_from_str found false: it accepts '-'.)", "quantifier": "for every byte string", "why_tests_cant": "infinitely many strings", "anchors": ["core/src/metric/name.rs: const_assert_metric_name, try_assert_metric_name, MetricName::from_str, try_from_str"]}
{"id": "C33", "title": "Label name validation matches the documented grammar", "statement": "LabelName::from_str accepts exactly the strings matching [a-zA-Z_][a-zA-Z0-9_]* and panics on all others.", "quantifier": "for every byte string", "why_tests_cant": "infinitely many strings", "anchors": ["core/src/label/name.rs: assert_label_name, LabelName::from_str"]}
{"id": "C34", "title": "Encoded name length equals the bytes written", "statement": "For every name built from a base name, any nesting of namespaces and any suffix, encode_len equals the number of bytes encode_utf8 writes, and these bytes are the namespaces joined with '_' followed by the base name and the suffix.", "quantifier": "for every nesting depth and contents", "why_tests_cant": "unbounded nesting", "anchors": ["core/src/metric/name.rs: MetricNameEncoder for MetricName, WithNamespace, WithSuffix, Total, Count, Sum, Bucket"]}
{"id": "C35", "title": "Namespaces and suffixes keep names valid", "statement": "Joining valid namespaces and a valid base name, and adding any of the suffixes, gives a valid metric name.", "quantifier": "for every nesting", "why_tests_cant": "unbounded nesting", "anchors": ["core/src/metric/name.rs: WithNamespace, WithSuffix", "core/src/metric/group.rs: WithNamespace"]}
{"id": "C36", "title": "Label values survive escaping", "statement": "The text between the quotes of a label value decodes (by the exposition format's rules) to exactly the original string, contains no raw newline and no unescaped quote, so different values give different text and a value can never end its own quotes or line.", "quantifier": "for every byte string", "why_tests_cant": "infinitely many strings; injection attacks", "anchors": ["core/src/text.rs: write_label_str_value"]}
{"id": "C37", "title": "A text scrape parses back to the registered metrics", "statement": "A parser for the Prometheus text format applied to everything the text encoder wrote returns exactly the sequence of HELP, TYPE and sample lines of the collected metrics: same names (with namespaces), same labels in order with the original values, same integer values, in order.", "quantifier": "for every group tree of counters, gauges and histograms with valid names and newline-free help, every label content and value", "why_tests_cant": "unbounded inputs; whole-format round trip", "anchors": ["core/src/text.rs: TextEncoder, write_metric_value, MetricEncoding impls", "core/src/metric/group.rs"]}
{"id": "C38", "title": "Families are framed correctly", "statement": "In text output a blank line appears exactly between the samples of one family and the header of the next, never inside a family, before the first or after the last; a family's HELP precedes its TYPE precedes its samples.", "quantifier": "for every sequence of families, with or without help, including empty ones", "why_tests_cant": "all sequences of encoder calls", "anchors": ["core/src/text.rs: write_help, write_type, write_metric_value, TextEncoder::flush"]}
{"id": "C39", "title": "Encoders can be reused after finish", "statement": "BufferedTextEncoder::finish returns exactly the bytes of the collection since the previous finish and leaves the encoder equivalent to a new one: n collections give the same n outputs as n fresh encoders.", "quantifier": "for every sequence of collections", "why_tests_cant": "all histories", "anchors": ["core/src/text.rs: BufferedTextEncoder::finish, TextEncoder::flush"]}
{"id": "C40", "title": "Help text cannot break the exposition", "statement": "Whatever the help text, the encoder writes it as a single HELP line. (Found false: line feeds in help are written raw.)", "quantifier": "for every help string", "why_tests_cant": "infinitely many strings", "anchors": ["core/src/text.rs: write_help", "derive/src/metric_group/attr.rs: docs"]}
{"id": "C41", "title": "Write errors are reported", "statement": "If the underlying writer fails and keeps failing, collection returns an error and the bytes written are a prefix of the complete output. If collection returns Ok, every byte of the exposition has been written. (Second part found false for writers that fail once inside a label.)", "quantifier": "for every group, every writer failing at any point", "why_tests_cant": "all crash points", "anchors": ["core/src/text.rs: write_metric_value line 186", "core/src/metric/group.rs: ComposedGroup"]}
{"id": "C42", "title": "Text output is valid UTF-8", "statement": "The text encoder's output is valid UTF-8 whenever the names, help texts and label values are.", "quantifier": "for every group", "why_tests_cant": "infinitely many strings", "anchors": ["core/src/text.rs"]}
{"id": "C43", "title": "Group traversal order and naming", "statement": "Collecting a derived metric group visits its fields in declaration order, emits help only for documented fields, applies each namespace exactly once from outermost to innermost, composes groups left to right, skips None, and stops at the first error, for any encoder.", "quantifier": "for every finite group tree and every encoder", "why_tests_cant": "unbounded trees", "anchors": ["derive/src/metric_group/to_tokens.rs", "core/src/metric/group.rs"]}
{"id": "C44", "title": "Varint length formula is exact", "statement": "encoded_len_varint(v) equals the number of bytes encode_varint writes, between 1 and 10, and decoding these bytes by the protobuf rules returns v and consumes exactly them, for every u64.", "quantifier": "for all 2^64 values", "why_tests_cant": "2^64 values", "anchors": ["prometheus-proto/src/encoding.rs: encode_varint, encoded_len_varint"]}
{"id": "C45", "title": "Announced protobuf lengths are exact", "statement": "Every length announced by the protobuf encoder (label pairs, metric, value sub-messages, whole family) equals the number of bytes that follow for that message.", "quantifier": "for every label list, value, family", "why_tests_cant": "unbounded inputs", "anchors": ["prometheus-proto/src/lib.rs: GroupLenVisitor, LenVisitor, message_len, encode_message, flush_buf"]}
{"id": "C46", "title": "A protobuf scrape parses back to the registered metrics", "statement": "Decoding the length-delimited protobuf output gives the sequence of non-empty families with their own name, help, type, labels and values. (Proved unless a documented empty family is followed, through undocumented empty ones, by an undocumented non-empty one; false then, see C47.)", "quantifier": "for every sequence of families of counters and gauges", "why_tests_cant": "unbounded inputs; whole-format round trip", "anchors": ["prometheus-proto/src/lib.rs: ProtoEncoder"]}
{"id": "C47", "title": "Protobuf metrics are never attributed to another family", "statement": "A sample in the protobuf output is always inside a family message carrying the name under which it was registered. (Found false: an empty documented family followed by an undocumented one.)", "quantifier": "for every sequence of families", "why_tests_cant": "needs an unusual sequence", "anchors": ["prometheus-proto/src/lib.rs: flush_buf, write_help, write_type"]}
{"id": "C48", "title": "Protobuf values are exact up to 2^53", "statement": "A counter or gauge whose value has magnitude at most 2^53 is exported in protobuf as a double equal to it; above that, different values may be exported as the same double.", "quantifier": "for every u64/i64", "why_tests_cant": "2^64 values", "anchors": ["prometheus-proto/src/lib.rs: collect_into for CounterState, GaugeState"]}
{"id": "C49", "title": "A failed protobuf write does not corrupt later families", "statement": "After a write error, continuing to use the encoder does not emit samples of an earlier family under a later family's name. (Found false.)", "quantifier": "for every failing writer and continuation", "why_tests_cant": "all crash points", "anchors": ["prometheus-proto/src/lib.rs: flush_buf"]}
{"id": "C50", "title": "Process collector reports the requested process", "statement": "ProcessCollector::new(pid) exports the figures of process pid. (Found false for start time: it reads the calling process.)", "quantifier": "for every pid and process table", "why_tests_cant": "tests only use the own pid", "anchors": ["process/src/lib.rs: ProcessCollector::new, collect_group_into"]}
{"id": "C51", "title": "Bundled collectors emit well-formed families", "statement": "Every family written by the process and tokio collectors carries HELP and TYPE information before its samples. (Found false: no TYPE is ever written, and in protobuf the families have no type.)", "quantifier": "for every runtime/process state", "why_tests_cant": "all states", "anchors": ["process/src/lib.rs: collect_group_into", "tokio/src/lib.rs: collect"]}
{"id": "C52", "title": "Tokio poll-time histogram is cumulative", "statement": "The bucket series written for each tokio worker are non-decreasing in bucket order and the last one is the total of all buckets.", "quantifier": "for every runtime state", "why_tests_cant": "all states", "anchors": ["tokio/src/lib.rs: collect lines 307-323, histogram_le"]}
{"id": "C53", "title": "Sparse vec operations are atomic per label under concurrency", "statement": "In every schedule of get_metric+update, remove_metric and collection by any number of threads on a sparse vec: at most one metric exists per label, no update is lost (each update is in the current metric or in exactly one removed metric), and a handed-out reference always points to a live entry.", "quantifier": "for every number of threads, programs, schedules, hash functions", "why_tests_cant": "all schedules", "anchors": ["core/src/metric/sparse.rs: get_metric, remove_metric", "core/src/metric.rs: MetricLockGuard"]}
{"id": "C54", "title": "Dense vec initialises each metric once under concurrency", "statement": "In every schedule, concurrent first accesses to the same dense label all get the same single metric and no update is lost.", "quantifier": "for every schedule", "why_tests_cant": "all schedules", "anchors": ["core/src/metric.rs: VecInner::get_metric (OnceLock)"]}
{"id": "C55", "title": "No deadlock between observers, lookups, removals and collections", "statement": "As long as each thread holds at most one metric guard at a time, some thread can always make progress: no schedule of vec operations, histogram observations and collections ends in a deadlock, even if waiting writers block new readers.", "quantifier": "for every number of threads, programs and reachable state", "why_tests_cant": "all schedules", "anchors": ["core/src/metric/sparse.rs", "core/src/metric/histogram.rs", "core/src/metric.rs: collect_family_into"]}
{"id": "C56", "title": "Tokio samples are distinct series", "statement": "No two samples exported by the tokio collectors have the same shown name and labels. (Found false when two runtimes are added under one name; true when the names differ.)", "quantifier": "for every list of runtimes with any readings, every namespace nesting", "why_tests_cant": "all runtimes and readings; duplicates only show in a scraper", "anchors": ["tokio/src/lib.rs: NamedRuntimesCollector::add, collect"]}
{"id": "C57", "title": "Attributes of the derive macros are read as documented", "statement": "The derive macros accept a label group, label enum or metric group exactly when every argument of its label/metric attributes is known, well formed and given at most once (and incompatible arguments are not combined), the shown names are valid and their generated constants distinct; and then every argument means what it says: rename, rename_all, discriminants, singleton, fixed, fixed_with, dynamic_with, default, namespace, flatten, init, metadata, label_set and doc comments, however the arguments are spread over attributes and ordered.", "quantifier": "for every struct or enum, every list of attributes and arguments in any order", "why_tests_cant": "the space of attribute combinations is unbounded, and each wrong acceptance is a compile-time behaviour that needs its own crate to observe", "anchors": ["derive/src/label_group/attr.rs", "derive/src/label_group/parse.rs", "derive/src/value/attr.rs", "derive/src/value/parse.rs", "derive/src/metric_group/attr.rs", "derive/src/metric_group/parse.rs"]}
{"id": "C58", "title": "The labels of a sample are those of its group, each once", "statement": "A derived label group is shown as its fields in declaration order, under their names (renamed where asked for) and with each value as its enum or set shows it; label names of a group accepted by the macro are valid and distinct; and every sample line of a scrape has each label once, provided composed groups share no label and no histogram has a label called le. Without these conditions labels are written twice.", "quantifier": "for every derived group, every set, every value, every composition, every scrape", "why_tests_cant": "all structs, renames and compositions; a doubled label is rejected by the scraper, not by the library", "anchors": ["derive/src/label_group/to_tokens.rs", "core/src/label/group.rs: ComposedGroup, visit_values", "core/src/text.rs: write_metric_value, HistogramState"]}
{"id": "C59", "title": "Different label groups of a vec are different series", "statement": "Two different groups of a set are shown as different label sets, so that no two samples a vec exports after any operations are the same series, provided the variants of each enum are shown by different texts; the bounds of a histogram are distinct series if the thresholds are distinct and finite and the float formatter is faithful. Variants shown by the same text make two series one.", "quantifier": "for every set, every pair of groups, every operation sequence on dense and sparse vecs, every histogram", "why_tests_cant": "all pairs of groups; duplicates only show in a scraper", "anchors": ["derive/src/value/to_tokens.rs", "derive/src/label_group/to_tokens.rs", "core/src/metric.rs: collect_family_into", "core/src/text.rs"]}
{"id": "C60", "title": "A scrape has no series, HELP or TYPE line twice", "statement": "Collecting a group tree with a fresh text encoder gives text in which no series occurs twice, no name has two HELP or two TYPE lines and no sample has a label twice, provided the full names of its families are distinct, none is called like the _bucket, _sum or _count line of a histogram of the tree, and each family has distinct label sets; for a derived struct without subgroups the names are distinct by construction. Flattened groups with a common name, namespaces that run into each other and a counter called like a line of a histogram are accepted and break this.", "quantifier": "for every group tree, every metric value, every reliable writer", "why_tests_cant": "all group trees; a clash needs names chosen in different crates to meet", "anchors": ["core/src/metric/group.rs", "derive/src/metric_group/to_tokens.rs", "core/src/text.rs", "core/src/metric/name.rs: WithNamespace"]}
{"id": "C61", "title": "Generated constructors put every argument into its field", "statement": "The generated new of a label set struct takes one argument for each field without a default, dynamic fields first, each in declaration order, and stores each in its own field while the others get their defaults; the generated new of a metric group initialises each field by the expression its attributes ask for.", "quantifier": "for every struct accepted by the macros and every argument list", "why_tests_cant": "all structs and attribute combinations", "anchors": ["derive/src/label_group/to_tokens.rs: new", "derive/src/metric_group/to_tokens.rs: new"]}
{"id": "C62", "title": "What users call is what a scrape reports", "statement": "After any sequence of calls on a counter, gauge or histogram vec over a derived label group, a text scrape of any group tree containing the vec has one block of lines for each group that was updated (and not removed since) and no other; a counter line shows the sum of the group's increments, a gauge line the exact result of its calls in order, a histogram its cumulative bucket counts, sum and count, each under the labels of the group. A call panics only if the label set refuses the group or the update itself overflows in a debug build.", "quantifier": "for every label set, every call sequence, dense and sparse vecs, every hash function and table order, every surrounding group tree, every reliable writer", "why_tests_cant": "all call sequences and label values; tests compare a handful of hand-written scrapes", "anchors": ["core/src/metric/counter.rs: CounterVec", "core/src/metric/gauge.rs: GaugeVec, FloatGaugeVec", "core/src/metric/histogram.rs: HistogramVec", "core/src/metric.rs", "core/src/text.rs"]}
{"id": "C63", "title": "Threads agree on label ids", "statement": "Threads that look up and decode groups in the same label set, interning through interners that fields, threads and outside code may share, never panic on a lookup; an id that any of them got keeps denoting its group: it decodes to the group from then on, also while others intern, looking the group up again gives the same id and changes nothing, and ids of different groups are different. A group is refused only if at some moment one of its fields refused its value. Uninterrupted lookups do what the sequential functions do.", "quantifier": "for every label set, every assignment of interners to fields, every initial content, every program of any number of threads, every schedule", "why_tests_cant": "all interleavings; a wrong order of two intern calls shows up only as another thread's metric", "anchors": ["derive/src/label_group/to_tokens.rs: encode, decode", "core/src/label/impls.rs: ThreadedRodeo, Arc"]}
{"id": "C64", "title": "Calls by many threads add up and collections stay within them", "statement": "Threads update, delete and collect one sparse vec over a derived label set at the same time. A call does what it is for, or panics because a field refused its value at some moment; nothing else panics. When no call is under way, the counter (the observation count of the histogram) of a group is the sum of what the updates of that group added less what its deletions returned, and every row belongs to a group that was updated. A collection has every group at most once and only groups someone began to update; if nobody deletes a group, a collection begun after an update of it returned reports it, with a value at least what had been added when the collection began and at most what calls begun before it ended add.", "quantifier": "for every label set and assignment of interners, every number of shards and hash function, every program of any number of threads, every schedule; totals modulo 2^64, brackets for totals below 2^64", "why_tests_cant": "all interleavings of whole calls, including deletions between lookup and use", "anchors": ["core/src/metric.rs: get_metric, remove_metric, with_labels, collect_family_into", "core/src/metric/sparse.rs", "core/src/metric/counter.rs: CounterVec", "core/src/metric/histogram.rs: HistogramVec", "derive/src/label_group/to_tokens.rs: encode, decode"]}
{"id": "C65", "title": "What users call is what a protobuf scrape reports", "statement": "After any sequence of calls on a counter, gauge or float gauge vec over a derived label group, a protobuf scrape of any group tree containing the vec decodes to a stream with one message for the vec, with its name, help text and type and exactly one metric for each group that was updated, labelled as the group: for a counter the sum of the group's increments, for a gauge the exact result of its calls in order, each exact up to 2^53 and within one part in 2^53 above, and for a float gauge the bits of the result.", "quantifier": "for every label set, every call sequence, dense and sparse vecs, every hash function and table order, every surrounding group tree outside the sequences of C47, every reliable writer, every stream shorter than 2^64 bytes", "why_tests_cant": "all call sequences and label values; tests decode two hand-written scrapes", "anchors": ["prometheus-proto/src/lib.rs", "core/src/metric/counter.rs: CounterVec", "core/src/metric/gauge.rs: GaugeVec, FloatGaugeVec", "core/src/metric.rs"]}
{"id": "C66", "title": "Relaxed atomics lose nothing", "statement": "Under the memory model of the language rather than interleaving: for every execution in which the accesses of calls on one metric satisfy the coherence axioms, there is one order of the updates, consistent with happens-before, such that every read of a counter, gauge or float gauge returns what a prefix of that order makes of the initial value; the prefix has every update that happened before the read and none that happened after, and grows along happens-before. A read after all updates is the exact total; otherwise a counter below 2^64 lies between what happened before and what did not happen after. A sample of a histogram under its lock has exactly the observations that happened before it, in every bucket and in the sum.", "quantifier": "for every consistent execution graph, every number of threads and calls, every choice of the writes that loads see, every number of failed compare-exchanges", "why_tests_cant": "all weak-memory executions; x86 hardware shows almost none of them", "anchors": ["core/src/metric/counter.rs: inc, inc_by", "core/src/metric/gauge.rs: GaugeLockGuard, FloatGaugeLockGuard, AtomicF64", "core/src/metric/histogram.rs: observe, sample"]}
{"id": "C67", "title": "The example server reports the requests it has served", "statement": "The server of examples/axum-server counts a request, times its handler and counts its response, for any number of concurrent requests whose steps interleave in any order, with clients giving up at any moment and scrapes in between, all label sets sharing one interner. It panics only when a path arrives that the interner refuses. Every scrape parses to exactly three families: for each path and method the number of requests that arrived, for each path, method and status the number of responses, and for each path and method the bucket counts, sum and count of the handlers' times. Requests less times are the requests inside; times are responses plus handlers given up plus those about to be counted.", "quantifier": "for every sequence of steps of requests and scrapes shorter than 2^63, every path and method, every status code, every interner, every hash function and table order, both kinds of build", "why_tests_cant": "all interleavings of requests and scrapes; the example has no tests", "anchors": ["examples/axum-server/src/metrics.rs: AppMetrics, middleware, handler, StatusCode", "core/src/metric/histogram.rs: HistogramVecTimer", "core/src/text.rs: BufferedTextEncoder", "core/src/label/impls.rs: ThreadedRodeo, Arc"]}
{"id": "C68", "title": "Calls by many threads on a dense vec add up, and counts stay within them", "statement": "Threads update, try to remove from, collect and count one dense vec at the same time, over any label set of known cardinality: a derived set, an enum set or any composition. A call does what it is for, or panics because the label set lacks the group; nothing else panics and nothing is removed. When no call is under way, the counter (the observation count of the histogram) of a group is the sum of what its updates added, and exactly the groups that were updated have a metric. A collection has groups in the order of the label set, each at most once, only groups someone began to update, and every group updated before it began, with a value between what had been added then and what calls begun before its end add. get_cardinality is at least the number of groups updated before it began and at most the number begun to be updated by its end.", "quantifier": "for every composition of derived and enum label sets with a cardinality, every metric, every program of any number of threads, every schedule; totals modulo 2^64, brackets for totals below 2^64", "why_tests_cant": "all interleavings of whole calls, including two threads initialising one cell while a third walks the cells", "anchors": ["core/src/metric.rs: get_metric, remove_metric, with_labels, collect_family_into, get_cardinality", "core/src/metric/counter.rs: CounterVec", "core/src/metric/histogram.rs: HistogramVec", "core/src/label/group.rs: ComposedGroup"]}
{"id": "C69", "title": "A protobuf scrape has no message, series or label twice", "statement": "A protobuf scrape of a group whose families have different full names decodes to messages with different names; within a message no two metrics have the same set of labels, no metric has a label twice, every label has a name and a value, every message has metrics, and each metric has exactly the one value that the type of its message asks for. Families that share a name through flattening, enum variants shown by the same text, and composed groups with a common label do break this (witnesses).", "quantifier": "for every group tree of counters, gauges, float gauges and vecs of them outside the sequences of C47, every reliable writer, every stream shorter than 2^64 bytes", "why_tests_cant": "all group trees; uniqueness over the whole stream is never checked by the tests", "anchors": ["prometheus-proto/src/lib.rs", "core/src/lib.rs: MetricGroup", "core/src/label/group.rs: visit_values"]}
{"id": "C70", "title": "Text and protobuf scrapes report the same", "statement": "Scraping one group in both formats and reading both outputs back gives the same: the sample lines of the text fall into one block per protobuf message, in the same order, with one line per metric in the same order, with the same family name, the same label names and values, and the same value (an integer as a double that is exact up to 2^53 and within one part in 2^53 above). If the names of families are different, the HELP and TYPE lines of a message's name are exactly its help text and type. A documented vec without samples in front of an undocumented family makes the formats differ (witness).", "quantifier": "for every group tree of counters, gauges, float gauges and vecs of them outside the sequences of C47, every pair of builds and reliable writers", "why_tests_cant": "two encoders written independently, compared on all inputs; no test compares them", "anchors": ["core/src/text.rs", "prometheus-proto/src/lib.rs", "core/src/lib.rs: MetricGroup"]}
{"id": "C71", "title": "Threads making whole calls on a vec never deadlock", "statement": "Any number of threads update, delete from and collect one sparse vec, or update, collect and count one dense vec, through the public methods. In every reachable state in which some thread has something left to do, some thread can take its next step whatever the locks and the hardware decide, although shard locks may prefer waiting writers over readers, a collection holds a shard while it reads every metric in it, a histogram has a lock of its own inside, and cells are initialised by one thread while others wait. The methods get by with one guard at a time, which is the condition C55 puts on programs; a program that keeps a guard across calls can block itself (C55_two_guards_refuted).", "quantifier": "for every metric, every program of any number of threads and calls, every schedule, every label set, every hash function", "why_tests_cant": "a deadlock needs one interleaving out of all; a test that does not hang shows nothing", "anchors": ["core/src/metric.rs: get_metric, remove_metric, collect_family_into, get_cardinality", "core/src/metric/sparse.rs", "core/src/metric/histogram.rs: observe, sample", "core/src/metric/counter.rs: CounterVec"]}
{"id": "C72", "title": "Ids of other vecs disturb only the groups they are taken for", "statement": "A LabelId names the type of the label set and not the vec that issued it, and get_metric, get_metric_mut and remove_metric accept it unchecked. Mix any calls with arbitrary ids into any program on a vec. Then every lookup gives the same, every access and removal through an own id whose group none of the other ids is taken for gives the same, and every collection contains the same rows but for groups that one of the other ids is taken for. A sparse vec takes an id for the group it decodes to, a dense vec for the group at the position it carries. An id acts exactly like one of the vec's own if it has the same two parts, or on a dense vec if it is taken for the same group. Panics happen only where an id carries a position beyond a dense vec, which always panics, and at collections of a sparse vec when one of the ids decodes to nothing.", "quantifier": "for every lawful label set, metric, world (hash, probing, growth, iteration order), every constructed vec, every program with any number of ids of any content", "why_tests_cant": "the behaviour is documented as undefined; tests use ids as documented, and the damage depends on hash values and table growth", "anchors": ["core/src/metric.rs: LabelId, get_metric, get_metric_mut, remove_metric", "core/src/metric/sparse.rs"]}
{"id": "C73", "title": "The tokio collectors export exactly the figures of the runtimes", "statement": "For a single runtime and for any list of runtimes added under names, the samples exported are exactly the figures tokio gives: each under its family, with its suffix, its labels and its value, the runtime label present exactly when a name was given, one sample per worker where tokio counts per worker, cumulative buckets of the poll times, and the families of the IO driver exactly with the feature net; the families come in a fixed order with fixed help texts.", "quantifier": "for every number of runtimes, workers and buckets, every figure below 2^63, every encoder and namespace, both kinds of build, with and without the feature net", "why_tests_cant": "all answers of a runtime; the crate has no test of the values", "anchors": ["tokio/src/lib.rs: RuntimeCollector, NamedRuntimesCollector, collect", "core/src/metric/counter.rs: write_counter", "core/src/metric/gauge.rs: write_gauge, write_float_gauge"]}
{"id": "C74", "title": "Successive collections of a shared vec never go backwards", "statement": "Any number of threads update, delete from and collect one sparse vec, or update, collect and count one dense vec, through the public methods. A collection that begins after another one has ended, by the same thread or another, shows every group the first one showed unless the group is deleted, and its value is the earlier one after further calls on the same metric: a counter is no less, and no bucket of a histogram is less, as long as the counts stay below 2^64. On dense vecs get_cardinality never goes back. After a deletion the count starts again (witness).", "quantifier": "for every metric, every program of any number of threads and calls, every schedule, every label set, every hash function", "why_tests_cant": "Prometheus takes a decrease for a restart; a decrease needs one interleaving of two collections and other calls out of all", "anchors": ["core/src/metric.rs: get_metric, remove_metric, with_labels, collect_family_into, get_cardinality", "core/src/metric/sparse.rs", "core/src/metric/counter.rs: CounterVec", "core/src/metric/histogram.rs: HistogramVec, sample"]}
{"id": "C75", "title": "Scrapes taken while threads work can be trusted line by line", "statement": "Threads update and collect a shared vec through the public methods while one of them scrapes the group it is in. The text of the scrape parses; between the lines of the rest of the group it has a TYPE line for the vec and then the lines of each group met, each group once and under its own label values. For a counter vec the number read from each line lies between what had been added when the collection began and what calls begun by its end may add, and so does the count of a histogram for observations; every group updated before, and never deleted, has its line; no group has one that nobody has begun to update. Of two scrapes one after the other the second has every series of the first with at least its value, for counters and for buckets and counts of histograms, unless a group is deleted: rates computed by a reader are never negative. The same for dense vecs, in the order of the label set.", "quantifier": "for every program of any number of threads and calls, every schedule, every label set, namespace and surrounding group, every hash function, all values below 2^63, every writer that does not fail", "why_tests_cant": "joins interleavings with the parsing of texts; a test sees one schedule and one text", "anchors": ["core/src/metric.rs: collect_family_into", "core/src/text.rs: CounterState, HistogramState collect_into, write_metric_value", "core/src/metric/sparse.rs", "core/src/metric/counter.rs: CounterVec", "core/src/metric/histogram.rs: HistogramVec"]}
{"id": "C76", "title": "Counts of a sparse vec taken while threads use it", "statement": "Threads update, delete from, collect and count one sparse vec through the public methods. The number get_cardinality gives is the size of a set of groups: only of groups that someone began to update before the count ended, and with every group of which an update had returned when the count began, unless the group is deleted. So it is exact when no group is new and none is deleted, and where nothing is deleted a count that begins after another has ended is no smaller. It need not be the size of the vec at any moment, since shards are counted one after the other (witness: two, though there was never more than one).", "quantifier": "for every metric, every program of any number of threads and calls, every schedule, every label set, every hash function and number of shards", "why_tests_cant": "the count takes and releases one shard lock after another; what other threads do in between is one interleaving out of all", "anchors": ["core/src/metric.rs: get_cardinality", "core/src/metric/sparse.rs: get_cardinality", "core/src/metric/counter.rs: CounterVec"]}
{"id": "C77", "title": "Calls made by threads come to an end", "statement": "Threads use one vec through the public methods, each making a bounded number of calls. Whatever the schedule, the steps that do something are bounded by a constant plus a constant for each time the hardware fails a compare_exchange_weak without a reason: exchanges that fail because another thread wrote are paid for by that thread, and no loop of lookups, insertions, observations or collections goes round for ever. So under a schedule that leaves no thread out for ever and has boundedly many such failures all calls of all threads return; counters need no more than fairness. An exchange that always fails keeps its thread for ever (witness).", "quantifier": "for every metric, every program of any number of threads with boundedly many calls each, every infinite fair schedule, every label set, hash function and number of shards; sparse and dense vecs", "why_tests_cant": "a statement about infinite runs; no test is long enough, and a livelock needs a particular interleaving", "anchors": ["core/src/metric/sparse.rs: get_metric, remove_metric, get_cardinality", "core/src/metric/gauge.rs: AtomicF64::inc_by", "core/src/metric/histogram.rs: observe, sample", "core/src/metric.rs: get_metric, remove_metric, collect_family_into, get_cardinality"]}
{"id": "C78", "title": "Protobuf scrapes taken while threads work can be trusted", "statement": "Threads update and collect a shared vec through the public methods while one of them scrapes the group it is in through the protobuf encoder. The stream written reads back; between the messages of the rest of the group it has one message for the vec, with its full name, help text and kind, and in it one metric for each group met, each once and under its own label values. For a counter vec each double is that of a number between what had been added when the collection began and what calls begun by its end may add; every group updated before, and never deleted, is there, and none that nobody has begun to update. Of two scrapes one after the other the second has every counter of the first and its double is no less, unless a group is deleted. The same for dense vecs, in the order of the label set.", "quantifier": "for every program of any number of threads and calls, every schedule, every label set, namespace and surrounding group, every hash function, all totals below 2^64, every writer that does not fail, every stream shorter than 2^64 bytes", "why_tests_cant": "joins interleavings with length prefixes and rounding of counts to doubles; a test sees one schedule and one stream", "anchors": ["core/src/metric.rs: collect_family_into", "prometheus-proto/src/lib.rs: ProtoEncoder, collect_into", "core/src/metric/sparse.rs", "core/src/metric/counter.rs: CounterVec"]}
{"id": "C79", "title": "Every row of a collection is its metric at one moment, also for gauges", "statement": "Threads update, collect and delete from one shared vec through the public methods. For each row of a collection, of a group nobody deletes, there is a history of calls on that metric, one after the other, in which every thread has made all the writes it had finished when the collection began, then perhaps some of those it had begun by its end, in its own order and with none left out between; the row is what is read after that history. So for gauges that are only raised and lowered bounds on what each thread may have added add up to bounds on the row; a gauge of things in flight, raised when one begins and lowered when it ends, is never collected below zero or above the number of threads; and a gauge or float gauge that one thread writes, also by setting it, is collected as the value after an initial part of its writes. The same for dense vecs, and for single gauges and float gauges under the memory model, where a read sees an initial part of the writes of every thread with all that happen before it and none that happen after it.", "quantifier": "for every metric, every program of any number of threads and calls, every schedule, every label set and hash function; sums of gauges between -2^63 and 2^63", "why_tests_cant": "a gauge goes up and down, so sums of finished and begun calls say nothing; a lost or reordered update shows only in one interleaving with a collection", "anchors": ["core/src/metric/gauge.rs: GaugeLockGuard, FloatGaugeLockGuard, AtomicF64::inc_by, set, get", "core/src/metric.rs: get_metric, with_labels, collect_family_into", "core/src/metric/sparse.rs"]}
{"id": "C80", "title": "Rows of vecs under the memory model of atomics", "statement": "The metrics of a vec are atomics accessed relaxed, and threads update and collect the vec under the memory model instead of interleaving. A row of a collection of a counter vec is exact if all increments of its metric happen before the collection; as long as the total does not wrap it has all that happen before and none of those that happen after, and it is no less than the row of a collection that happens before. A row of a gauge or float gauge is the value after an initial part of the writes to its metric by each thread, with those before the collection and without those after it, and later collections see more of the same order of writes; so things in flight are collected between zero and the number of threads, gauges are exact after all writes, and one writer is seen at a moment of its own. A row of a histogram vec has exactly the observations of its histogram that happen before it, in all buckets and the sum, and its buckets do not fall from one collection to a later one. Rows of different metrics need not belong together (witness: one collection sees a later update of a thread and not an earlier one).", "quantifier": "for every execution the axioms of the memory model allow, any number of cells, calls, threads and collections, rows in any order; sums of gauges between -2^63 and 2^63", "why_tests_cant": "hardware and compilers rarely show the reorderings that relaxed accesses allow, x86 hardly any", "anchors": ["core/src/metric.rs: collect_family_into", "core/src/metric/counter.rs: CounterVec", "core/src/metric/gauge.rs: GaugeVec, FloatGaugeVec, AtomicF64", "core/src/metric/histogram.rs: HistogramVec, observe, sample", "core/src/text.rs: collect_into"]}
{"id": "C81", "title": "Scrapes under the memory model of atomics can be trusted", "statement": "Threads use the metrics of a vec, atomics accessed relaxed, under the memory model instead of interleaving, and the vec is scraped as part of a group through the text encoder. The text parses; between the lines of the rest of the group it has a TYPE line and then, for each row of the collection in its order, the lines of that metric under its labels. The number of a counter is exact after all increments, has all increments that happen before the collection and none that happen after, and of two scrapes one before the other no counter falls. The number of a gauge or float gauge is the value after an initial part of the writes to it by each thread, with those before the collection and without those after it; of things in flight it is between zero and the number of threads. The buckets, sum and count of a histogram are those of exactly the observations that happen before it was sampled, and do not fall except for the sum. Through the protobuf encoder the stream reads back, with one message for the vec and in it a metric for each row, of which the same holds for counters and gauges up to rounding to doubles; a float gauge that one thread writes is shown to the bit as it was after an initial part of that thread's writes.", "quantifier": "for every execution the axioms of the memory model allow, any number of cells, calls, threads and collections, every labelling of the cells, namespace and surrounding group, both builds, totals below 2^63, every writer that does not fail", "why_tests_cant": "hardware and compilers rarely show the reorderings that relaxed accesses allow; a test sees one execution and one text", "anchors": ["core/src/metric.rs: collect_family_into", "core/src/text.rs: TextEncoder, collect_into", "prometheus-proto/src/lib.rs: ProtoEncoder, collect_into", "core/src/metric/counter.rs: CounterVec", "core/src/metric/gauge.rs: GaugeVec, FloatGaugeVec", "core/src/metric/histogram.rs: HistogramVec, observe, sample"]}
