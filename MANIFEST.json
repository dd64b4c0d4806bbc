{
 "claims": [
  {
   "property": "C01",
   "status": "proved",
   "theorems": [
    "C01_enum_bijection"
   ],
   "note": ""
  },
  {
   "property": "C02",
   "status": "proved",
   "theorems": [
    "C02_fixed_set_bijection"
   ],
   "note": ""
  },
  {
   "property": "C03",
   "status": "proved",
   "theorems": [
    "C03_group_bijection",
    "C03_dense_index"
   ],
   "note": ""
  },
  {
   "property": "C04",
   "status": "proved",
   "theorems": [
    "C04_dynamic_ids_stable",
    "C04_histories_exist"
   ],
   "note": "Encode calls are atomic steps; sharing one interner between several fields is not modelled."
  },
  {
   "property": "C05",
   "status": "proved",
   "theorems": [
    "C05_rejected_iff_unknown"
   ],
   "note": ""
  },
  {
   "property": "C06",
   "status": "partial",
   "theorems": [
    "C06_distinct_ids_refuted",
    "C06_collision_free_iff",
    "C06_debug_panics"
   ],
   "note": "REFUTED in release builds (65 two-valued fields collide). Proved instead: collision free iff the product of cardinalities is at most 2^64; debug builds panic on every member from 2^64 on."
  },
  {
   "property": "C07",
   "status": "proved",
   "theorems": [
    "C07_dense_lexicographic",
    "C07_dense_collection_order"
   ],
   "note": ""
  },
  {
   "property": "C08",
   "status": "proved",
   "theorems": [
    "C08_composed_lawful",
    "C08_nested_compositions_lawful"
   ],
   "note": ""
  },
  {
   "property": "C09",
   "status": "proved",
   "theorems": [
    "C09_vec_is_a_map",
    "C09_spec_deterministic"
   ],
   "note": "Sequential client programs using ids issued by the same vec (foreign ids are documented as unspecified); concurrent use is C53/C54."
  },
  {
   "property": "C10",
   "status": "proved",
   "theorems": [
    "C10_storage_irrelevant"
   ],
   "note": ""
  },
  {
   "property": "C11",
   "status": "proved",
   "theorems": [
    "C11_storage_choice"
   ],
   "note": ""
  },
  {
   "property": "C12",
   "status": "proved",
   "theorems": [
    "C12_lookup_creates_nothing",
    "C12_ids_equal_iff"
   ],
   "note": ""
  },
  {
   "property": "C13",
   "status": "proved",
   "theorems": [
    "C13_shard_in_bounds",
    "C13_shards_exist"
   ],
   "note": "Assumes 4 * parallelism fits in half the address space."
  },
  {
   "property": "C14",
   "status": "proved",
   "theorems": [
    "C14_remove_sparse",
    "C14_remove_dense"
   ],
   "note": ""
  },
  {
   "property": "C15",
   "status": "proved",
   "theorems": [
    "C15_cardinality_truthful"
   ],
   "note": ""
  },
  {
   "property": "C16",
   "status": "proved",
   "theorems": [
    "C16_init_all_fills",
    "C16_init_all_sparse"
   ],
   "note": ""
  },
  {
   "property": "C17",
   "status": "proved",
   "theorems": [
    "C17_collects_live",
    "C17_exports_live"
   ],
   "note": ""
  },
  {
   "property": "C18",
   "status": "proved",
   "theorems": [
    "C18_no_lost_increments",
    "C18_reads_monotone"
   ],
   "note": ""
  },
  {
   "property": "C19",
   "status": "partial",
   "theorems": [
    "C19_counter_shown",
    "C19_counter_refuted"
   ],
   "note": "REFUTED from 2^63 on (shown as the value minus 2^64). Proved exact below 2^63, and the exact shown value for every u64."
  },
  {
   "property": "C20",
   "status": "proved",
   "theorems": [
    "C20_sums",
    "C20_last_set"
   ],
   "note": ""
  },
  {
   "property": "C21",
   "status": "proved",
   "theorems": [
    "C21_linearizable",
    "C21_lock_free"
   ],
   "note": ""
  },
  {
   "property": "C22",
   "status": "proved",
   "theorems": [
    "C22_counter",
    "C22_gauge",
    "C22_float_gauge",
    "C22_histogram",
    "C22_histogram_references"
   ],
   "note": ""
  },
  {
   "property": "C23",
   "status": "proved",
   "theorems": [
    "C23_bits",
    "C23_increment",
    "C23_decrement",
    "C23_one",
    "C23_loop"
   ],
   "note": "All NaN results of arithmetic are represented by the canonical NaN; stored bit patterns are kept as they are."
  },
  {
   "property": "C24",
   "status": "proved",
   "theorems": [
    "C24_placement",
    "C24_never_panics"
   ],
   "note": "N=1 needs the threshold not to be NaN, which with_buckets does not check (see C28)."
  },
  {
   "property": "C25",
   "status": "proved",
   "theorems": [
    "C25_counts",
    "C25_export",
    "C25_monotone",
    "C25_bounded"
   ],
   "note": "Text format; thresholds as in C24."
  },
  {
   "property": "C26",
   "status": "proved",
   "theorems": [
    "C26_snapshots"
   ],
   "note": "Buckets at most N, which C24 gives for the index computed by observe."
  },
  {
   "property": "C27",
   "status": "proved",
   "theorems": [
    "C27_validation"
   ],
   "note": ""
  },
  {
   "property": "C28",
   "status": "partial",
   "theorems": [
    "C28_well_formed_refuted",
    "C28_with_buckets",
    "C28_linear_integers",
    "C28_exponential",
    "C28_exponential_panics"
   ],
   "note": "REFUTED for all three constructors. Proved: with_buckets with N>=2 is strictly increasing without NaN and finite except possibly at both ends; linear_buckets with whole numbers up to 2^53 is well-formed; exponential_buckets is non-decreasing if powi is."
  },
  {
   "property": "C29",
   "status": "proved",
   "theorems": [
    "C29_linear_monotone",
    "C29_linear_panics"
   ],
   "note": "N up to 2^64."
  },
  {
   "property": "C30",
   "status": "partial",
   "theorems": [
    "C30_nan_is_small_refuted",
    "C30_sum_stays_nan"
   ],
   "note": "REFUTED for every histogram with at least one bucket."
  },
  {
   "property": "C31",
   "status": "proved",
   "theorems": [
    "C31_timers",
    "C31_histogram_timers",
    "C31_seconds",
    "C31_accuracy",
    "C31_elapsed"
   ],
   "note": "Ownership (each timer is ended at most once, after its start) is the hypothesis proper."
  },
  {
   "property": "C32",
   "status": "partial",
   "theorems": [
    "C32_from_str_iff_regex",
    "C32_try_from_str_exact",
    "C32_try_from_str_error",
    "C32_try_from_str_refuted"
   ],
   "note": "from_str proved exact. The claim for try_from_str is false of the code (accepts '-'): refuted with a witness, exact accepted language proved instead."
  },
  {
   "property": "C33",
   "status": "proved",
   "theorems": [
    "C33_label_name_iff_regex"
   ],
   "note": ""
  },
  {
   "property": "C34",
   "status": "proved",
   "theorems": [
    "C34_encode_exact"
   ],
   "note": ""
  },
  {
   "property": "C35",
   "status": "proved",
   "theorems": [
    "C35_composed_names_valid",
    "C35_built_names_valid",
    "C35_namespace_checked"
   ],
   "note": ""
  },
  {
   "property": "C36",
   "status": "proved",
   "theorems": [
    "C36_label_values_escaped",
    "C36_label_values_distinct"
   ],
   "note": ""
  },
  {
   "property": "C37",
   "status": "proved",
   "theorems": [
    "C37_text_round_trip"
   ],
   "note": "Help without line feed and backslash (see C40), counters and histogram totals below 2^63 (see C19); the float formatter is assumed to produce a token of digits, letters, points and signs."
  },
  {
   "property": "C38",
   "status": "proved",
   "theorems": [
    "C38_framing",
    "C38_family_order",
    "C37_text_round_trip"
   ],
   "note": ""
  },
  {
   "property": "C39",
   "status": "proved",
   "theorems": [
    "C39_reusable",
    "C39_one_scrape",
    "C39_never_unreachable"
   ],
   "note": ""
  },
  {
   "property": "C40",
   "status": "partial",
   "theorems": [
    "C40_help_line_feed_refuted",
    "C40_help_backslash_refuted",
    "C40_single_line"
   ],
   "note": "REFUTED: line feeds and backslashes are written raw. Proved: one line for help without line feed."
  },
  {
   "property": "C41",
   "status": "partial",
   "theorems": [
    "C41_failing_writer",
    "C41_ok_complete_refuted"
   ],
   "note": "First part proved; second part REFUTED for writers that fail once inside a label."
  },
  {
   "property": "C42",
   "status": "proved",
   "theorems": [
    "C42_utf8"
   ],
   "note": ""
  },
  {
   "property": "C43",
   "status": "proved",
   "theorems": [
    "C43_group_traversal",
    "C43_events_unique",
    "C43_bad_namespace"
   ],
   "note": ""
  },
  {
   "property": "C44",
   "status": "proved",
   "theorems": [
    "C44_varint_exact"
   ],
   "note": ""
  },
  {
   "property": "C45",
   "status": "proved",
   "theorems": [
    "C45_labels_length",
    "C45_metric_lengths",
    "C45_family_length"
   ],
   "note": "For messages shorter than 2^64 bytes."
  },
  {
   "property": "C46",
   "status": "proved",
   "theorems": [
    "C46_round_trip",
    "C46_families_exist"
   ],
   "note": "For sequences of families that are not misleading (see C47), outputs shorter than 2^64 bytes, any number of scrapes through one encoder."
  },
  {
   "property": "C47",
   "status": "partial",
   "theorems": [
    "C47_misattribution_refuted",
    "C47_misleading",
    "C46_round_trip"
   ],
   "note": "REFUTED with a witness; C47_misleading shows it for every misleading sequence, C46_round_trip that it does not happen for the others."
  },
  {
   "property": "C48",
   "status": "proved",
   "theorems": [
    "C48_exact",
    "C48_double_determines",
    "C48_near",
    "C48_lossy"
   ],
   "note": ""
  },
  {
   "property": "C49",
   "status": "partial",
   "theorems": [
    "C49_failed_write_refuted",
    "C49_until_error"
   ],
   "note": "REFUTED with a witness. Proved: errors are reported and until then the output is a prefix of the correct one."
  },
  {
   "property": "C50",
   "status": "partial",
   "theorems": [
    "C50_start_refuted",
    "C50_figures",
    "C50_gone",
    "C50_for_self",
    "C50_panics",
    "C50_new_panics"
   ],
   "note": "REFUTED for the start time of another process. Proved: every other figure is that of the process, and the start time is right for for_self."
  },
  {
   "property": "C51",
   "status": "partial",
   "theorems": [
    "C51_type_refuted",
    "C51_proto_suffix_refuted",
    "C51_process_text",
    "C51_tokio_text",
    "C51_process_proto",
    "C51_tokio_proto"
   ],
   "note": "REFUTED: no type is ever written. Proved: every family is its HELP line followed by exactly its samples (text), or one message with name and help (protobuf). Readings below 2^63."
  },
  {
   "property": "C52",
   "status": "proved",
   "theorems": [
    "C52_cumulative"
   ],
   "note": "Runtime names distinct; totals below 2^63."
  },
  {
   "property": "C53",
   "status": "proved",
   "theorems": [
    "C53_one_metric_per_label",
    "C53_no_dangling",
    "C53_handles",
    "C53_metrics",
    "C53_linearizable",
    "C53_no_lost_increment",
    "C53_no_lost_observation",
    "C53_order",
    "C53_snapshots"
   ],
   "note": "For any metric that is linearizable by itself, which counters, gauges and histograms are."
  },
  {
   "property": "C54",
   "status": "proved",
   "theorems": [
    "C54_same_metric",
    "C54_once",
    "C54_no_panic",
    "C54_linearizable",
    "C54_no_lost_increment",
    "C54_no_lost_observation",
    "C54_order",
    "C54_snapshots"
   ],
   "note": "For any metric that is linearizable by itself; OnceLock is modelled as empty, being initialised, full."
  },
  {
   "property": "C55",
   "status": "proved",
   "theorems": [
    "C55_metrics",
    "C55_metric",
    "C55_sparse",
    "C55_one_guard",
    "C55_dense",
    "C55_two_guards_refuted"
   ],
   "note": "For programs that hold at most one guard at a time (any program for dense vecs); with two guards, or a guard and a collection, C55_two_guards_refuted gives deadlocks."
  },
  {
   "property": "C56",
   "status": "partial",
   "theorems": [
    "C56_same_name_refuted",
    "C56_series_distinct"
   ],
   "note": "REFUTED when one name is added twice. Proved for distinct names, provided the bucket bounds are shown differently and the case conversion keeps the three thread kinds apart."
  },
  {
   "property": "C57",
   "status": "proved",
   "theorems": [
    "C57_label_attributes",
    "C57_metric_attributes",
    "C57_enums",
    "C57_label_groups",
    "C57_metric_groups",
    "C57_struct_as_group"
   ],
   "note": "Attributes as lists of parsed arguments; Rust tokens are not modelled. The shouty conversion of heck and the check of identifiers are parameters."
  },
  {
   "property": "C58",
   "status": "proved",
   "theorems": [
    "C58_visit_exact",
    "C58_singletons",
    "C58_label_names",
    "C58_composed_names",
    "C58_scraped_labels_once",
    "C58_le_refuted",
    "C58_composed_refuted"
   ],
   "note": "The _refuted theorems show that the conditions in the statement are needed."
  },
  {
   "property": "C59",
   "status": "proved",
   "theorems": [
    "C59_values_apart",
    "C59_groups_apart",
    "C59_composed_apart",
    "C59_vec_series",
    "C59_bounds_apart",
    "C59_same_text_refuted"
   ],
   "note": "The _refuted theorem shows that the condition on variants is needed."
  },
  {
   "property": "C60",
   "status": "proved",
   "theorems": [
    "C60_scrape_well_formed",
    "C60_names_apart_iff",
    "C60_flat_struct",
    "C60_flatten_refuted",
    "C60_namespaces_refuted",
    "C60_suffix_refuted"
   ],
   "note": "The _refuted theorems show that the conditions on names are needed."
  },
  {
   "property": "C61",
   "status": "proved",
   "theorems": [
    "C61_new_arguments",
    "C61_set_new",
    "C61_fixed_is_default",
    "C61_struct_new"
   ],
   "note": ""
  },
  {
   "property": "C62",
   "status": "proved",
   "theorems": [
    "C62_panics",
    "C62_collected",
    "C62_scrape_reports",
    "C62_counters",
    "C62_gauges",
    "C62_float_gauges",
    "C62_histograms"
   ],
   "note": "Totals below 2^63, integer gauges in range throughout, no NaN observations. Valid label and metric names."
  },
  {
   "property": "C63",
   "status": "proved",
   "theorems": [
    "C63_lookups",
    "C63_ids_unique",
    "C63_decodes",
    "C63_refused_for_a_reason",
    "C63_fixed_refuses",
    "C63_alone",
    "C63_decode_alone"
   ],
   "note": "C63_lookups_interleave is a witness that a lookup as a whole is not atomic."
  },
  {
   "property": "C64",
   "status": "proved",
   "theorems": [
    "C64_results",
    "C64_counter_totals",
    "C64_histogram_totals",
    "C64_rows",
    "C64_collections",
    "C64_shown",
    "C64_counter_bracket",
    "C64_histogram_bracket"
   ],
   "note": "Sparse vecs. C64_no_snapshot is a witness that the rows of one collection may be from different moments."
  },
  {
   "property": "C65",
   "status": "proved",
   "theorems": [
    "C65_counters",
    "C65_gauges",
    "C65_float_gauges"
   ],
   "note": "Totals below 2^64, integer gauges in range throughout. Families that meet the sequence refuted in C47 are excluded by hypothesis; histograms are not accepted by the protobuf encoder."
  },
  {
   "property": "C66",
   "status": "proved",
   "theorems": [
    "C66_counter_order",
    "C66_counter_read",
    "C66_gauge_order",
    "C66_gauge_read",
    "C66_float_order",
    "C66_histogram_samples",
    "C66_no_common_order"
   ],
   "note": "The axioms of the memory model (record consistent) are trusted. C66_no_common_order is a witness that nothing of the kind holds across two counters."
  },
  {
   "property": "C67",
   "status": "proved",
   "theorems": [
    "C67_status_codes",
    "C67_status_represented",
    "C67_thresholds",
    "C67_starts",
    "C67_runs",
    "C67_scrapes",
    "C67_accounting"
   ],
   "note": "Steps of different requests interleave; each step and each scrape is atomic. f64::powi is assumed exact on powers of two."
  },
  {
   "property": "C68",
   "status": "proved",
   "theorems": [
    "C68_sets",
    "C68_results",
    "C68_counter_totals",
    "C68_histogram_totals",
    "C68_rows",
    "C68_collections",
    "C68_shown",
    "C68_counter_bracket",
    "C68_histogram_bracket",
    "C68_count"
   ],
   "note": "Dense vecs; collections of vecs that have cells."
  },
  {
   "property": "C69",
   "status": "proved",
   "theorems": [
    "C69_well_formed",
    "C69_flatten_refuted",
    "C69_same_text_refuted",
    "C69_composed_refuted"
   ],
   "note": "The refuted variants are witnesses that the conditions are needed. Histograms are not accepted by the protobuf encoder."
  },
  {
   "property": "C70",
   "status": "proved",
   "theorems": [
    "C70_formats_agree",
    "C70_misleading_refuted"
   ],
   "note": "The refuted variant is the sequence of families of C47, excluded by hypothesis."
  },
  {
   "property": "C71",
   "status": "proved",
   "theorems": [
    "C71_sparse",
    "C71_dense"
   ],
   "note": "Deadlock freedom: some thread can always go on. That a given call returns under unfair scheduling is not claimed."
  },
  {
   "property": "C72",
   "status": "proved",
   "theorems": [
    "C72_undisturbed",
    "C72_panics",
    "C72_dense_beyond",
    "C72_like_own"
   ],
   "note": "Beyond the documented use of ids. The counts of get_cardinality are only said to keep their upper bound."
  },
  {
   "property": "C73",
   "status": "proved",
   "theorems": [
    "C73_named",
    "C73_single"
   ],
   "note": "RuntimeMetrics of tokio are a record of answers, each read once per collection."
  },
  {
   "property": "C74",
   "status": "proved",
   "theorems": [
    "C74_still",
    "C74_lineage",
    "C74_counters",
    "C74_histograms",
    "C74_dense_still",
    "C74_dense_lineage",
    "C74_dense_counters",
    "C74_dense_histograms",
    "C74_dense_counts"
   ],
   "note": "The example C74_deleted shows that a group must not be deleted. Under interleaving semantics; C66 is about weaker orderings."
  },
  {
   "property": "C75",
   "status": "proved",
   "theorems": [
    "C75_text",
    "C75_counters",
    "C75_counter_rates",
    "C75_histograms",
    "C75_histogram_rates",
    "C75_dense_counters",
    "C75_dense_counter_rates",
    "C75_dense_histograms",
    "C75_dense_histogram_rates"
   ],
   "note": "The text format. The encoder's own work is placed after the last read, which no other thread can tell apart."
  },
  {
   "property": "C76",
   "status": "proved",
   "theorems": [
    "C76_groups",
    "C76_exact",
    "C76_monotone"
   ],
   "note": "The sum of the lengths is a natural number: a vec has fewer than 2^64 metrics. The count of a dense vec is in C68."
  },
  {
   "property": "C77",
   "status": "proved",
   "theorems": [
    "C77_metrics",
    "C77_work",
    "C77_dense_work",
    "C77_finish",
    "C77_dense_finish",
    "C77_counters",
    "C77_dense_counters"
   ],
   "note": "Under interleaving semantics. Starvation by threads that never cease to call is not excluded; the example C77_spurious shows the need for the bound on spurious failures."
  },
  {
   "property": "C78",
   "status": "proved",
   "theorems": [
    "C78_messages",
    "C78_counters",
    "C78_counter_rates",
    "C78_dense_counters",
    "C78_dense_counter_rates"
   ],
   "note": "Histograms do not compile with this encoder. As in C75 the encoder's own work is placed after the last read."
  },
  {
   "property": "C79",
   "status": "proved",
   "theorems": [
    "C79_moment",
    "C79_gauges",
    "C79_in_flight",
    "C79_one_writer",
    "C79_one_float_writer",
    "C79_dense_moment",
    "C79_dense_gauges",
    "C79_dense_in_flight",
    "C79_dense_one_writer",
    "C79_dense_one_float_writer",
    "C79_weak_gauge",
    "C79_weak_float",
    "C79_weak_gauges",
    "C79_weak_in_flight",
    "C79_weak_one_writer",
    "C79_weak_one_float_writer"
   ],
   "note": "The theorems C79_weak_* are about one gauge under the memory model instead of interleaving. Rows of one collection may belong to different moments (C64)."
  },
  {
   "property": "C80",
   "status": "proved",
   "theorems": [
    "C80_counter",
    "C80_grow",
    "C80_gauge",
    "C80_float",
    "C80_gauge_grow",
    "C80_float_grow",
    "C80_gauges",
    "C80_in_flight",
    "C80_gauge_exact",
    "C80_one_writer",
    "C80_one_float_writer",
    "C80_histogram",
    "C80_histogram_exact",
    "C80_histogram_grow"
   ],
   "note": "Which metrics a collection meets is not part of this model (C53, C64); the rows are any. A collection of histograms is given by its samples, one call each."
  },
  {
   "property": "C81",
   "status": "proved",
   "theorems": [
    "C81_counter",
    "C81_counter_rates",
    "C81_in_flight",
    "C81_gauge",
    "C81_float",
    "C81_histogram",
    "C81_histogram_rates",
    "C81_proto_counter",
    "C81_proto_rates",
    "C81_proto_in_flight",
    "C81_proto_gauge",
    "C81_proto_float"
   ],
   "note": "Which metrics a collection meets is not part of this model (C53, C64); the rows are any. The encoder's own work is placed after the last read, as in C75."
  }
 ]
}