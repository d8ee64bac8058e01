{"claims":[
{"property": "C01", "status": "proved", "theorems": ["C01_reachable", "C01_history"], "note": "reachable closes the set of values under constructors, every call (also panicking ones), split_off, drain and Drain steps"},
{"property": "C02", "status": "proved", "theorems": ["C02_calls", "C02_constructors", "C02_drain", "C02_harmless", "C02_harmless_constructors"], "note": "closures, iterators and formattings must themselves return (benign); with panicking ones the call at worst panics (C02_harmless). Indexing may panic by design (C37)."},
{"property": "C03", "status": "proved", "theorems": ["C03_profiles", "C03_widths", "C03_constructors"], "note": "any two build profiles; any two word sizes when range bounds are below both maxima"},
{"property": "C04", "status": "proved", "theorems": ["C04_unchanged"], "note": "unchanged means every byte of the array and the size; write_fmt is several calls, see C35"},
{"property": "C05", "status": "proved", "theorems": ["C05_try_push_str"], "note": "proved for all inputs of the model"},
{"property": "C06", "status": "proved", "theorems": ["C06_push_str_truncate", "C06_whole"], "note": "proved for all inputs of the model"},
{"property": "C07", "status": "proved", "theorems": ["C07_try_push"], "note": "proved for all inputs of the model"},
{"property": "C08", "status": "proved", "theorems": ["C08_try_from_str"], "note": "proved for all inputs of the model"},
{"property": "C09", "status": "proved", "theorems": ["C09_from_str_truncate", "C09_whole"], "note": "proved for all inputs of the model"},
{"property": "C10", "status": "proved", "theorems": ["C10_try_from_iterator"], "note": "proved for all inputs of the model"},
{"property": "C11", "status": "proved", "theorems": ["C11_from_iterator_truncate", "C11_collect"], "note": "proved for all inputs of the model"},
{"property": "C12", "status": "proved", "theorems": ["C12_try_from_chars"], "note": "proved for all inputs of the model"},
{"property": "C13", "status": "proved", "theorems": ["C13_from_chars_truncate"], "note": "proved for all inputs of the model"},
{"property": "C14", "status": "proved", "theorems": ["C14_try_from_utf16", "C14_cases_exhaust"], "note": "proved for all inputs of the model"},
{"property": "C15", "status": "proved", "theorems": ["C15_from_utf16_truncate", "C15_valid_input", "C15_late_surrogate_refuted"], "note": "C15_late_surrogate_refuted: the documentation promises an error for all invalid UTF-16"},
{"property": "C16", "status": "proved", "theorems": ["C16_from_utf16_lossy_truncate"], "note": "proved for all inputs of the model"},
{"property": "C17", "status": "proved", "theorems": ["C17_round_trip"], "note": "proved for all inputs of the model"},
{"property": "C18", "status": "proved", "theorems": ["C18_truncate"], "note": "proved for all inputs of the model"},
{"property": "C19", "status": "proved", "theorems": ["C19_pop"], "note": "proved for all inputs of the model"},
{"property": "C20", "status": "proved", "theorems": ["C20_trim", "C20_trimmed_unique"], "note": "proved for all inputs of the model"},
{"property": "C21", "status": "proved", "theorems": ["C21_remove"], "note": "proved for all inputs of the model"},
{"property": "C22", "status": "proved", "theorems": ["C22_retain", "C22_calls"], "note": "proved for all inputs of the model"},
{"property": "C23", "status": "proved", "theorems": ["C23_try_insert_str", "C23_try_insert", "C23_empty_text_refuted"], "note": "C23_empty_text_refuted: the documented Utf8 error is not given for an empty text"},
{"property": "C24", "status": "proved", "theorems": ["C24_insert_str_truncate", "C24_no_room_refuted"], "note": "C24_no_room_refuted: the documented Utf8 error is not given when nothing fits"},
{"property": "C25", "status": "proved", "theorems": ["C25_replace_range", "C25_empty_range_refuted"], "note": "C25_empty_range_refuted: empty range and empty text outside the string or inside a character is Ok"},
{"property": "C26", "status": "proved", "theorems": ["C26_drain"], "note": "proved for all inputs of the model"},
{"property": "C27", "status": "proved", "theorems": ["C27_drain", "C27_fused", "C27_iterator", "C27_traits"], "note": "proved for all inputs of the model"},
{"property": "C28", "status": "proved", "theorems": ["C28_split_off"], "note": "proved for all inputs of the model"},
{"property": "C29", "status": "proved", "theorems": ["C29_empty", "C29_observers"], "note": "proved for all inputs of the model"},
{"property": "C30", "status": "proved", "theorems": ["C30_eq", "C30_equivalence"], "note": "proved for all inputs of the model"},
{"property": "C31", "status": "proved", "theorems": ["C31_cmp", "C31_total_order"], "note": "proved for all inputs of the model"},
{"property": "C32", "status": "proved", "theorems": ["C32_hash", "C32_hash_eq"], "note": "proved for all inputs of the model"},
{"property": "C33", "status": "proved", "theorems": ["C33_extend_chars", "C33_extend_strs"], "note": "proved for all inputs of the model"},
{"property": "C34", "status": "proved", "theorems": ["C34_add", "C34_conversions", "C34_collect_strs"], "note": "proved for all inputs of the model"},
{"property": "C35", "status": "proved", "theorems": ["C35_write_str", "C35_write_char", "C35_write_fmt", "C35_any_formatting"], "note": "proved for all inputs of the model"},
{"property": "C36", "status": "proved", "theorems": ["C36_flags_refuted", "C36_display"], "note": "C36_flags_refuted: str honours width and precision, ArrayString does not"},
{"property": "C37", "status": "proved", "theorems": ["C37_exhausted_refuted", "C37_index", "C37_same_as_str"], "note": "C37_exhausted_refuted: exhausted RangeInclusive is treated as not exhausted"},
{"property": "C38", "status": "proved", "theorems": ["C38_as_mut", "C38_write", "C38_ascii_case", "C38_ascii_letters"], "note": "proved for all inputs of the model"},
{"property": "C39", "status": "proved", "theorems": ["C39_history", "C39_calls", "C39_constructors", "C39_traits", "C39_from_array", "C39_mut", "C39_from_chars", "C39_extend_chars", "C39_strs", "C39_retain", "C39_display"], "note": "proved for all inputs of the model"},
{"property": "C40", "status": "proved", "theorems": ["C40_serialize", "C40_deserialize", "C40_round_trip", "C40_cache", "C40_owned_input_refuted"], "note": "serde is modelled at the visitor call; C40_owned_input_refuted: String accepts owned input"},
{"property": "C41", "status": "proved", "theorems": ["C41_to_sql", "C41_from_sql", "C41_bad_pointer", "C41_round_trip", "C41_cache", "C41_pointer_refuted"], "note": "the diesel backend is an arbitrary codec for str; C41_bad_pointer and C41_pointer_refuted say what a backend that breaks the assumption of the comment at src/integration.rs:34 causes"},
{"property": "C42", "status": "proved", "theorems": ["C42_array_string", "C42_cache_string", "C42_drain", "C42_max_string", "C42_small_string", "C42_std_string", "C42_small_string_refuted"], "note": "layout rules of the Rust reference as arithmetic, both field orders; C42_small_string_refuted: the documented size is wrong"},
{"property": "C43", "status": "proved", "theorems": ["C43_call", "C43_history", "C43_quirks", "C43_quirk_refuted"], "note": "String modelled independently in StringSpec.v; the calls excluded are exactly C43_quirks"},
{"property": "C44", "status": "proved", "theorems": ["C44_retain", "C44_extend", "C44_constructors"], "note": "proved for all inputs of the model"},
{"property": "C45", "status": "proved", "theorems": ["C45_from_chars_truncate", "C45_collect", "C45_try_from_chars", "C45_extend_chars", "C45_pulled"], "note": "proved for all inputs of the model"},
{"property": "C46", "status": "proved", "theorems": ["C46_fits", "C46_stops", "C46_try"], "note": "proved for all inputs of the model"},
{"property": "C47", "status": "proved", "theorems": ["C47_text_only"], "note": "proved for all inputs of the model"},
{"property": "C48", "status": "proved", "theorems": ["C48_pop_push", "C48_push_pop", "C48_split_off", "C48_drain", "C48_remove_insert", "C48_insert_drain", "C48_insert_remove"], "note": "proved for all inputs of the model"},
{"property": "C49", "status": "proved", "theorems": ["C49_trim", "C49_clear", "C49_truncate", "C49_retain"], "note": "proved for all inputs of the model"},
{"property": "C50", "status": "proved", "theorems": ["C50_eq", "C50_hash", "C50_texts", "C50_distinct", "C50_conversions"], "note": "proved for all inputs of the model"},
{"property": "C51", "status": "proved", "theorems": ["C51_stored_length", "C51_holds", "C51_capacities", "C51_bound"], "note": "proved for all inputs of the model"},
{"property": "C52", "status": "proved", "theorems": ["C52_debug", "C52_format", "C52_text_only", "C52_drain", "C52_cache"], "note": "proved for all inputs of the model"},
{"property": "C53", "status": "proved", "theorems": ["C53_push_insert", "C53_chars", "C53_pop_remove", "C53_split_drain", "C53_truncate_split", "C53_remove_drain", "C53_clear", "C53_replace", "C53_replace_fails", "C53_append", "C53_truncate_twice"], "note": "proved for all inputs of the model"},
{"property": "C54", "status": "proved", "theorems": ["C54_try_push", "C54_push_truncate"], "note": "proved for all inputs of the model"},
{"property": "C55", "status": "proved", "theorems": ["C55_convert", "C55_compose"], "note": "proved for all inputs of the model"},
{"property": "C56", "status": "proved", "theorems": ["C56_nth", "C56_folds", "C56_for_each", "C56_find", "C56_rev", "C56_move"], "note": "the provided methods are those of core (RustIter.v); Drain overrides none"},
{"property": "C57", "status": "proved", "theorems": ["C57_ranges", "C57_push", "C57_insert", "C57_constructors", "C57_utf16", "C57_hostile_items", "C57_hostile_truncate", "C57_honest_items"], "note": "the as_ref calls made for log messages are among those counted; for the logger itself see C71"},
{"property": "C58", "status": "proved", "theorems": ["C58_operators", "C58_max_min", "C58_clamp", "C58_drain", "C58_cache", "C58_push", "C58_cut"], "note": "proved for all inputs of the model"},
{"property": "C59", "status": "proved", "theorems": ["C59_retain_twice", "C59_retain_push", "C59_retain_all", "C59_trim_padding", "C59_case_twice", "C59_replace_twice", "C59_insert_order"], "note": "proved for all inputs of the model"},
{"property": "C60", "status": "proved", "theorems": ["C60_larger_capacity"], "note": "proved for all inputs of the model"},
{"property": "C61", "status": "proved", "theorems": ["C61_constructors", "C61_utf16", "C61_appends", "C61_cuts", "C61_inserts"], "note": "proved for all inputs of the model"},
{"property": "C62", "status": "proved", "theorems": ["C62_replace_range", "C62_as_mut", "C62_write", "C62_as_str", "C62_shared", "C62_call", "C62_through", "C62_history", "C62_build", "C62_drain", "C62_cache", "C62_readers", "C62_beside", "C62_compare", "C62_compare_self"], "note": "proved for all inputs of the model"},
{"property": "C63", "status": "proved", "theorems": ["C63_to_string", "C63_from_str", "C63_round_trip", "C63_string", "C63_documents", "C63_cache", "C63_escapes_refuted"], "note": "serde_json itself is modelled (RustJson.v), from memory of its source: it is not in the sandbox; C63_escapes_refuted"},
{"property": "C64", "status": "proved", "theorems": ["C64_append", "C64_insert", "C64_iterators", "C64_pieces", "C64_utf16", "C64_room"], "note": "proved for all inputs of the model"},
{"property": "C65", "status": "proved", "theorems": ["C65_idle_calls"], "note": "proved for all inputs of the model"},
{"property": "C66", "status": "proved", "theorems": ["C66_prefix", "C66_below", "C66_order", "C66_same_width"], "note": "proved for all inputs of the model"},
{"property": "C67", "status": "proved", "theorems": ["C67_new", "C67_push", "C67_insert", "C67_insert_index", "C67_chars", "C67_strs", "C67_utf16"], "note": "proved for all inputs of the model"},
{"property": "C68", "status": "proved", "theorems": ["C68_chars", "C68_drain", "C68_join", "C68_write"], "note": "proved for all inputs of the model"},
{"property": "C69", "status": "proved", "theorems": ["C69_truncate_str", "C69_json", "C69_json_cache", "C69_sql", "C69_sql_cache"], "note": "the tuple structs of the tests are transparent to serde and diesel by their derives, which are not modelled; the test size_of_cache is C42_cache_string"},
{"property": "C70", "status": "proved", "theorems": ["C70_lock_step", "C70_safe", "C70_builds", "C70_frame"], "note": "proved for all inputs of the model"},
{"property": "C71", "status": "proved", "theorems": ["C71_quiet", "C71_panic", "C71_build", "C71_text", "C71_write_fmt", "C71_trim", "C71_history", "C71_compare", "C71_drain", "C71_args", "C71_args_index", "C71_args_build", "C71_cache", "C71_cache_history", "C71_serde", "C71_to_sql", "C71_debug", "C71_debug_drain", "C71_debug_cache", "C71_torn_refuted"], "note": "the logger is an arbitrary stateful function called where the macros stand; C71_torn_refuted: a caught panic of the logger can leave a string that is not UTF-8"},
{"property": "C72", "status": "proved", "theorems": ["C72_hash_map", "C72_btree_map", "C72_cache"], "note": "std maps are modelled by the calls they make of their keys (RustMap.v): a hash table compares a part of the hash and then asks eq; a BTreeMap is one node searched from the left"},
{"property": "C73", "status": "proved", "theorems": ["C73_try_from", "C73_parse", "C73_to_string", "C73_cache", "C73_bench", "C73_bench_iter", "C73_bench_cache"], "note": "the blanket impls of core, catch_unwind and ToString are modelled in RustConv.v; criterion and the other string types of the benchmarks are not"},
{"property": "C74", "status": "proved", "theorems": ["C74_debug", "C74_history", "C74_build", "C74_announce", "C74_announce_new", "C74_cache", "C74_cache_build"], "note": "how messages are formatted is C75; the trace messages after the first one are C77; for the calls and constructors of SpecOps.v, on ArrayString and CacheString"},
{"property": "C75", "status": "proved", "theorems": ["C75_messages", "C75_history_messages", "C75_build_messages", "C75_state", "C75_state_history", "C75_state_build", "C75_agree", "C75_agree_build", "C75_agree_arg", "C75_quiet", "C75_panic", "C75_history", "C75_build", "C75_nesting", "C75_print", "C75_printed", "C75_lines", "C75_log", "C75_cache", "C75_cache_history", "C75_decimal", "C75_lock_refuted"], "note": "the printing logger is not part of the crate: its model (ModelLogPrint.v) is a sink with code before and after, and the messages of the crate; core::fmt without options, Debug for str a parameter; C75_lock_refuted"},
{"property": "C76", "status": "proved", "theorems": ["C76_call", "C76_history", "C76_build", "C76_cache", "C76_cache_build"], "note": "with a logger that keeps the messages; by C75_state any other logger gets the same ones; for the calls and constructors of SpecOps.v that end at the first failure, on ArrayString and CacheString"},
{"property": "C77", "status": "proved", "theorems": ["C77_call", "C77_history", "C77_build", "C77_builds", "C77_cache", "C77_cache_build"], "note": "with a logger that keeps the messages; by C75_state any other logger gets the same ones; how often Len and As str are logged is not stated; for the calls and constructors of SpecOps.v"},
{"property": "C78", "status": "proved", "theorems": ["C78_quiet", "C78_texts", "C78_panic", "C78_safe", "C78_frame"], "note": "the programs of C70; a logger that panics on len is excluded from the safety part (C71_torn_refuted)"},
{"property": "C79", "status": "proved", "theorems": ["C79_log", "C79_builds", "C79_command", "C79_story", "C79_state", "C79_agree"], "note": "the programs of C70, with a logger that keeps the messages, and other loggers beside it; how often Len and As str are logged is not stated"}
]}
