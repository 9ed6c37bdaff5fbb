{
 "claims": [
  {
   "property": "C01",
   "status": "proved",
   "theorems": [
    "C01_read_through_accessors",
    "C01_linear_search_exact",
    "C01_linear_search_members"
   ],
   "note": ""
  },
  {
   "property": "C02",
   "status": "proved",
   "theorems": [
    "C02_hits_search_exact"
   ],
   "note": ""
  },
  {
   "property": "C03",
   "status": "proved",
   "theorems": [
    "C03_read_through_accessors",
    "C03_hits_search_general",
    "C03_and_logic_refuted"
   ],
   "note": "General law proved; the unconditional AND reading is refuted by a concrete index."
  },
  {
   "property": "C04",
   "status": "proved",
   "theorems": [
    "C04_engines_agree"
   ],
   "note": ""
  },
  {
   "property": "C05",
   "status": "proved",
   "theorems": [
    "C05_order_determined",
    "C05_order_is_hits_then_id",
    "C05_ties_by_document_order_refuted"
   ],
   "note": "Proved for every sort meeting sort_contract. That ties follow document order is refuted."
  },
  {
   "property": "C06",
   "status": "proved",
   "theorems": [
    "C06_less_strict_weak_order"
   ],
   "note": ""
  },
  {
   "property": "C07",
   "status": "proved",
   "theorems": [
    "C07_reput_hits",
    "C07_reput_appends"
   ],
   "note": ""
  },
  {
   "property": "C08",
   "status": "proved",
   "theorems": [
    "C08_hash_is_fnv1"
   ],
   "note": ""
  },
  {
   "property": "C09",
   "status": "proved",
   "theorems": [
    "C09_one_byte_never_collides",
    "C09_suffix_preserves_distinct"
   ],
   "note": ""
  },
  {
   "property": "C10",
   "status": "proved",
   "theorems": [
    "C10_ids_collide",
    "C10_collision_conflates",
    "C10_collision_family"
   ],
   "note": "A concrete pair of IDs with equal 64-bit FNV-1 hash, checked by computation."
  },
  {
   "property": "C11",
   "status": "proved",
   "theorems": [
    "C11_postings_exact",
    "C11_unknown_token"
   ],
   "note": ""
  },
  {
   "property": "C12",
   "status": "proved",
   "theorems": [
    "C12_store_append_only"
   ],
   "note": ""
  },
  {
   "property": "C13",
   "status": "proved",
   "theorems": [
    "C13_intersection"
   ],
   "note": ""
  },
  {
   "property": "C14",
   "status": "proved",
   "theorems": [
    "C14_noop_engines"
   ],
   "note": ""
  },
  {
   "property": "C15",
   "status": "proved",
   "theorems": [
    "C15_put_monotone",
    "C15_more_tokens_narrow"
   ],
   "note": ""
  },
  {
   "property": "C16",
   "status": "proved",
   "theorems": [
    "C16_token_order_irrelevant",
    "C16_repetition",
    "C16_unique_token_hits_refuted"
   ],
   "note": "LinearSearch fully; for HitsSearch repetition changes hits, refuted variant given."
  },
  {
   "property": "C17",
   "status": "proved",
   "theorems": [
    "C17_mime_is_ignored",
    "C17_ranking_ignores_content",
    "C17_constructors",
    "C17_content_never_searched",
    "C17_literal_never_matched"
   ],
   "note": ""
  },
  {
   "property": "C18",
   "status": "proved",
   "theorems": [
    "C18_decomposition_exists_unique",
    "C18_tokenize_maximal_runs",
    "C18_alphanumeric",
    "C18_decode_encode",
    "C18_decode_malformed"
   ],
   "note": "unicode.IsLetter/IsNumber are arbitrary predicates on runes; UTF-8 decoding modelled after Go 1.23."
  },
  {
   "property": "C19",
   "status": "proved",
   "theorems": [
    "C19_rejoin_stable",
    "C19_token_is_its_own_token",
    "C19_no_predicates",
    "C19_empty_text"
   ],
   "note": ""
  },
  {
   "property": "C20",
   "status": "proved",
   "theorems": [
    "C20_pipeline_composition",
    "C20_readme_pipeline"
   ],
   "note": ""
  },
  {
   "property": "C21",
   "status": "proved",
   "theorems": [
    "C21_lowercase_one_to_one",
    "C21_lowercase_ascii",
    "C21_lowercase_unicode",
    "C21_lowercase_idempotent"
   ],
   "note": "unicode.ToLower is an arbitrary function on runes; ASCII behaviour is a hypothesis where needed."
  },
  {
   "property": "C22",
   "status": "proved",
   "theorems": [
    "C22_stopwords_exact",
    "C22_readme_no_stopword_reaches_stemmer",
    "C22_two_word_stopword_unreachable",
    "C22_table"
   ],
   "note": ""
  },
  {
   "property": "C23",
   "status": "proved",
   "theorems": [
    "C23_stemmer_one_to_one",
    "C23_remove_stop_words_flag_refuted"
   ],
   "note": "Stem is an arbitrary function. That the flag removes stop words is refuted."
  },
  {
   "property": "C24",
   "status": "proved",
   "theorems": [
    "C24_tokens_case_insensitive",
    "C24_query_case_insensitive",
    "C24_document_case_insensitive"
   ],
   "note": "Assumes of unicode.ToLower only its ASCII behaviour."
  },
  {
   "property": "C25",
   "status": "proved",
   "theorems": [
    "C25_regions_are_suffixes"
   ],
   "note": ""
  },
  {
   "property": "C26",
   "status": "proved",
   "theorems": [
    "C26_r1_r2_regions",
    "C26_regions_unique"
   ],
   "note": ""
  },
  {
   "property": "C27",
   "status": "proved",
   "theorems": [
    "C27_rv_region",
    "C27_rv_region_refuted"
   ],
   "note": "RV equals the Snowball region when R1 is not nil; the unconditional claim is refuted."
  },
  {
   "property": "C28",
   "status": "proved",
   "theorems": [
    "C28_put_then_search"
   ],
   "note": ""
  },
  {
   "property": "C29",
   "status": "proved",
   "theorems": [
    "C29_histories_refine",
    "C29_calls_refine",
    "C29_machine_is_exact"
   ],
   "note": ""
  },
  {
   "property": "C30",
   "status": "proved",
   "theorems": [
    "C30_isolation"
   ],
   "note": ""
  },
  {
   "property": "C31",
   "status": "proved",
   "theorems": [
    "C31_alias"
   ],
   "note": ""
  },
  {
   "property": "C32",
   "status": "proved",
   "theorems": [
    "C32_unalias_whole",
    "C32_unalias_one"
   ],
   "note": ""
  },
  {
   "property": "C33",
   "status": "proved",
   "theorems": [
    "C33_put_discarded",
    "C33_put_is_stored_refuted"
   ],
   "note": "That every Put is stored somewhere is refuted."
  },
  {
   "property": "C34",
   "status": "proved",
   "theorems": [
    "C34_leak_exactly_when_missing",
    "C34_missing_index_blocks_writers",
    "C34_missing_alias_blocks",
    "C34_unalias_is_harmless_refuted"
   ],
   "note": "Shows the leak and what it blocks; 'UnAlias is harmless' is refuted."
  },
  {
   "property": "C35",
   "status": "proved",
   "theorems": [
    "C35_no_block_without_leak"
   ],
   "note": ""
  },
  {
   "property": "C36",
   "status": "proved",
   "theorems": [
    "C36_put_through_alias"
   ],
   "note": ""
  },
  {
   "property": "C37",
   "status": "proved",
   "theorems": [
    "C37_search_alias_blocks",
    "C37_every_block_order_possible",
    "C37_deterministic_refuted"
   ],
   "note": "Every order of blocks is possible; determinism is refuted."
  },
  {
   "property": "C38",
   "status": "proved",
   "theorems": [
    "C38_index_hides_alias"
   ],
   "note": ""
  },
  {
   "property": "C39",
   "status": "proved",
   "theorems": [
    "C39_unknown_name_fails",
    "C39_search_changes_nothing"
   ],
   "note": ""
  },
  {
   "property": "C40",
   "status": "proved",
   "theorems": [
    "C40_drop",
    "C40_put_after_drop",
    "C40_unrelated_alias_kept_refuted"
   ],
   "note": "Drop also removes unrelated empty aliases (refuted variant)."
  },
  {
   "property": "C41",
   "status": "proved",
   "theorems": [
    "C41_rename"
   ],
   "note": ""
  },
  {
   "property": "C42",
   "status": "proved",
   "theorems": [
    "C42_self_rename_destroys",
    "C42_self_rename_keeps_documents_refuted"
   ],
   "note": "Documents the self-rename defect; that documents are kept is refuted."
  },
  {
   "property": "C43",
   "status": "proved",
   "theorems": [
    "C43_rename_overwrites"
   ],
   "note": ""
  },
  {
   "property": "C44",
   "status": "proved",
   "theorems": [
    "C44_no_dangling_aliases",
    "C44_engines_safe"
   ],
   "note": ""
  },
  {
   "property": "C45",
   "status": "proved",
   "theorems": [
    "C45_no_duplicates"
   ],
   "note": ""
  },
  {
   "property": "C46",
   "status": "proved",
   "theorems": [
    "C46_list_and_has",
    "C46_list_aliases_and_has_alias",
    "C46_reading_changes_nothing"
   ],
   "note": ""
  },
  {
   "property": "C47",
   "status": "proved",
   "theorems": [
    "C47_rows_stable",
    "C47_rename_rewrites_rows",
    "C47_snapshot_refuted"
   ],
   "note": "Rows change under Rename only; the snapshot reading is refuted."
  },
  {
   "property": "C48",
   "status": "proved",
   "theorems": [
    "C48_no_deadlock",
    "C48_no_infinite_run",
    "C48_all_return",
    "C48_leak_refuted"
   ],
   "note": "Without leaked locks; with a leak refuted."
  },
  {
   "property": "C49",
   "status": "proved",
   "theorems": [
    "C49_no_race_between_calls",
    "C49_no_race_on_indices",
    "C49_no_race_in_search",
    "C49_no_race",
    "C49_rename_unalias_refuted",
    "C49_duplicate_alias_refuted"
   ],
   "note": "For pools without Rename+UnAlias and without duplicate alias entries; both exceptions are refuted by witnesses. On the index table and the indices there is no race whatever the calls (C49_no_race_on_indices)."
  },
  {
   "property": "C50",
   "status": "proved",
   "theorems": [
    "C50_nothing_lost",
    "C50_exactly_the_puts"
   ],
   "note": ""
  },
  {
   "property": "C51",
   "status": "proved",
   "theorems": [
    "C51_lost_document"
   ],
   "note": "A witness schedule loses a document."
  },
  {
   "property": "C52",
   "status": "proved",
   "theorems": [
    "C52_no_dangling_aliases",
    "C52_no_panic",
    "C52_rename_unalias_refuted",
    "C52_rename_unalias_crash_refuted"
   ],
   "note": "Without Rename∥UnAlias; with them a dangling alias, a panic and a crash are exhibited."
  },
  {
   "property": "C53",
   "status": "proved",
   "theorems": [
    "C53_all_or_nothing"
   ],
   "note": ""
  },
  {
   "property": "C54",
   "status": "proved",
   "theorems": [
    "C54_marshal_is_json",
    "C54_round_trip",
    "C54_round_trip_exact",
    "C54_same_text",
    "C54_restores_everything_refuted"
   ],
   "note": "easyjson v0.9.0 modelled after its published source; invalid UTF-8 is replaced (refuted variant)."
  },
  {
   "property": "C55",
   "status": "proved",
   "theorems": [
    "C55_unmarshal",
    "C55_only_known_fields",
    "C55_fields",
    "C55_accepts_only_json_refuted"
   ],
   "note": "easyjson v0.9.0 modelled after its published source; the reader accepts some texts that are not JSON. json.Valid is assumed to accept JSON nested at most 10000 deep, which is its limit; the theorems are about such texts."
  },
  {
   "property": "C56",
   "status": "proved",
   "theorems": [
    "C56_stopword_query_finds_nothing"
   ],
   "note": ""
  },
  {
   "property": "C57",
   "status": "proved",
   "theorems": [
    "C57_atomic_sections",
    "C57_outcome",
    "C57_crash"
   ],
   "note": ""
  },
  {
   "property": "C58",
   "status": "proved",
   "theorems": [
    "C58_linearizable",
    "C58_serializable"
   ],
   "note": "For pools of pairwise tolerant calls; C68 shows mixes outside it that are not serializable."
  },
  {
   "property": "C59",
   "status": "proved",
   "theorems": [
    "C59_harmless",
    "C59_no_markup"
   ],
   "note": ""
  },
  {
   "property": "C60",
   "status": "proved",
   "theorems": [
    "C60_terminates",
    "C60_writing_terminates"
   ],
   "note": ""
  },
  {
   "property": "C61",
   "status": "proved",
   "theorems": [
    "C61_text",
    "C61_any_order",
    "C61_text_determines_index_refuted"
   ],
   "note": ""
  },
  {
   "property": "C62",
   "status": "proved",
   "theorems": [
    "C62_titles",
    "C62_text",
    "C62_renamed_index_prints_old_name",
    "C62_prints_current_names_refuted"
   ],
   "note": "Current names are not shown after Rename (refuted variant)."
  },
  {
   "property": "C63",
   "status": "proved",
   "theorems": [
    "C63_index_out_of_reach",
    "C63_engines_see_the_puts",
    "C63_snapshots_are_stable",
    "C63_snapshots_are_fresh"
   ],
   "note": ""
  },
  {
   "property": "C64",
   "status": "proved",
   "theorems": [
    "C64_linear_search_any_indexer",
    "C64_panics_only_on_a_match",
    "C64_complete_when_unsorted_refuted"
   ],
   "note": "Completeness needs ascending posting lists (refuted otherwise)."
  },
  {
   "property": "C65",
   "status": "proved",
   "theorems": [
    "C65_hits_search_any_indexer",
    "C65_and_semantics_without_repetition",
    "C65_and_semantics_with_repetition_refuted"
   ],
   "note": "AND semantics needs posting lists without repetition (refuted otherwise)."
  },
  {
   "property": "C66",
   "status": "proved",
   "theorems": [
    "C66_same_results",
    "C66_linear_calls",
    "C66_linear_bound",
    "C66_unknown_token_stops",
    "C66_noop_zero_calls",
    "C66_noop_all_calls",
    "C66_hits_calls",
    "C66_readme_complexity_refuted"
   ],
   "note": "The README's complexity claim for HitsSearch is refuted by the calls it makes."
  },
  {
   "property": "C67",
   "status": "proved",
   "theorems": [
    "C67_put_work",
    "C67_same_index",
    "C67_quadratic"
   ],
   "note": ""
  },
  {
   "property": "C68",
   "status": "proved",
   "theorems": [
    "C68_drop_drop_refuted",
    "C68_drop_rename_refuted",
    "C68_put_put_refuted",
    "C68_put_rename_to_refuted",
    "C68_put_rename_from_refuted",
    "C68_put_alias_refuted",
    "C68_put_unalias_refuted",
    "C68_unalias_rename_refuted",
    "C68_unalias_drop_refuted",
    "C68_list_rename_refuted"
   ],
   "note": "Witness runs, each checked against every sequential order."
  },
  {
   "property": "C69",
   "status": "proved",
   "theorems": [
    "C69_calls_refine",
    "C69_no_fault"
   ],
   "note": "Panics of caller-supplied code; which texts and names panic is arbitrary."
  },
  {
   "property": "C70",
   "status": "proved",
   "theorems": [
    "C70_first_put_panics",
    "C70_table_stays_locked",
    "C70_blocked_for_ever",
    "C70_put_crashes"
   ],
   "note": "Blocking for ever is also proved for pools of concurrent calls started afterwards."
  },
  {
   "property": "C71",
   "status": "proved",
   "theorems": [
    "C71_search_panics",
    "C71_search_crashes",
    "C71_good_search"
   ],
   "note": ""
  },
  {
   "property": "C72",
   "status": "proved",
   "theorems": [
    "C72_all_hits_equal",
    "C72_ranking_needs_repeated_ids",
    "C72_best_match_first_refuted"
   ],
   "note": ""
  },
  {
   "property": "C73",
   "status": "proved",
   "theorems": [
    "C73_readme_program",
    "C73_only_java"
   ],
   "note": ""
  },
  {
   "property": "C74",
   "status": "proved",
   "theorems": [
    "C74_calls_refine",
    "C74_looking_is_free",
    "C74_writing_hangs",
    "C74_aliasing_works"
   ],
   "note": "The calls are a fixed list, made before the engine computes its answer; names standing for several indices (goroutines) are excluded by `modelled`."
  },
  {
   "property": "C75",
   "status": "proved",
   "theorems": [
    "C75_tokenizer_hangs",
    "C75_asking_for_aliases"
   ],
   "note": "As C74; the calls are made before the text is split."
  },
  {
   "property": "C76",
   "status": "proved",
   "theorems": [
    "C76_engine_and_put_deadlock",
    "C76_engine_put_freezes",
    "C76_tokenizer_freezes"
   ],
   "note": "Deadlocks exhibited in every state with the index."
  },
  {
   "property": "C77",
   "status": "proved",
   "theorems": [
    "C77_phase",
    "C77_restricted",
    "C77_calls_after_phase",
    "C77_serial",
    "C77_puts_then_search",
    "C77_lost_for_good"
   ],
   "note": "Phases must start with no lock left behind; what Rename and UnAlias do to each other is in C49 and C52."
  },
  {
   "property": "C78",
   "status": "proved",
   "theorems": [
    "C78_engines_opaque",
    "C78_relabelling",
    "C78_one_to_one_stemmer"
   ],
   "note": "Engines of the package only; an engine supplied by a caller may look at the tokens."
  },
  {
   "property": "C79",
   "status": "proved",
   "theorems": [
    "C79_merging_tokens_linear",
    "C79_merging_tokens_hits",
    "C79_dropping_tokens",
    "C79_pipeline_filters",
    "C79_stop_words"
   ],
   "note": "HitsSearch: for IDs with different hashes."
  },
  {
   "property": "C80",
   "status": "proved",
   "theorems": [
    "C80_intersection_tests",
    "C80_stemmer_tests",
    "C80_engine_tests",
    "C80_order_test",
    "C80_phantom_test",
    "C80_repo_tests"
   ],
   "note": "The stemmer of kljensen/snowball is a parameter; that it gives the words of the tests different stems is a hypothesis."
  },
  {
   "property": "C81",
   "status": "proved",
   "theorems": [
    "C81_accepted",
    "C81_rejected",
    "C81_target_irrelevant"
   ],
   "note": "easyjson's lexer is modelled after its published source; json.Valid is a parameter that accepts only JSON."
  },
  {
   "property": "C82",
   "status": "proved",
   "theorems": [
    "C82_string",
    "C82_result"
   ],
   "note": "easyjson's writer is modelled after its published source."
  },
  {
   "property": "C83",
   "status": "proved",
   "theorems": [
    "C83_linearizable",
    "C83_death",
    "C83_serializable",
    "C83_calm",
    "C83_put_drop"
   ],
   "note": "Extends C58: C83_calm shows that its pools are covered; here a call may take effect at a step of another call."
  },
  {
   "property": "C84",
   "status": "proved",
   "theorems": [
    "C84_earlier_rows",
    "C84_rows_of_running_calls",
    "C84_reading_during_rename_refuted"
   ],
   "note": "C84_reading_during_rename_refuted is the negative half: with Rename the claim is false."
  },
  {
   "property": "C85",
   "status": "proved",
   "theorems": [
    "C85_clients",
    "C85_death",
    "C85_programs",
    "C85_election_refuted",
    "C85_turns_happen",
    "C85_exactly"
   ],
   "note": "C85_clients and C85_death put C83's condition on the calls actually made; C85_programs on the calls the programs can make. C85_election_refuted shows a condition is needed."
  },
  {
   "property": "C86",
   "status": "proved",
   "theorems": [
    "C86_no_infinite_run",
    "C86_no_deadlock",
    "C86_all_finish",
    "C86_no_race",
    "C86_no_panic",
    "C86_without_unalias",
    "C86_refused_refuted"
   ],
   "note": "C86_refused_refuted shows that the condition on UnAlias is needed."
  },
  {
   "property": "C87",
   "status": "proved",
   "theorems": [
    "C87_clients",
    "C87_death",
    "C87_programs",
    "C87_not_created_refuted"
   ],
   "note": "C87_not_created_refuted shows that shared names must exist at the start. Unlike C85 the conditions do not mention the calls of other clients, and a client may change its own names as often as it likes."
  },
  {
   "property": "C88",
   "status": "proved",
   "theorems": [
    "C88_isolated",
    "C88_death",
    "C88_empty_alias_refuted"
   ],
   "note": "C88_empty_alias_refuted shows why UnAlias of a single index is excepted. Unlike C85 and C87 nothing is asked of how the other programs treat one another."
  },
  {
   "property": "C89",
   "status": "proved",
   "theorems": [
    "C89_intersection",
    "C89_linear_time",
    "C89_pair",
    "C89_readme_space_refuted",
    "C89_hits_table",
    "C89_same_search"
   ],
   "note": "C89_readme_space_refuted refutes the README's space complexity of LinearSearch; copies made by slices.Copy (outside the repository) are not counted."
  },
  {
   "property": "C90",
   "status": "proved",
   "theorems": [
    "C90_stalls",
    "C90_death",
    "C90_linearizable",
    "C90_no_race",
    "C90_locked_for_ever",
    "C90_no_deadlock"
   ],
   "note": "C90_linearizable under C83's condition; the other theorems for all calls. A tokenizer or builder panics depending on its argument only (Fault.v)."
  },
  {
   "property": "C91",
   "status": "proved",
   "theorems": [
    "C91_refines",
    "C91_exact",
    "C91_serializable",
    "C91_phases",
    "C91_no_deadlock",
    "C91_no_infinite_run",
    "C91_no_race",
    "C91_memory",
    "C91_chosen_tokenizer"
   ],
   "note": "Assumed of the implementation (AnyIndex.v): the methods return (Search may panic), Search does not change the object, the results depend on the object and the arguments only, and the builder makes a new object each time. C91_serializable under the condition of C58."
  },
  {
   "property": "C92",
   "status": "proved",
   "theorems": [
    "C92_one_call_suffices",
    "C92_alike_iff",
    "C92_history_leaves_no_trace",
    "C92_what_Put_keeps",
    "C92_what_Put_does_not_lose",
    "C92_String_shows_more"
   ],
   "note": "Calls issued one after the other; String is excluded (C92_String_shows_more), its text is C62."
  },
  {
   "property": "C93",
   "status": "proved",
   "theorems": [
    "C93_everything_happens",
    "C93_every_crash_happens",
    "C93_picture",
    "C93_exactly",
    "C93_crash_exactly",
    "C93_only_the_view_matters",
    "C93_only_the_view_matters_for_crashes",
    "C93_a_document_can_be_lost"
   ],
   "note": "Runs in which an UnAlias of a single index fails are excluded (it leaves a lock behind): by tidy sections, by kept answers, or by whole_unalias."
  },
  {
   "property": "C94",
   "status": "proved",
   "theorems": [
    "C94_no_empty_index",
    "C94_others_do_not_clash",
    "C94_these_clash",
    "C94_exactly",
    "C94_death"
   ],
   "note": "Pairs of calls only; with a third call that looks, more pairs get in each other's way (C68). Rename with UnAlias races (C49) and with ListAliases changes the rows already returned (C84), so these pairs are left out."
  },
  {
   "property": "C95",
   "status": "proved",
   "theorems": [
    "C95_readers",
    "C95_searches",
    "C95_races",
    "C95_apart",
    "C95_pool_races",
    "C95_put_alone",
    "C95_lost_document",
    "C95_wrong_document",
    "C95_broken_index"
   ],
   "note": "Interleavings of single accesses (Bare.v), sequentially consistent; Go may also abort on concurrent map writes. Reading a posting list, and ranging over the map, is one step."
  },
  {
   "property": "C96",
   "status": "proved",
   "theorems": [
    "C96_ordered",
    "C96_next_ordered",
    "C96_always_ordered",
    "C96_indices_ordered",
    "C96_race_unordered",
    "C96_rename_refuted"
   ],
   "note": "Happens-before as in go.dev/ref/mem for mutexes, go statements and WaitGroups (SpecHb.v), over the interleavings of Sem.v. Accesses made by a step that crashes are covered by C96_next_ordered. C96_rename_refuted is the witness that Rename has to be excluded."
  },
  {
   "property": "C97",
   "status": "proved",
   "theorems": [
    "C97_noop",
    "C97_linear",
    "C97_hits_exact",
    "C97_hits",
    "C97_repeated",
    "C97_hits_refuted"
   ],
   "note": "Ints.v repeats the engines with wrapping increments; the other arithmetic of the index is len. C97_hits_refuted is the witness that the bound in C97_hits is needed."
  },
  {
   "property": "C98",
   "status": "proved",
   "theorems": [
    "C98_reached",
    "C98_answers",
    "C98_crash",
    "C98_moves",
    "C98_each_once",
    "C98_ends"
   ],
   "note": "Iter.v runs the programs of Repo.v with loops that take one key per step, as the Go specification describes them, including that entries removed meanwhile need not be produced. If Rename and UnAlias run at once Go may abort the process; that case is C49's and left out here."
  },
  {
   "property": "C99",
   "status": "proved",
   "theorems": [
    "C99_calls_refine",
    "C99_other_calls",
    "C99_put_shows",
    "C99_same_answers",
    "C99_alias_counts",
    "C99_drop_keeps",
    "C99_distinct",
    "C99_no_deadlock",
    "C99_all_return",
    "C99_no_race_between_calls",
    "C99_no_race_on_indices",
    "C99_put_race_refuted",
    "C99_isolation_refuted"
   ],
   "note": "Shared.v replaces the call of the builder, the only one being in Put. The objects are MemoryIndexes with one tokenizer and are only changed through the repo while it is in use; each name gets the same object at every call of the builder. The self-race and the loss of isolation are shown by witnesses (C99_put_race_refuted, C99_isolation_refuted)."
  }
 ]
}