{"claims": [
{"property": "C01", "status": "proved", "theorems": ["C01_bit_writes"], "note": ""},
{"property": "C02", "status": "proved", "theorems": ["C02_seeker_read"], "note": ""},
{"property": "C03", "status": "proved", "theorems": ["C03_append_exact", "C03_append_bytes"], "note": ""},
{"property": "C04", "status": "proved", "theorems": ["C04_gorilla_lossless_iff", "C04_gorilla_lossless_gentle", "C04_provisos_needed"], "note": ""},
{"property": "C05", "status": "proved", "theorems": ["C05_bytes_any_time"], "note": ""},
{"property": "C06", "status": "proved", "theorems": ["C06_tag_checked", "C06_simple_rejected"], "note": ""},
{"property": "C07", "status": "proved", "theorems": ["C07_none_mode", "C07_none_compact_vec_refuted"], "note": ""},
{"property": "C08", "status": "proved", "theorems": ["C08_decompress_terminates", "C08_never_panics_refuted", "C08_release_build", "C08_release_own_output"], "note": ""},
{"property": "C09", "status": "proved", "theorems": ["C09_codec_round_trip", "C09_codec_total"], "note": ""},
{"property": "C10", "status": "proved", "theorems": ["C10_sled_read_exact", "C10_sled_read_outside", "C10_sled_append_frame", "C10_sled_append_ok"], "note": ""},
{"property": "C11", "status": "proved", "theorems": ["C11_tikv_read_exact", "C11_tikv_write_gate"], "note": ""},
{"property": "C12", "status": "proved", "theorems": ["C12_sled_range", "C12_tikv_range"], "note": ""},
{"property": "C13", "status": "proved", "theorems": ["C13_out_of_order_refuted", "C13_duplicate_refuted"], "note": ""},
{"property": "C14", "status": "proved", "theorems": ["C14_label_round_trip", "C14_label_domain_exact", "C14_any_text"], "note": ""},
{"property": "C15", "status": "proved", "theorems": ["C15_label_order", "C15_label_order_found", "C15_repeated_name_refuted"], "note": ""},
{"property": "C16", "status": "proved", "theorems": ["C16_no_alias", "C16_which", "C16_comma_refuted", "C16_equals_refuted", "C16_R_refuted"], "note": ""},
{"property": "C17", "status": "proved", "theorems": ["C17_search_exact", "C17_search_known", "C17_search_nothing", "C17_unknown_label_refuted"], "note": ""},
{"property": "C18", "status": "proved", "theorems": ["C18_intersection_exact", "C18_schedule_independent"], "note": ""},
{"property": "C19", "status": "proved", "theorems": ["C19_sled_duplicate_refused", "C19_tikv_rebinds"], "note": ""},
{"property": "C20", "status": "proved", "theorems": ["C20_metadata_exact"], "note": ""},
{"property": "C21", "status": "proved", "theorems": ["C21_outside_refused", "C21_inside_accepted"], "note": ""},
{"property": "C22", "status": "proved", "theorems": ["C22_chunk_refines", "C22_chunk_refines_any"], "note": ""},
{"property": "C23", "status": "proved", "theorems": ["C23_chunk_sound", "C23_chunk_in_range", "C23_database_sound"], "note": ""},
{"property": "C24", "status": "proved", "theorems": ["C24_chunk_complete", "C24_content_complete", "C24_database_complete"], "note": ""},
{"property": "C25", "status": "proved", "theorems": ["C25_ids_unique"], "note": ""},
{"property": "C26", "status": "proved", "theorems": ["C26_insert_ignores_closed", "C26_closed_refuses_refuted"], "note": ""},
{"property": "C27", "status": "proved", "theorems": ["C27_calls_serialised", "C27_calls_progress", "C27_inserts_some_order"], "note": ""},
{"property": "C28", "status": "proved", "theorems": ["C28_query_not_atomic_refuted"], "note": ""},
{"property": "C29", "status": "proved", "theorems": ["C29_crash_store", "C29_crash_points", "C29_queries_survive_refuted", "C29_queries", "C29_other_queries", "C29_silently_empty_refuted"], "note": ""},
{"property": "C30", "status": "proved", "theorems": ["C30_batch_exact"], "note": ""},
{"property": "C31", "status": "proved", "theorems": ["C31_merged_in_time_order", "C31_answer_exact", "C31_prefix_refuted", "C31_unmixed"], "note": ""},
{"property": "C32", "status": "proved", "theorems": ["C32_any_range", "C32_inverted_answer", "C32_inverted_range_refuted"], "note": ""},
{"property": "C33", "status": "proved", "theorems": ["C33_swap_keeps_answers", "C33_interleaved_points", "C33_interleaved", "C33_interleaved_finish", "C33_once_refuted"], "note": ""},
{"property": "C34", "status": "proved", "theorems": ["C34_windows_disjoint", "C34_clock", "C34_now_accepted_refuted"], "note": ""},
{"property": "C35", "status": "proved", "theorems": ["C35_restart_keeps_answers", "C35_chunks_in_order", "C35_answers_across_restarts", "C35_answers_in_time_order", "C35_future_refuted"], "note": ""},
{"property": "C36", "status": "proved", "theorems": ["C36_reopen_iff_same_backends"], "note": ""},
{"property": "C37", "status": "proved", "theorems": ["C37_window_round_trip", "C37_names_differ", "C37_accepted_names"], "note": ""},
{"property": "C38", "status": "proved", "theorems": ["C38_name_recovered", "C38_name_general", "C38_lost_below_other_paths"], "note": ""},
{"property": "C39", "status": "proved", "theorems": ["C39_open_iff_complete", "C39_new_crash_points", "C39_swap_crash_points", "C39_restart_crash_points", "C39_answers_kept"], "note": ""},
{"property": "C40", "status": "proved", "theorems": ["C40_identifiers_kept_refuted", "C40_found_identifiers", "C40_separate_keys_refuted", "C40_one_chunk_refines", "C40_reopened_is_empty", "C40_chunks_mix"], "note": ""},
{"property": "C41", "status": "proved", "theorems": ["C41_entry_round_trip", "C41_entry_any_length", "C41_long_entry_refuted", "C41_reported_length"], "note": ""},
{"property": "C42", "status": "proved", "theorems": ["C42_pushed_in_pieces", "C42_pieces_do_not_matter", "C42_burst_changes_checksum", "C42_corruption_detected"], "note": ""},
{"property": "C43", "status": "proved", "theorems": ["C43_immediate", "C43_log_read_back", "C43_cut_log_read_back", "C43_segment_checksum", "C43_short_write_refuted"], "note": ""},
{"property": "C44", "status": "proved", "theorems": ["C44_count_based_refuted", "C44_count_based_flushed", "C44_time_based_refuted", "C44_size_based", "C44_size_based_refuted"], "note": ""},
{"property": "C45", "status": "proved", "theorems": ["C45_one_result_per_query", "C45_readable"], "note": ""},
{"property": "C46", "status": "proved", "theorems": ["C46_types_ignored", "C46_not_equal_refuted"], "note": ""},
{"property": "C47", "status": "proved", "theorems": ["C47_sample_round_trip", "C47_point_round_trip", "C47_negative_times", "C47_negative_dropped"], "note": ""},
{"property": "C48", "status": "proved", "theorems": ["C48_applied_up_to_failure", "C48_rest_unwritten"], "note": ""},
{"property": "C49", "status": "proved", "theorems": ["C49_bad_body_ends_serving", "C49_other_paths", "C49_read_refused", "C49_read_answered", "C49_write", "C49_cut_write_body"], "note": ""},
{"property": "C50", "status": "proved", "theorems": ["C50_accepted_iff", "C50_refusals", "C50_db_refusals", "C50_defaults"], "note": ""},
{"property": "C51", "status": "proved", "theorems": ["C51_value_ignored", "C51_equal_iff", "C51_values_differ_refuted", "C51_reflexive_refuted", "C51_transitive_refuted", "C51_symmetric", "C51_order"], "note": ""},
{"property": "C52", "status": "proved", "theorems": ["C52_write_request", "C52_read_request", "C52_read_response", "C52_write_request_same", "C52_negative_zero_refuted", "C52_sizes", "C52_joined", "C52_cut_short", "C52_labels", "C52_chunk", "C52_chunked_series", "C52_chunked_response", "C52_stream_sizes", "C52_later_encoding"], "note": ""},
{"property": "C53", "status": "proved", "theorems": ["C53_no_panic_refuted", "C53_poisoned_forever", "C53_misfiled"], "note": ""},
{"property": "C54", "status": "proved", "theorems": ["C54_stored_refuted_tikv", "C54_stored_refuted_failing"], "note": ""},
{"property": "C55", "status": "proved", "theorems": ["C55_sessions"], "note": ""},
{"property": "C56", "status": "proved", "theorems": ["C56_starts_iff", "C56_exits", "C56_panics_iff", "C56_chunk_size", "C56_chunk_size_refuted"], "note": ""},
{"property": "C57", "status": "proved", "theorems": ["C57_serialised", "C57_finish", "C57_batch_atomic_refuted"], "note": ""},
{"property": "C58", "status": "proved", "theorems": ["C58_acked", "C58_begun", "C58_insert_results", "C58_between", "C58_between_increasing", "C58_sound", "C58_complete", "C58_no_panic", "C58_snapshot", "C58_after_all"], "note": ""},
{"property": "C59", "status": "proved", "theorems": ["C59_reopened", "C59_history", "C59_failed_swap", "C59_restart_refuted", "C59_silent_refuted"], "note": ""},
{"property": "C60", "status": "proved", "theorems": ["C60_reopened", "C60_reopened_acknowledged", "C60_between", "C60_own_series", "C60_sound", "C60_complete", "C60_snapshot", "C60_quiet", "C60_quiet_outcome", "C60_succeeds", "C60_broke_down", "C60_acknowledged", "C60_order_refuted"], "note": ""},
{"property": "C61", "status": "proved", "theorems": ["C61_same_effects", "C61_index_flushed", "C61_index_flushed_refuted", "C61_exact", "C61_power_loss", "C61_sound", "C61_survivors_returned_refuted", "C61_database", "C61_database_sound"], "note": ""},
{"property": "C62", "status": "proved", "theorems": ["C62_never_stuck", "C62_no_endless_run", "C62_finish", "C62_interleaving", "C62_rules"], "note": ""},
{"property": "C63", "status": "proved", "theorems": ["C63_serving", "C63_serving_reopened", "C63_never_stuck", "C63_finish"], "note": ""},
{"property": "C64", "status": "proved", "theorems": ["C64_shared_table", "C64_next_database", "C64_first_window", "C64_restart_forgets", "C64_own_points_refuted", "C64_acknowledged_refuted"], "note": ""},
{"property": "C65", "status": "proved", "theorems": ["C65_write_request", "C65_read_request", "C65_read_response", "C65_chunked_response", "C65_parts", "C65_text", "C65_stops_write_request", "C65_stops_read_request", "C65_stops_read_response", "C65_stops_chunked_response", "C65_encoding_or_stops", "C65_written"], "note": ""},
{"property": "C66", "status": "proved", "theorems": ["C66_launch", "C66_program", "C66_program_reopened", "C66_finish", "C66_paced"], "note": ""},
{"property": "C67", "status": "proved", "theorems": ["C67_points_in_tikv", "C67_series_in_tikv", "C67_restart_forgets", "C67_own_points_refuted"], "note": ""},
{"property": "C68", "status": "proved", "theorems": ["C68_searches", "C68_read", "C68_any_order", "C68_in_range_refuted", "C68_complete_refuted", "C68_restarts", "C68_server"], "note": ""},
{"property": "C69", "status": "proved", "theorems": ["C69_sessions", "C69_every_request", "C69_from_before_1970", "C69_to_before_1970"], "note": ""},
{"property": "C70", "status": "proved", "theorems": ["C70_sessions", "C70_points_in_tikv", "C70_series_in_tikv", "C70_tikv_cli", "C70_tikv_cli_options"], "note": ""},
{"property": "C71", "status": "proved", "theorems": ["C71_cluster", "C71_sound", "C71_newest", "C71_own_points_refuted", "C71_acknowledged_refuted", "C71_at_once_refuted"], "note": ""},
{"property": "C72", "status": "proved", "theorems": ["C72_equal", "C72_fed", "C72_unmixed", "C72_hash", "C72_siphash", "C72_contract_refuted", "C72_order_refuted"], "note": ""},
{"property": "C73", "status": "proved", "theorems": ["C73_wide", "C73_ordinary", "C73_acknowledged_refuted", "C73_checked_open", "C73_checked_rotation"], "note": ""},
{"property": "C74", "status": "proved", "theorems": ["C74_bit_streams", "C74_compaction", "C74_compaction_vec", "C74_decompaction", "C74_exchange", "C74_exchange_refuted"], "note": ""},
{"property": "C75", "status": "proved", "theorems": ["C75_other_queries", "C75_known_series", "C75_every_query", "C75_other_series_refuted", "C75_lives_other_queries", "C75_lives_known_series", "C75_lives_every_query"], "note": ""},
{"property": "C76", "status": "proved", "theorems": ["C76_no_write", "C76_every_query", "C76_known_series", "C76_other_queries", "C76_sessions", "C76_sessions_others", "C76_sessions_known"], "note": ""},
{"property": "C77", "status": "proved", "theorems": ["C77_lookup"], "note": ""},
{"property": "C78", "status": "proved", "theorems": ["C78_order", "C78_one_size", "C78_consistent_refuted"], "note": ""},
{"property": "C79", "status": "proved", "theorems": ["C79_every_query", "C79_spared_queries", "C79_in_a_request"], "note": ""}
]}
