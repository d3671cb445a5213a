{
 "claims": [
  {
   "property": "C01",
   "status": "proved",
   "theorems": [
    "C01_datapoint_round_trip",
    "C01_errorpoint_round_trip",
    "C01_write_total"
   ],
   "note": "For any hash of 32 bytes; error points included."
  },
  {
   "property": "C02",
   "status": "proved",
   "theorems": [
    "C02_linkpoint_round_trip"
   ],
   "note": "Every field read back; offsets existentially quantified are fixed by C06_declared_sizes."
  },
  {
   "property": "C03",
   "status": "proved",
   "theorems": [
    "C03_keypoint_round_trip"
   ],
   "note": "For any signature scheme whose signatures verify (crypto_ok)."
  },
  {
   "property": "C04",
   "status": "proved",
   "theorems": [
    "C04_read_exact",
    "C04_read_fields"
   ],
   "note": "lk_read characterised exactly (iff) by the independent packet layout; fields read equal the layout's fields."
  },
  {
   "property": "C05",
   "status": "partial",
   "theorems": [
    "C05_read_no_panic_partial",
    "C05_read_panics_refuted"
   ],
   "note": "The exact set of panicking inputs is proved: data/error points with declared size 0..3. Out-of-bounds slicing is modelled as Panic. The full claim is refuted by such an input."
  },
  {
   "property": "C06",
   "status": "proved",
   "theorems": [
    "C06_datapoint_limit",
    "C06_linkpoint_limit",
    "C06_keypoint_limit",
    "C06_declared_sizes"
   ],
   "note": ""
  },
  {
   "property": "C07",
   "status": "partial",
   "theorems": [
    "C07_free_space_linkpoint",
    "C07_free_space_keypoint_partial",
    "C07_free_space_keypoint_refuted"
   ],
   "note": "Exact for link points; for keypoints the result is exactly 60 bytes too large (refuted, and the corrected statement proved)."
  },
  {
   "property": "C08",
   "status": "proved",
   "theorems": [
    "C08_stream_of_packets",
    "C08_prefix_requires_more",
    "C08_complete_not_short",
    "C08_prefix_free"
   ],
   "note": ""
  },
  {
   "property": "C09",
   "status": "proved",
   "theorems": [
    "C09_chunking_independent",
    "C09_decodes_packets",
    "C09_decoder_is_read",
    "C09_interrupted_body"
   ],
   "note": "For every byte string (valid or not) and every cut into non-empty reads; one decoder step equals lk_read; interrupted body reads are transparent. A zero-length read inside a body is an error by std read_exact."
  },
  {
   "property": "C10",
   "status": "proved",
   "theorems": [
    "C10_read_private",
    "C10_read_others",
    "C10_write_private",
    "C10_write_others",
    "C10_write_ptr",
    "C10_decoder_private",
    "C10_decoder_all_private"
   ],
   "note": "lk_read, lk_write (built and byte packets); the stream decoder is in the C10_decoder theorems."
  },
  {
   "property": "C11",
   "status": "proved",
   "theorems": [
    "C11_content_determines_fields"
   ],
   "note": ""
  },
  {
   "property": "C12",
   "status": "partial",
   "theorems": [
    "C12_build_then_iterate",
    "C12_iterate_accepted",
    "C12_iterate_then_build_partial",
    "C12_iterate_then_build_refuted"
   ],
   "note": "Build-then-iterate proved; iterate-then-rebuild proved for at most 8 components and refuted beyond (validation accepts 9+ components, building does not)."
  },
  {
   "property": "C13",
   "status": "proved",
   "theorems": [
    "C13_validation_exact",
    "C13_validation_total",
    "C13_components_unique",
    "C13_build_exact",
    "C13_build_total"
   ],
   "note": "Exact characterisation of validation and building; both total."
  },
  {
   "property": "C14",
   "status": "partial",
   "theorems": [
    "C14_rooting_exact",
    "C14_rooting_preserves_partial",
    "C14_rooting_preserves_refuted"
   ],
   "note": "Rooting keeps exactly the first 8 components (C14_rooting_exact); the full statement holds up to 8 components and is refuted for valid spaces with more."
  },
  {
   "property": "C15",
   "status": "partial",
   "theorems": [
    "C15_validation_exact",
    "C15_validation_total",
    "C15_table_truthful_partial",
    "C15_table_truthful_refuted",
    "C15_encoding_unique_refuted"
   ],
   "note": "Exact characterisation of validation; offsets, components and ranges always truthful, depth byte truthful below 8 components; refuted at exactly 8 components, where the depth byte is unchecked and iterating panics."
  },
  {
   "property": "C16",
   "status": "proved",
   "theorems": [
    "C16_starts_with",
    "C16_strip_prefix"
   ],
   "note": ""
  },
  {
   "property": "C17",
   "status": "partial",
   "theorems": [
    "C17_push",
    "C17_push_front",
    "C17_extend",
    "C17_append",
    "C17_prepend",
    "C17_split_last",
    "C17_split_first",
    "C17_split_at",
    "C17_scan",
    "C17_rooted_append",
    "C17_rooted_build",
    "C17_rooted_extend_partial",
    "C17_rooted_extend_refuted"
   ],
   "note": "Every editing operation proved equal to the list operation; rooted extend_from_iter is refuted as atomic (a failed extend keeps the components added so far)."
  },
  {
   "property": "C18",
   "status": "partial",
   "theorems": [
    "C18_key_order",
    "C18_in_tree_entry",
    "C18_key_fields",
    "C18_key_injective",
    "C18_value_fields",
    "C18_order_refuted"
   ],
   "note": "Byte order of keys equals the logical order (group, domain, depth, components, key) for points whose depth byte is truthful; keys and values round trip and are injective. Refuted for accepted points with exactly 8 components, whose depth byte is unchecked."
  },
  {
   "property": "C19",
   "status": "proved",
   "theorems": [
    "C19_read_carries",
    "C19_total",
    "C19_reflexive",
    "C19_transitive",
    "C19_equal_iff_same_hash",
    "C19_order",
    "C19_others_after"
   ],
   "note": "Total, reflexive, antisymmetric, transitive; equal iff same hash (given no hash collision on the two packets); equals the tree order, then data/error points by hash."
  },
  {
   "property": "C20",
   "status": "proved",
   "theorems": [
    "C20_add_is_intersection",
    "C20_try_add_is_intersection",
    "C20_order",
    "C20_bound_is_intersection"
   ],
   "note": "For every width from 2 to 2^32-1 bits, every sequence of tests and every value; Bound-only sets (recv) separately."
  },
  {
   "property": "C21",
   "status": "proved",
   "theorems": [
    "C21_rules_round_trip",
    "C21_rules_accepted",
    "C21_reachable",
    "C21_bound_round_trip"
   ],
   "note": "Rules as a list of tests; their textual form is not part of this claim."
  },
  {
   "property": "C22",
   "status": "proved",
   "theorems": [
    "C22_info_exact",
    "C22_min_value",
    "C22_enumerate",
    "C22_depths_exact",
    "C22_next_depth",
    "C22_depth_info"
   ],
   "note": "For every set with a member. Finding F15 (the ALL depth constant omits depth 8) is a separate theorem."
  },
  {
   "property": "C23",
   "status": "partial",
   "theorems": [
    "C23_refused_is_empty",
    "C23_satisfiable_accepted",
    "C23_accepted_nonempty_partial",
    "C23_bound_exact",
    "C23_contradictory_masks_refuted"
   ],
   "note": "Refused sets are empty and satisfiable sequences are never refused; accepted sets are non-empty only when the masks do not contradict each other (refuted otherwise)."
  },
  {
   "property": "C24",
   "status": "proved",
   "theorems": [
    "C24_compiled_exact",
    "C24_compiled_built",
    "C24_trivial_iff"
   ],
   "note": "For every set try_add lets through (all a query can contain). F18: an empty set built with add, which try_add refuses, compiles to a test that accepts a value."
  },
  {
   "property": "C25",
   "status": "proved",
   "theorems": [
    "C25_save_consistent",
    "C25_history_consistent",
    "C25_lookup_exact",
    "C25_tree_entries"
   ],
   "note": "Over the store model: LMDB tables as ordered lists, writes may fail at any position (faults record)."
  },
  {
   "property": "C26",
   "status": "proved",
   "theorems": [
    "C26_lk_save_truthful",
    "C26_idempotent",
    "C26_count"
   ],
   "note": "lk_save's boolean, the saved count and the stamp range are exact."
  },
  {
   "property": "C27",
   "status": "proved",
   "theorems": [
    "C27_atomic"
   ],
   "note": "Atomicity of an LMDB transaction (copy replaced at commit) is an assumption of the model; what is proved is that save puts everything in one transaction and reports success only after it committed."
  },
  {
   "property": "C28",
   "status": "proved",
   "theorems": [
    "C28_never_lost",
    "C28_saved_is_readable"
   ],
   "note": "For every later history of saves with arbitrary clocks and failures."
  },
  {
   "property": "C29",
   "status": "partial",
   "theorems": [
    "C29_save_succeeds_partial",
    "C29_same_stamp_refuted"
   ],
   "note": "Finding: with a clock reading equal to the last stored stamp the save fails (save.rs compares last > start instead of >=); proved for every other clock reading."
  },
  {
   "property": "C30",
   "status": "partial",
   "theorems": [
    "C30_hash_query_exact",
    "C30_descending_refuted"
   ],
   "note": "Exact in ascending hash order for every valid store (spacename predicates: packets that declare their depth honestly); descending order always panics (refuted)."
  },
  {
   "property": "C31",
   "status": "partial",
   "theorems": [
    "C31_log_query_partial",
    "C31_log_query_exact_partial",
    "C31_recv_refuted",
    "C31_branch_limit_refuted"
   ],
   "note": "Exact unless the receive stamp is bounded above (or at all when descending), both refuted; the branch limit, applied before the tests, is refuted too. C31_log_query_partial says exactly what is returned in the general case."
  },
  {
   "property": "C32",
   "status": "partial",
   "theorems": [
    "C32_returned_partial",
    "C32_spacename_refuted",
    "C32_tree_query_sound_partial"
   ],
   "note": "For stores whose packets declare their depth honestly and possible predicates: every result is stored and matches, without repetition, in tree order (C32_tree_query_sound_partial). For every store of valid packets: every result is stored and matches, if no spacename predicate is used (C32_returned_partial); with one it is refuted by a packet of eight components that declares a smaller depth (C32_spacename_refuted). Missing: order and repetition over packets that declare a wrong depth."
  },
  {
   "property": "C33",
   "status": "partial",
   "theorems": [
    "C33_depth_byte_refuted",
    "C33_tree_query_exact_partial",
    "C33_branch_limits_partial",
    "C33_prefix_refuted",
    "C33_depth_refuted",
    "C33_pubkey_refuted",
    "C33_create_refuted",
    "C33_branch_count_refuted"
   ],
   "note": "Complete for the queries of `unskipped`, also with limits on branches, whose positions are stated exactly (C33_branch_limits_partial); refuted in five other ways: four kinds of predicates that make the search skip, and that the limit on branches counts packets that do not match. Packets that declare a depth from 9 to 254 are in no result (C33_depth_byte_refuted)."
  },
  {
   "property": "C34",
   "status": "partial",
   "theorems": [
    "C34_depth_byte_refuted",
    "C34_terminates_partial",
    "C34_one_result",
    "C34_deep_refuted"
   ],
   "note": "Terminates for honest stores and possible predicates; refuted for a store holding a packet with 8 components that declares depth 255: for every tree query over its group and domain, in either order, also with other packets stored."
  },
  {
   "property": "C35",
   "status": "proved",
   "theorems": [
    "C35_positions",
    "C35_stops"
   ],
   "note": "Zip of a result sequence with an index set, for result sequences that fit the index width."
  },
  {
   "property": "C36",
   "status": "proved",
   "theorems": [
    "C36_delivery",
    "C36_every_packet_once",
    "C36_view_grows",
    "C36_process_shows_all"
   ],
   "note": "Any interleaving of saves, lk_process, other watches and stops, also from callbacks, that leaves this watch alone. C36_delivery covers limits and breaks; C36_view_grows and C36_process_shows_all say which packets come into view. A packet with receive stamp 0 is excluded (the first log position asked for is 1)."
  },
  {
   "property": "C37",
   "status": "proved",
   "theorems": [
    "C37_history_then_new",
    "C37_hash_history",
    "C37_exactly_once",
    "C37_new_only"
   ],
   "note": "For callbacks that do not call lk_process during lk_watch: F56 shows the watch misses packets if they do. C37_history_then_new is relative to what the query returns (C30-C33); with a hash query both parts are exact."
  },
  {
   "property": "C38",
   "status": "partial",
   "theorems": [
    "C38_removed_only_when_done",
    "C38_registered_when_open",
    "C38_gc",
    "C38_masks_refuted"
   ],
   "note": "A watch is removed only when it is done, and lk_watch registers it exactly when it is not. A watch that stays has positions left for limits with interval operators (the last clause of watch_after); with mask operators it may stay for ever (refuted)."
  },
  {
   "property": "C39",
   "status": "proved",
   "theorems": [
    "C39_one_watch_per_id",
    "C39_stop_one",
    "C39_watch_replaces"
   ],
   "note": "In every reachable state; lk_stop and lk_watch outside of callbacks (inside they are queued until the packets are processed)."
  },
  {
   "property": "C40",
   "status": "partial",
   "theorems": [
    "C40_range_stop_partial",
    "C40_no_such_id_partial",
    "C40_range_stop_refuted"
   ],
   "note": "Only when a watch has exactly the prefix as its id; otherwise nothing is removed (refuted)."
  },
  {
   "property": "C41",
   "status": "proved",
   "theorems": [
    "C41_round_trip",
    "C41_escaped",
    "C41_parse_exact",
    "C41_total",
    "C41_injective"
   ],
   "note": "Round trip, printable form, exact grammar of accepted text, totality."
  },
  {
   "property": "C42",
   "status": "proved",
   "theorems": [
    "C42_parse_exact",
    "C42_print_parse",
    "C42_parse_print",
    "C42_lenient_agrees",
    "C42_total"
   ],
   "note": "Parsing characterised exactly by a grammar; printing any expression and parsing gives it with neighbouring byte strings joined. Bracket depth is unbounded here (i32 in the code)."
  },
  {
   "property": "C43",
   "status": "partial",
   "theorems": [
    "C43_encode_partial",
    "C43_lk_eval",
    "C43_numbers_exact",
    "C43_numbers_refuted",
    "C43_space_refuted",
    "C43_ab_str",
    "C43_b64_str",
    "C43_b64_abe",
    "C43_int_abe",
    "C43_ab_abe_refuted"
   ],
   "note": "Proved for every option text, every encoder of the core scopes and any further faithful scopes. Exact conditions: b2/b16 iff the bytes are the shortest form of a number below 2^128 (refuted otherwise), s fails on the empty space and above eight components, AB's expression form (not its text form) is wrong for bytes that need escaping. Stamp encoders are not in the core scope's encoders."
  },
  {
   "property": "C44",
   "status": "proved",
   "theorems": [
    "C44_fit",
    "C44_trim",
    "C44_trim_end",
    "C44_ab_parse_exact",
    "C44_ab_round_trip",
    "C44_ab_vec",
    "C44_b64_exact",
    "C44_b64_print",
    "C44_b64_parse_exact",
    "C44_b64_round_trip",
    "C44_b64_either",
    "C44_b64_standard",
    "C44_int_value",
    "C44_int_bytes",
    "C44_int_text",
    "C44_int_parse_exact",
    "C44_int_order",
    "C44_int_saturating",
    "C44_int_eval_bytes",
    "C44_int_bits"
   ],
   "note": "Print/parse round trips and exact grammars for AB, B64 (both alphabets) and all integer sizes of both endiannesses; padding, trimming, saturating arithmetic, order. Byte strings of unknown size parse back iff they have at most 65000 bytes. The expression forms are in C43."
  },
  {
   "property": "C45",
   "status": "partial",
   "theorems": [
    "C45_pad",
    "C45_pad_loose",
    "C45_fixed",
    "C45_cut",
    "C45_replace",
    "C45_slice",
    "C45_add",
    "C45_sub",
    "C45_total_partial",
    "C45_total_refuted",
    "C45_slice_refuted"
   ],
   "note": "Each function characterised exactly against a small specification; totality proved with exactly the three exceptions refuted: pad lengths of 2^63 and more, sums of two or more empty numbers, replacing the empty string. Slice indices of 2^63 and more and -0 are refuted."
  },
  {
   "property": "C46",
   "status": "partial",
   "theorems": [
    "C46_changes_partial",
    "C46_sets_partial",
    "C46_same_point",
    "C46_other_operators",
    "C46_other_fields",
    "C46_assignment_refuted"
   ],
   "note": "Exact result of every sequence of assignments; unassigned fields, the point and its hash stay the same; other operators and fields do nothing or are refused. 'Makes the field equal to the value' holds only if no other bit of it was set, and is refuted otherwise (F22)."
  },
  {
   "property": "C47",
   "status": "proved",
   "theorems": [
    "C47_symmetric",
    "C47_private_iff",
    "C47_partner"
   ],
   "note": "For all 32-byte keys. F78: the group does not determine the pair."
  },
  {
   "property": "C48",
   "status": "proved",
   "theorems": [
    "C48_phase0",
    "C48_phase1",
    "C48_phase2",
    "C48_phase3",
    "C48_serve_sound",
    "C48_connect_sound",
    "C48_honest",
    "C48_server_agreement",
    "C48_client_agreement"
   ],
   "note": "Each step is characterised exactly for all packets; whole runs for every byte stream and chunking; honest runs always succeed. Agreement assumes a hash without collisions and that the accepted signature was made by the holder of the key. F79: the party may have acted as a server rather than as the client."
  },
  {
   "property": "C49",
   "status": "proved",
   "theorems": [
    "C49_stamp_tag",
    "C49_lns_tag",
    "C49_claim_exact",
    "C49_claim_made",
    "C49_entry_links",
    "C49_saved_entries"
   ],
   "note": "Tags, claims and the links of lookup entries, for every claim, tag, list of links and clock. The packets that hold the entries and the database are modelled elsewhere."
  },
  {
   "property": "C50",
   "status": "partial",
   "theorems": [
    "C50_majority",
    "C50_best_partial",
    "C50_tie_partial",
    "C50_no_votes",
    "C50_tie_refuted",
    "C50_half_refuted",
    "C50_root"
   ],
   "note": "A majority always wins and no votes find nothing. The unique best claim wins and a tie of all claims is reported when no claim has exactly half of the votes (always so with an odd number of authorities, as the root has). Refuted otherwise: C50_half_refuted; and two best claims beside a worse one are not reported as a tie: C50_tie_refuted."
  },
  {
   "property": "C51",
   "status": "partial",
   "theorems": [
    "C51_name_exact",
    "C51_text_round_trip",
    "C51_claim_space",
    "C51_root_refuted"
   ],
   "note": "Holds for every name; the root name, which cannot be made from components, is refuted."
  },
  {
   "property": "C52",
   "status": "partial",
   "theorems": [
    "C52_monotone",
    "C52_emit",
    "C52_bounds",
    "C52_agree",
    "C52_registered",
    "C52_woken",
    "C52_check_then_wait_refuted",
    "C52_message",
    "C52_message_only",
    "C52_shared"
   ],
   "note": "All interleavings of the atomic steps, any number of processes; agreement needs that no datagram is lost (without that: C52_bounds). Registered waiters miss nothing; checking and then waiting does (C52_check_then_wait_refuted), which is what the runtime loop does (C72)."
  },
  {
   "property": "C53",
   "status": "partial",
   "theorems": [
    "C53_saturating",
    "C53_checked",
    "C53_functions",
    "C53_in_range",
    "C53_durationstr_refuted",
    "C53_durationstr_partial"
   ],
   "note": "Proved for the saturating and checked operations and the functions of expressions (every argument list of at most 15 steps without a calendar format; each duration at most the last stamp for the exact value, any duration for the range). Refuted for the stamp of the command line's durations, which wraps modulo 2^64; proved there for durations of at most the last stamp."
  },
  {
   "property": "C54",
   "status": "partial",
   "theorems": [
    "C54_answers",
    "C54_only_seen",
    "C54_last_seen",
    "C54_zero_hash_refuted"
   ],
   "note": "Exact characterisation of every answer; 'only if it was inserted' is refuted for the zero hash (C54_zero_hash_refuted) and holds for all others."
  },
  {
   "property": "C55",
   "status": "partial",
   "theorems": [
    "C55_page",
    "C55_nested",
    "C55_skeleton",
    "C55_faithful",
    "C55_escape",
    "C55_escape_injective",
    "C55_text_partial",
    "C55_text_refuted"
   ],
   "note": "Whole packets: the tokens a browser reads, their nesting, that the structure does not depend on contents, and that the page tells the packet. The escaped text shows as the text only when no special character is followed by a letter, digit or semicolon (C55_text_partial); otherwise refuted (C55_text_refuted), because the references lack their semicolon."
  },
  {
   "property": "C56",
   "status": "partial",
   "theorems": [
    "C56_depth_limit_refuted",
    "C56_depth_limit_partial"
   ],
   "note": "Depth limit holds for the builders and rooted spaces; refuted for push, push_front, prepend and from_slice."
  },
  {
   "property": "C57",
   "status": "partial",
   "theorems": [
    "C57_reroute_bytes",
    "C57_reroute_built_partial",
    "C57_reroute_keypoint_refuted"
   ],
   "note": "Holds for packets held as bytes and for built data, error and link points; refuted for freshly built keypoints, whose signature segment is dropped in release builds (debug builds assert)."
  },
  {
   "property": "C58",
   "status": "partial",
   "theorems": [
    "C58_unchecked_debug",
    "C58_unchecked_release",
    "C58_unchecked_skips_refuted"
   ],
   "note": "Only in debug builds; refuted in release builds, where lk_read_unchecked is lk_read."
  },
  {
   "property": "C59",
   "status": "partial",
   "theorems": [
    "C59_truncated_body_partial",
    "C59_truncated_header_refuted"
   ],
   "note": "Reported when the cut is at least 68 bytes into the packet; refuted for every cut inside the first 68 bytes, which ends the iteration silently."
  },
  {
   "property": "C60",
   "status": "partial",
   "theorems": [
    "C60_accepts_exactly",
    "C60_accepts_all",
    "C60_spacename_partial",
    "C60_order",
    "C60_refused_is_empty",
    "C60_total",
    "C60_limits",
    "C60_spacename_refuted",
    "C60_no_results_refused_partial"
   ],
   "note": "Exact for every packet when no spacename predicate is used, and for packets whose depth byte is right otherwise. Finding: an eight-component packet that declares depth k is accepted by spacename of its first k components (refuted theorem). Operands are the converted values, not the ABE text. Conversely limits that leave no result are refused when they use interval operators."
  },
  {
   "property": "C61",
   "status": "partial",
   "theorems": [
    "C61_get_all_partial",
    "C61_count_refuted",
    "C61_get_first",
    "C61_get_first_tree_partial"
   ],
   "note": "Without limits on the results; with them the skipped results are counted (refuted). The documentation of lk_get_all gives contradictory signs; the code returns a negative number after a break."
  },
  {
   "property": "C62",
   "status": "partial",
   "theorems": [
    "C62_accepts_exactly",
    "C62_positions",
    "C62_refused",
    "C62_total",
    "C62_text",
    "C62_texts",
    "C62_option",
    "C62_vacuous_refuted",
    "C62_operands_refuted"
   ],
   "note": "For every list of statements on the numeric fields, recv and the limits, with operands of the field's size: the query accepts exactly the packets and positions the operators describe, and the text form is the same query. Refuted without the side conditions: >= least / <= greatest add no predicate at all (packets without the field pass), short domains of 255, empty operands (panic), base64 operands (decremented as text), masks on recv (ignored)."
  },
  {
   "property": "C63",
   "status": "proved",
   "theorems": [
    "C63_announces_newest"
   ],
   "note": ""
  },
  {
   "property": "C64",
   "status": "partial",
   "theorems": [
    "C64_components_exact",
    "C64_total",
    "C64_lossless_refuted",
    "C64_lossless_partial"
   ],
   "note": "Components characterised exactly for duplicate-free exclusion lists. Losslessness is refuted for texts ending in a delimiter and proved for the others; F58: an exclusion given twice cancels."
  },
  {
   "property": "C65",
   "status": "partial",
   "theorems": [
    "C65_replaces",
    "C65_empty_pattern_refuted"
   ],
   "note": "Exact for every nonempty pattern; an empty pattern panics."
  },
  {
   "property": "C66",
   "status": "partial",
   "theorems": [
    "C66_space_text",
    "C66_space_abe_refuted"
   ],
   "note": "Text form exact: reads back iff at most eight components. The expression form is refuted for 16 byte components that need escaping. F37: si never gives a value."
  },
  {
   "property": "C67",
   "status": "partial",
   "theorems": [
    "C67_terminates_refuted",
    "C67_terminates_partial"
   ],
   "note": "Refuted: a text of 102 printable characters evaluates itself forever in every scope that extends the core one. Proved without the function eval: the result is independent of the fuel above the nesting depth, and without replace evaluation ends."
  },
  {
   "property": "C68",
   "status": "partial",
   "theorems": [
    "C68_parse_duration",
    "C68_print_duration_partial",
    "C68_print_duration_refuted",
    "C68_stamp_text",
    "C68_range_text",
    "C68_delta_partial"
   ],
   "note": "Parsing durations, stamp texts and range texts proved for every text. Printing and parsing a duration proved when the floating point quotients are exact; refuted in general: they round up for long durations."
  },
  {
   "property": "C69",
   "status": "partial",
   "theorems": [
    "C69_print_parse",
    "C69_hash_order_refuted",
    "C69_options_refuted",
    "C69_print_parse_expr",
    "C69_expressions_refuted"
   ],
   "note": "Print then parse gives the same packets and positions for every query without order predicates on the hash, printed without expressions in any scope, and printed with expressions in every scope with the core functions when domains need no escapes; the options come back reversed. Refuted: hash orders that leave one value, two options of one name, domains with special characters when printed as expressions."
  },
  {
   "property": "C70",
   "status": "proved",
   "theorems": [
    "C70_buffer"
   ],
   "note": ""
  },
  {
   "property": "C71",
   "status": "partial",
   "theorems": [
    "C71_stable",
    "C71_distinct",
    "C71_distinct_refuted"
   ],
   "note": "For all well-formed files; ports run out after 55034 buses (C71_distinct_refuted), F85: a torn file."
  },
  {
   "property": "C72",
   "status": "partial",
   "theorems": [
    "C72_refuses",
    "C72_result",
    "C72_waits",
    "C72_timeout",
    "C72_processes",
    "C72_matched",
    "C72_no_backlog_partial",
    "C72_lost_wakeup_refuted",
    "C72_own_save_refuted",
    "C72_dropped_refuted"
   ],
   "note": "Result, waiting and equivalence with lk_process for all runs. \"With every stored packet handled\" only if nothing is saved between the look at the log and the wait (C72_no_backlog_partial); otherwise refuted (C72_lost_wakeup_refuted, C72_own_save_refuted). A watch dropped by its receive bound does not end the loop (C72_dropped_refuted)."
  },
  {
   "property": "C73",
   "status": "proved",
   "theorems": [
    "C73_total",
    "C73_unambiguous"
   ],
   "note": "For all well-formed packets. The depth byte and the exact bytes of an unknown point type are not part of the text; the shown data are the lossy text of the first bytes."
  },
  {
   "property": "C74",
   "status": "proved",
   "theorems": [
    "C74_text",
    "C74_round_trip",
    "C74_shown_key",
    "C74_other_password",
    "C74_accepts",
    "C74_stored"
   ],
   "note": "argon2d and the key library are parameters of which only sizes, and that a key's bytes are read back, are assumed. That another password gives only the same key or an error assumes that public keys are distinct."
  },
  {
   "property": "C75",
   "status": "partial",
   "theorems": [
    "C75_found",
    "C75_linked",
    "C75_created",
    "C75_round_trip",
    "C75_read_only",
    "C75_no_overwrite",
    "C75_no_entry",
    "C75_overwrite_refuted"
   ],
   "note": "C75_overwrite_refuted: overwriting writes a claim with the same create stamp (zero) as the old one, so which of the two is found depends on their hashes. Creation is proved for a store without hash collisions, with nothing at the two spaces used, with clock readings from 2 up to 2^63, and a clock reading that is no stamp of the log (see C29). Public names are looked up by a parameter."
  },
  {
   "property": "C76",
   "status": "partial",
   "theorems": [
    "C76_request",
    "C76_place",
    "C76_apart",
    "C76_saved",
    "C76_refused",
    "C76_qid_refuted",
    "C76_domain_refuted"
   ],
   "note": "Proved for queries without order predicates on the hash and with domains that are written without escapes (as C69 with expressions). Refuted: an empty qid or one of more than 186 bytes panics; a domain with special characters is another domain in the text."
  },
  {
   "property": "C77",
   "status": "partial",
   "theorems": [
    "C77_space",
    "C77_space_injective",
    "C77_request",
    "C77_overwatch",
    "C77_watch_partial",
    "C77_set_accepts_partial",
    "C77_answers",
    "C77_only_replies",
    "C77_chain",
    "C77_set",
    "C77_set_watch",
    "C77_found_refuted",
    "C77_asks_refuted",
    "C77_break_refuted",
    "C77_set_local_refuted"
   ],
   "note": "Proved as stated except that the packets found in the store need not be all of them (C77_found_refuted, the tree search of C33), that a request for one instance keeps one for all instances from being made (C77_asks_refuted), that a callback which breaks on a packet of the store is called again with later ones (C77_break_refuted), and that the query of lk_status_set asks for no group or domain (C77_set_local_refuted). That the replies are saved is a command of the callback (ModelWatch); its failure is not seen by the callback in the model."
  },
  {
   "property": "C78",
   "status": "partial",
   "theorems": [
    "C78_follow",
    "C78_plain",
    "C78_notify",
    "C78_no_notify",
    "C78_stopped_refuted",
    "C78_notify_refuted",
    "C78_bare_refuted"
   ],
   "note": "Refuted by the code: the handler of follow does not pass on that the watch ended (C78_stopped_refuted), so notify-close never notifies together with it (C78_notify_refuted); both are only seen when written with a value (C78_bare_refuted). The handler is modelled over the transaction it reads from; which packets a watch matches is C36."
  },
  {
   "property": "C79",
   "status": "partial",
   "theorems": [
    "C79_components",
    "C79_field",
    "C79_text",
    "C79_expression",
    "C79_refused",
    "C79_core",
    "C79_user",
    "C79_recv",
    "C79_links",
    "C79_link",
    "C79_each",
    "C79_env",
    "C79_args",
    "C79_space_refuted"
   ],
   "note": "Proved for all fields but the two spaces: their :abe form is a list of components, from which a space can be read but not the bytes, and the one of rspacename is that of the plain space (C79_space_refuted). The text of flags is the Debug form of a library and is any function here. [netpkt], [html-quick] and [pkt-quick] are in the model; the latter two are C55 and C73."
  },
  {
   "property": "C80",
   "status": "proved",
   "theorems": [
    "C80_text",
    "C80_netbytes",
    "C80_quick",
    "C80_unambiguous"
   ],
   "note": "The scopes are those of lk_eval with a packet, without a runtime. The evaluation of the format is done in the scope of the caller, which already begins with the packet."
  },
  {
   "property": "C81",
   "status": "partial",
   "theorems": [
    "C81_argument",
    "C81_query",
    "C81_mode",
    "C81_qid_refuted",
    "C81_follow_refuted",
    "C81_default_domain_refuted"
   ],
   "note": "Refuted parts: --follow does not set the option, watch replaces the name given by --qid, and a default domain with special characters is escaped but never read back. The argument parser (clap) is not modelled; a space given as a single expression without a slash is not covered; further expressions are those that evaluate to numeric statements."
  },
  {
   "property": "C82",
   "status": "partial",
   "theorems": [
    "C82_readhash",
    "C82_field",
    "C82_missing",
    "C82_read_partial",
    "C82_private",
    "C82_macro",
    "C82_alternative_refuted",
    "C82_alternative",
    "C82_read_refuted",
    "C82_place_refuted"
   ],
   "note": "readhash is proved for every valid store. read is proved to give the latest packet of a place that begins with the space asked for, and to be complete when the space is empty (then a shallowest place is taken); refuted in general: a packet at exactly the space may be missed (C82_read_refuted) and one below it may be given instead (C82_place_refuted). The alternative of the macro is an error unless another argument follows (C82_alternative_refuted). The formats pkt, netpkt and point of a packet read are not covered; the scope in which the macro evaluates its expression is a parameter."
  },
  {
   "property": "C83",
   "status": "partial",
   "theorems": [
    "C83_encode",
    "C83_strip",
    "C83_args",
    "C83_eval",
    "C83_round_trip_partial",
    "C83_macro",
    "C83_inner",
    "C83_args_refuted"
   ],
   "note": "Proved exactly, except that the text left by ??? need not tell the value: nothing is left of the text of a space (C83_args_refuted). The round trip has the conditions of C43."
  },
  {
   "property": "C84",
   "status": "proved",
   "theorems": [
    "C84_size",
    "C84_val",
    "C84_comment",
    "C84_or",
    "C84_space",
    "C84_forgiving"
   ],
   "note": "Proved exactly. Alternatives are assumed to have a value or an error, that is not to panic or run forever."
  },
  {
   "property": "C85",
   "status": "proved",
   "theorems": [
    "C85_refused",
    "C85_read",
    "C85_expression",
    "C85_write",
    "C85_round_trip"
   ],
   "note": "Proved exactly, for file systems without symbolic links, permissions and other processes (stated in ModelFile.v)."
  },
  {
   "property": "C86",
   "status": "partial",
   "theorems": [
    "C86_data",
    "C86_lines",
    "C86_trim",
    "C86_split",
    "C86_error",
    "C86_repeat",
    "C86_carry_refuted",
    "C86_datapoints",
    "C86_points_partial",
    "C86_one",
    "C86_sign_refuted"
   ],
   "note": "Refuted by the code for the overflow mode carry (C86_carry_refuted: bytes come out in another order) and for signed points (C86_sign_refuted: a panic, from the free space of C07). Proved for all other modes; C86_points_partial asks signed points for a buffer size with 60 bytes to spare. Input errors and files changed while read are not modelled."
  },
  {
   "property": "C87",
   "status": "partial",
   "theorems": [
    "C87_links_partial",
    "C87_private",
    "C87_private_fails",
    "C87_runs",
    "C87_data_refuted",
    "C87_empty_refuted"
   ],
   "note": "Refuted by the code when the data of the points ends before the packets do (C87_data_refuted: the command succeeds, the packets since the last result are lost) and for chained results (C87_empty_refuted: results without packets although empty ones are not allowed). C87_links_partial covers every run that ends with its input. Expressions are functions of the packet; failing writes are not modelled."
  },
  {
   "property": "C88",
   "status": "partial",
   "theorems": [
    "C88_points",
    "C88_same",
    "C88_runs",
    "C88_error_refuted"
   ],
   "note": "Refuted by the code for error points (C88_error_refuted: a panic); all other claims are proved in full. Expressions are functions of the packet in scope; failing writes are not modelled."
  },
  {
   "property": "C89",
   "status": "partial",
   "theorems": [
    "C89_selected",
    "C89_every_packet",
    "C89_recv",
    "C89_runs",
    "C89_rest_refuted"
   ],
   "note": "Refuted by the code with limits (C89_rest_refuted: packets after the last one taken are in neither output). C89_every_packet is the claim without limits; C89_selected says for every run which packets are read. Predicates on spaces need packets with a right depth byte, as in C60. At most 2^32-1 packets."
  },
  {
   "property": "C90",
   "status": "partial",
   "theorems": [
    "C90_skip",
    "C90_bad_input",
    "C90_reach",
    "C90_error_partial",
    "C90_error_refuted",
    "C90_private_refuted"
   ],
   "note": "Refuted by the code for errors below the first level: they are logged and dropped (C90_error_refuted, C90_private_refuted). C90_error_partial is the claim for `error` without recursion. The modes pause and watch are not modelled. The hash query of each link is taken to find the packet of the snapshot with that hash (see C30)."
  },
  {
   "property": "C91",
   "status": "partial",
   "theorems": [
    "C91_saved",
    "C91_stopped",
    "C91_no_db",
    "C91_succeeds_partial",
    "C91_same_time_refuted"
   ],
   "note": "Refuted by the code for two packets saved at the same reading of the clock (C91_same_time_refuted, see C29); C91_succeeds_partial has the clock go on between packets. A failing write is taken to have written nothing."
  },
  {
   "property": "C92",
   "status": "partial",
   "theorems": [
    "C92_none",
    "C92_first_partial",
    "C92_enforced",
    "C92_unfit_refuted",
    "C92_query_refuted"
   ],
   "note": "Proved without alternatives (C92_none), when the first alternative can be added (C92_first_partial), and, whatever failed before, that only packets satisfying some alternative are watched (C92_enforced). Refuted by the code after an alternative that fails: C92_unfit_refuted, C92_query_refuted."
  },
  {
   "property": "C93",
   "status": "partial",
   "theorems": [
    "C93_header",
    "C93_flags_refuted",
    "C93_compare",
    "C93_transitive",
    "C93_tree_order",
    "C93_outside_after",
    "C93_hash_refuted",
    "C93_item_partial",
    "C93_item_unknown",
    "C93_item_refuted",
    "C93_save_refuted",
    "C93_links",
    "C93_comps_partial",
    "C93_comps_refuted"
   ],
   "note": "Proved: the header attributes and lk_write (C93_header), the order (C93_compare, C93_transitive, C93_tree_order, C93_outside_after), the links (C93_links). Refuted by the code: hash() fails for every packet (C93_hash_refuted), items and lk_save ignore assigned headers (C93_item_refuted, C93_save_refuted), flags without a name cannot be assigned (C93_flags_refuted), comp_list trusts the depth byte (C93_comps_refuted); C93_item_partial and C93_comps_partial are what holds."
  },
  {
   "property": "C94",
   "status": "partial",
   "theorems": [
    "C94_printed",
    "C94_succeeds",
    "C94_error_point_refuted",
    "C94_inspect_refuted"
   ],
   "note": "Proved for every run that succeeds (C94_printed), and that it succeeds when each packet has a text (C94_succeeds). Refuted by the code for error points (C94_error_point_refuted) and for forwarding packets of the private group (C94_inspect_refuted). Templates are any functions of the packet; how an expression is evaluated is in C67, C79 and others."
  },
  {
   "property": "C95",
   "status": "partial",
   "theorems": [
    "C95_names",
    "C95_name_alone",
    "C95_expr",
    "C95_tail_refuted",
    "C95_file",
    "C95_file_expr",
    "C95_any_file",
    "C95_plain_file",
    "C95_zero_refuted",
    "C95_accepted",
    "C95_written",
    "C95_private",
    "C95_private_refused",
    "C95_buffer",
    "C95_db_expr_refuted"
   ],
   "note": "Proved: names, paths, expressions and what is written. Refuted by the code: a part after a second colon of an -expr text is dropped without notice (C95_tail_refuted), db-expr ignores its expression (C95_db_expr_refuted), and a file name that starts with a zero byte selects another destination (C95_zero_refuted). Opening the file itself and errors of streams are not modelled."
  },
  {
   "property": "C96",
   "status": "partial",
   "theorems": [
    "C96_get_hashes",
    "C96_hash_query",
    "C96_py_partial",
    "C96_py_all_partial",
    "C96_exception_refuted",
    "C96_on_close_refuted",
    "C96_py_watch"
   ],
   "note": "Proved: lk_get_hashes and hash queries in Rust, and which packets the functions of Python see. Refuted by the code: an exception does not end the enumeration and is lost unless the last call raised it (C96_exception_refuted), and a watch with on_close panics when it ends (C96_on_close_refuted). What is raised is characterised in C96_py_partial and C96_py_all_partial."
  },
  {
   "property": "C97",
   "status": "proved",
   "theorems": [
    "C97_value",
    "C97_range",
    "C97_uniform",
    "C97_order",
    "C97_short"
   ],
   "note": "Proved for every byte string, over the IEEE 754 specification of the standard library (Floats.SpecFloat), which is executable and uses no axiom."
  },
  {
   "property": "C98",
   "status": "partial",
   "theorems": [
    "C98_made_partial",
    "C98_only_partial",
    "C98_text_domain_refuted",
    "C98_text_space_refuted",
    "C98_deep_refuted",
    "C98_link"
   ],
   "note": "Proved in both directions for arguments other than these three, where the code does not do what the interface says: a text as domain is refused (C98_text_domain_refuted), a text as space has its characters as components (C98_text_space_refuted), and of the bytes of a space deeper than eight the rest is dropped (C98_deep_refuted)."
  },
  {
   "property": "C99",
   "status": "partial",
   "theorems": [
    "C99_push_parse",
    "C99_option",
    "C99_many",
    "C99_untestable_refuted"
   ],
   "note": "Proved for every field but eleven: signature, rspacename, comp0 to comp7 and data are an error in a text but pushing them panics (C99_untestable_refuted, finding F71)."
  },
  {
   "property": "C100",
   "status": "partial",
   "theorems": [
    "C100_read",
    "C100_unchecked",
    "C100_need",
    "C100_need_only",
    "C100_write",
    "C100_panics_refuted",
    "C100_validate_refuted"
   ],
   "note": "Everything but the absence of panics is proved: reading panics exactly on the headers that make the library panic (C100_panics_refuted; the finding of C05). The documentation calls the second argument validate, which it is not (C100_validate_refuted, finding F144)."
  },
  {
   "property": "C101",
   "status": "partial",
   "theorems": [
    "C101_made_partial",
    "C101_only_partial",
    "C101_link_bytes_refuted",
    "C101_deep_refuted"
   ],
   "note": "Proved but for two cases the code gets wrong: the 48 bytes of a link in a list of links are refused (C101_link_bytes_refuted, finding F145), and of the bytes of a space the components after the eighth are dropped (C101_deep_refuted, finding F146)."
  },
  {
   "property": "C102",
   "status": "partial",
   "theorems": [
    "C102_fields",
    "C102_links",
    "C102_comps_partial",
    "C102_comps_refuted",
    "C102_again",
    "C102_array_refuted"
   ],
   "note": "Proved but for the list of components of a packet whose depth byte is wrong (C102_comps_refuted, as C93) and for links_array, whose items are refused as links (C102_array_refuted, finding F147). Making again is proved for link points; a key point needs the key."
  },
  {
   "property": "C103",
   "status": "partial",
   "theorems": [
    "C103_dir",
    "C103_default",
    "C103_get",
    "C103_new",
    "C103_once_partial",
    "C103_once_refuted",
    "C103_made",
    "C103_runs",
    "C103_fails",
    "C103_clone_refuted",
    "C103_get_refuted"
   ],
   "note": "Proved for every interleaving but for the one session: that holds when no two threads are within a call at once (C103_once_partial) and is false otherwise (C103_once_refuted, finding F148). The file system is any function from the directories made so far; directories are not moved or removed meanwhile."
  },
  {
   "property": "C104",
   "status": "proved",
   "theorems": [
    "C104_settled",
    "C104_unsettled",
    "C104_either",
    "C104_read_settles"
   ],
   "note": "Proved for every history. What the expression in a variable evaluates to is a parameter of each read. A default that was only read can no longer be set (C104_read_settles, finding F150)."
  },
  {
   "property": "C105",
   "status": "partial",
   "theorems": [
    "C105_show",
    "C105_generate",
    "C105_overwrite",
    "C105_new_pass_partial",
    "C105_new_pass_refuted",
    "C105_errors",
    "C105_runs"
   ],
   "note": "Proved but for a new password for the key of the name with --overwrite, which replaces the key by a new one (C105_new_pass_refuted, finding F151). Encryption, the lookup and saving are parameters here; they are modelled for C74 and in ModelLkKey.v."
  },
  {
   "property": "C106",
   "status": "partial",
   "theorems": [
    "C106_parse",
    "C106_matches",
    "C106_first",
    "C106_between",
    "C106_complete",
    "C106_panics_refuted",
    "C106_order_refuted"
   ],
   "note": "Proved but for the characters after the last whole group of four, which are not checked and on which the index panics (C106_panics_refuted, finding F152), and for str_greater_then, which does not follow the order of hashes (C106_order_refuted, finding F153). For the same reason C106_parse asks for base64 characters in the whole groups only."
  },
  {
   "property": "C107",
   "status": "partial",
   "theorems": [
    "C107_sound",
    "C107_written",
    "C107_round_trip",
    "C107_trailing_refuted",
    "C107_owned_refuted"
   ],
   "note": "Proved for formats that can lend bytes. The format is a record of two functions, with what is asked of it as a hypothesis. Bytes behind a packet are dropped without an error (C107_trailing_refuted, finding F154), and a format that cannot lend bytes writes packets it never reads (C107_owned_refuted, finding F155)."
  },
  {
   "property": "C108",
   "status": "proved",
   "theorems": [
    "C108_exact",
    "C108_total",
    "C108_literal",
    "C108_unchecked"
   ],
   "note": "Proved for every space; C108_unchecked adds what happens on byte strings that are not spaces."
  },
  {
   "property": "C109",
   "status": "partial",
   "theorems": [
    "C109_passes",
    "C109_history",
    "C109_hashes",
    "C109_tree_partial",
    "C109_tree_refuted",
    "C109_errors"
   ],
   "note": "Proved but for the tree, of which only the entries under the first key are checked (C109_tree_partial, C109_tree_refuted, finding F156). This rests on what LMDB documents and does for MDB_NEXT_DUP on a new cursor, which is part of the model and not checked here."
  }
 ]
}