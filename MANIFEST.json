{
 "claims": [
  {
   "property": "C01",
   "status": "partial",
   "theorems": [
    "C01_partial",
    "C01_deleted_key_returns_refuted",
    "C01_unchanged_value_refuted",
    "C01_last_bit_siblings_refuted"
   ],
   "note": "Proved for all histories whose batches change every key they name, do not delete the only key of a subtree between two other batch keys, and where no two keys differ in the last bit only. Each excluded case is false of the code (refuted theorems)."
  },
  {
   "property": "C02",
   "status": "partial",
   "theorems": [
    "C02_partial",
    "C02_root_depends_on_history_refuted"
   ],
   "note": "Same histories as C01; root equality is equivalent to content equality."
  },
  {
   "property": "C03",
   "status": "partial",
   "theorems": [
    "C03_get_partial",
    "C01_last_bit_siblings_refuted"
   ],
   "note": "For contents where no two keys differ in the last bit only; reads interleave with updates in C01_partial."
  },
  {
   "property": "C04",
   "status": "partial",
   "theorems": [
    "C04_partial",
    "C04_unchanged_value_refuted"
   ],
   "note": "For the histories of C01. Refuted for a batch that sets a key to the value it has: no proof for the key any more."
  },
  {
   "property": "C05",
   "status": "partial",
   "theorems": [
    "C05_partial",
    "C05_deleted_key_refuted"
   ],
   "note": "For the histories of C01. Refuted for other deletions: a deleted key is proved to be included."
  },
  {
   "property": "C06",
   "status": "partial",
   "theorems": [
    "C06_partial",
    "C06_long_path_element_refuted",
    "C06_short_value_refuted"
   ],
   "note": "Key and value of 32 bytes, path elements of legal length, collision-free strings; both length conditions are needed (refuted without)."
  },
  {
   "property": "C07",
   "status": "partial",
   "theorems": [
    "C07_partial",
    "C07_own_leaf_refuted",
    "C07_shifted_leaf_refuted",
    "C07_nil_root_refuted",
    "C07_zero_byte_refuted"
   ],
   "note": "False of the code as stated; true with the checks the verifier omits."
  },
  {
   "property": "C08",
   "status": "partial",
   "theorems": [
    "C08_verify_inclusion",
    "C08_verify_non_inclusion_partial",
    "C08_prover",
    "C08_empty_trie_refuted"
   ],
   "note": "Equivalent for every path and every non-nil root; on the empty trie the compressed verifier refuses the honest proof."
  },
  {
   "property": "C09",
   "status": "proved",
   "theorems": [
    "C09_batch_round_trip"
   ],
   "note": ""
  },
  {
   "property": "C10",
   "status": "partial",
   "theorems": [
    "C10_partial",
    "C10_unchanged_value_refuted",
    "C10_restored_value_refuted"
   ],
   "note": "Histories of C01 with at most one update between commits."
  },
  {
   "property": "C100",
   "status": "partial",
   "theorems": [
    "C100_end",
    "C100_moment",
    "C100_percent",
    "C100_unwritten",
    "C100_stages",
    "C100_written_refuted",
    "C100_expired_refuted",
    "C100_print_refuted"
   ],
   "note": "Proved: the counters of rows, of time stamps in the past, of certificates, bytes and uncached certificates, at the end for any dealing of the rows, and the two inequalities at every moment. Refuted: that the written certificates are counted (the sink that counts is dropped when the two pipelines are joined; the line always says 0), that rows left out because the certificate has expired are counted, and that the percentages are at most 100 (the counters are loaded one after the other)."
  },
  {
   "property": "C101",
   "status": "partial",
   "theorems": [
    "C101_pow",
    "C101_resize",
    "C101_channels",
    "C101_split",
    "C101_typed",
    "C101_load",
    "C101_load_back",
    "C101_alias_refuted",
    "C101_timestamp_refuted"
   ],
   "note": "All proved but two parts, which are refuted: growing a slice inside its array changes other slices of the array (exactly the elements between the old and the new length, C101_resize), and timestamps of logs and requests for revocations, which the comment of LoadPoliciesFromRaw names, are refused. Pow is modelled for integers, not for floats. C101_load_back has the conditions of C72 (strings in UTF-8, offsets of whole minutes)."
  },
  {
   "property": "C102",
   "status": "partial",
   "theorems": [
    "C102_read",
    "C102_lines_partial",
    "C102_short",
    "C102_panic_refuted",
    "C102_expired_refuted"
   ],
   "note": "Proved: which files are accepted and the result (C102_read), and agreement with the line by line reader for the files of C67_same_partial (carriage returns only single), where no panic occurs. Refuted: a record with fewer than five columns panics (C102_short: after any records that can be read), and expired certificates are loaded."
  },
  {
   "property": "C103",
   "status": "partial",
   "theorems": [
    "C103_back",
    "C103_different",
    "C103_accepts",
    "C103_bits",
    "C103_end",
    "C103_refused",
    "C103_authority",
    "C103_owner",
    "C103_one_text_refuted"
   ],
   "note": "All proved but the last part, which is refuted: bytes at the end of the sequences inside the text are ignored, so a key has many accepted texts (C103_accepts gives all of them). asn1 and x509 of certificate-transparency-go are modelled as far as they are used, from their documented behaviour; their source is not part of the repository."
  },
  {
   "property": "C11",
   "status": "partial",
   "theorems": [
    "C11_schedule_partial",
    "C11_history_partial",
    "C11_schedules_end"
   ],
   "note": "Interleavings of single accesses to the caches, the database and the shared batches, nested to any depth. Missing: batches that hit the defects excluded by the histories of C01."
  },
  {
   "property": "C12",
   "status": "partial",
   "theorems": [
    "C12_verify_total_partial",
    "C12_client_total_partial",
    "C12_long_path_panics_refuted",
    "C12_missing_entry_panics_refuted"
   ],
   "note": "Total on paths of at most 8 elements per key byte; longer paths and missing entries panic."
  },
  {
   "property": "C13",
   "status": "proved",
   "theorems": [
    "C13_split_keys",
    "C13_order"
   ],
   "note": ""
  },
  {
   "property": "C14",
   "status": "partial",
   "theorems": [
    "C14_presence_partial",
    "C14_absence_partial",
    "C14_honest_accepted",
    "C14_other_domain_refuted",
    "C14_present_domain_absent_refuted"
   ],
   "note": ""
  },
  {
   "property": "C15",
   "status": "partial",
   "theorems": [
    "C15_valid_names",
    "C15_parents_partial",
    "C15_names",
    "C15_rules",
    "C15_suffix",
    "C15_refused",
    "C15_responses",
    "C15_private_refuted",
    "C15_private_alone",
    "C15_unlisted_refuted",
    "C15_www_refuted"
   ],
   "note": "Which names are accepted; which names the answer is about, in order and without repetition, with an accepted proof for each: for names whose public suffix is in the ICANN section. Refuted: private suffixes (parents left out), unlisted top level names (not refused), a registered name www.<suffix> (refused). The public suffix list is any function, or any list of rules."
  },
  {
   "property": "C16",
   "status": "proved",
   "theorems": [
    "C16_bundles",
    "C16_calls"
   ],
   "note": ""
  },
  {
   "property": "C17",
   "status": "partial",
   "theorems": [
    "C17_exact_partial",
    "C17_sound",
    "C17_last_batch_refuted",
    "C17_refuted"
   ],
   "note": "Refuted: with a positive multiple of 1000 ids the last 1000 are reported missing. Exact for every other length; a positive answer is always right."
  },
  {
   "property": "C18",
   "status": "proved",
   "theorems": [
    "C18_coalesced",
    "C18_ends",
    "C18_resumes"
   ],
   "note": "For every interleaving of the partition workers and any restarts; termination under fairness assumes parent chains shorter than the recursion limit of the server."
  },
  {
   "property": "C19",
   "status": "proved",
   "theorems": [
    "C19_increasing",
    "C19_pairs",
    "C19_payload",
    "C19_no_payload"
   ],
   "note": ""
  },
  {
   "property": "C20",
   "status": "partial",
   "theorems": [
    "C20_partial",
    "C20_bundling_partial",
    "C20_unchanged_refuted",
    "C20_emptied_refuted",
    "C20_bundling_refuted"
   ],
   "note": "Proved when every dirty domain changes its value, no key is deleted between two other keys of the update below a prefix that becomes empty, and the tree does not become empty; refuted in each of these cases, including a root that depends on the bundle size."
  },
  {
   "property": "C21",
   "status": "partial",
   "theorems": [
    "C21_first_statement_partial",
    "C21_old_or_new_refuted",
    "C21_rerun_refuted"
   ],
   "note": "Proved up to the first statement of the run. Refuted after the first DeleteTreeNodes (neither old nor new tree readable, re-run fails) and after SaveRoot (re-run deletes the tree)."
  },
  {
   "property": "C22",
   "status": "partial",
   "theorems": [
    "C22_overwrite",
    "C22_keep_partial",
    "C22_keep_lost_refuted",
    "C22_refuted",
    "C22_policy_refuted"
   ],
   "note": "Proved for UpdateWithOverwrite. Refuted for UpdateWithKeepExisting: a crash after the first statement is never repaired. Partial: crashes outside the four certificate statements."
  },
  {
   "property": "C23",
   "status": "partial",
   "theorems": [
    "C23_stored",
    "C23_expiration_partial",
    "C23_returns",
    "C23_refuted"
   ],
   "note": "Refuted: expirations are not compacted together with the other slices. Everything else about the stored rows is proved; own expiration if everything before is new."
  },
  {
   "property": "C24",
   "status": "proved",
   "theorems": [
    "C24_keeps",
    "C24_calls",
    "C24_pairs"
   ],
   "note": ""
  },
  {
   "property": "C25",
   "status": "partial",
   "theorems": [
    "C25_exact",
    "C25_crash",
    "C25_returns",
    "C25_time_partial",
    "C25_zone_refuted",
    "C25_fraction_refuted"
   ],
   "note": "Exact relative to the cut passed to the database, also across a crash. Refuted for the time: local wall clock compared with UTC, and fraction of the second dropped. The associations are kept, not dropped."
  },
  {
   "property": "C26",
   "status": "partial",
   "theorems": [
    "C26_partial",
    "C26_refuted"
   ],
   "note": "For histories of opens, commits and failing writes with file ends below 2^64-1. Refuted at the largest index: canMerge wraps around and overlapping intervals stay apart."
  },
  {
   "property": "C27",
   "status": "partial",
   "theorems": [
    "C27_partial",
    "C27_refuted"
   ],
   "note": "Same bound; at the largest index a fully covered file is reported as pending."
  },
  {
   "property": "C28",
   "status": "proved",
   "theorems": [
    "C28_parse",
    "C28_interval_round_trip",
    "C28_indices_round_trip",
    "C28_job_round_trip",
    "C28_one_entry"
   ],
   "note": "Interval strings, encoded indices and normalisation; the JSON text around them is C93."
  },
  {
   "property": "C29",
   "status": "partial",
   "theorems": [
    "C29_partial",
    "C29_exact",
    "C29_refuted"
   ],
   "note": "Proved when index 0 is ingested; refuted when the first completed interval starts later: the code does not look at its start."
  },
  {
   "property": "C30",
   "status": "proved",
   "theorems": [
    "C30_process_death",
    "C30_machine_death_never_torn",
    "C30_machine_death_refuted"
   ],
   "note": "Process death: previous or new content for any earlier writes and any cut. Machine death: never torn; but the directory is not synced, so a successful write may be undone."
  },
  {
   "property": "C31",
   "status": "proved",
   "theorems": [
    "C31_batches_tile",
    "C31_run"
   ],
   "note": "The journal-coverage part of C31_run assumes file ends below 2^64-1 (see C26)."
  },
  {
   "property": "C32",
   "status": "partial",
   "theorems": [
    "C32_partial",
    "C32_sorted",
    "C32_refuted"
   ],
   "note": "Proved if no subdirectory sorts before a sibling \"bundled\"; refuted otherwise: the files gathered before are overwritten."
  },
  {
   "property": "C33",
   "status": "partial",
   "theorems": [
    "C33_fast_partial",
    "C33_line_partial",
    "C33_slow",
    "C33_trim",
    "C33_expiration",
    "C33_fallback_refuted",
    "C33_newline_refuted"
   ],
   "note": "Proved for all lines without an inner line break (the only ones the reader hands over). Refuted: a row with an empty certificate column is refused without a fall back; with an inner line break the two parsers differ."
  },
  {
   "property": "C34",
   "status": "partial",
   "theorems": [
    "C34_stream_errors_invisible",
    "C34_refuted",
    "C34_like_the_end"
   ],
   "note": "Refuted, for every pipeline: an error of a streaming function has the same effect as the end of the stream."
  },
  {
   "property": "C35",
   "status": "partial",
   "theorems": [
    "C35_chains_partial",
    "C35_order",
    "C35_target_partial",
    "C35_terminates_refuted"
   ],
   "note": "For all sets of files with start <= end, all iteration orders: ends; chains are the longest; the reported state is the end of the longest part within the ingestion limit and exactly its files are read. Refuted without start <= end: a file named 5-4.gz makes the recursion infinite."
  },
  {
   "property": "C36",
   "status": "partial",
   "theorems": [
    "C36_download",
    "C36_entries",
    "C36_no_error",
    "C36_empty_answers",
    "C36_delivery_partial",
    "C36_ends",
    "C36_delivery_refuted",
    "C36_panic_refuted"
   ],
   "note": "The download is proved for every range, batch size and split by the server. The delivery by the background goroutine to the updater is proved for every schedule in which no update starts while the goroutine of a failed one is still at work; refuted otherwise: wrong entries, or a panic."
  },
  {
   "property": "C37",
   "status": "proved",
   "theorems": [
    "C37_closed_once_after_all_senders",
    "C37_everybody_ends",
    "C37_one_receiver_each",
    "C37_everything_arrives",
    "C37_errors",
    "C37_second_error_refuted",
    "C37_blocked_for_ever"
   ],
   "note": "For every number of senders (at least one) and receivers, all items and errors, every schedule: the shared channel is closed at most once and then every sender is past closing, no send or close panics; every fair schedule ends with exactly one close, all senders done, every receiver having seen the end or failed itself; items are received exactly once. Beyond the property: of several receiver errors only one reaches the senders and the forwarding goroutine then stays blocked (C37_second_error_refuted, C37_blocked_for_ever)."
  },
  {
   "property": "C38",
   "status": "partial",
   "theorems": [
    "C38_chain_of_functions",
    "C38_chain_of_functions_any_schedule",
    "C38_delivers_partial",
    "C38_exactly_once",
    "C38_links",
    "C38_prefix",
    "C38_no_deadlock",
    "C38_no_infinite_run",
    "C38_terminates",
    "C38_order_refuted"
   ],
   "note": "Every number of stages and items, every schedule: termination, no deadlock, exactly once. In order for stages that send sequentially or have at most one output at a time; refuted for the default sending mode with several outputs of one call."
  },
  {
   "property": "C39",
   "status": "partial",
   "theorems": [
    "C39_errors_reach_wait_partial",
    "C39_nothing_invented",
    "C39_all_stop",
    "C39_refuted"
   ],
   "note": "Proved for stages with at most one output at a time or the cycles-allowed mode; refuted for the other modes with three outputs of one call: the error is overwritten by nil. That all stages stop is proved for all pipelines."
  },
  {
   "property": "C40",
   "status": "proved",
   "theorems": [
    "C40_everything",
    "C40_exactly_once",
    "C40_index_order_refuted"
   ],
   "note": "For every number of channels and any contents. The documentation also promises index order, which fails once a channel is closed (refuted)."
  },
  {
   "property": "C41",
   "status": "proved",
   "theorems": [
    "C41_alone",
    "C41_one_at_a_time",
    "C41_continues"
   ],
   "note": "Every schedule of any number of stages, evaluating and stalled ones, with the decisions to stall arbitrary. The function that runs while stalled is one step."
  },
  {
   "property": "C42",
   "status": "partial",
   "theorems": [
    "C42_one_round_partial",
    "C42_everybody_enters_partial",
    "C42_second_round_refuted"
   ],
   "note": "One use of the lock, any number of workers, every schedule. Refuted for a second use of the same lock: two workers inside, out of order (activeID and finishedID are not reset)."
  },
  {
   "property": "C43",
   "status": "proved",
   "theorems": [
    "C43_linearizable",
    "C43_never_forgets",
    "C43_never_invents",
    "C43_no_flicker",
    "C43_no_data_race",
    "C43_everything_returns"
   ],
   "note": "Every interleaving of the atomic accesses of any number of threads. Size() and the sharding by the first byte are not part of the concurrent model."
  },
  {
   "property": "C44",
   "status": "partial",
   "theorems": [
    "C44_characterised",
    "C44_in_range_partial",
    "C44_onto",
    "C44_too_many_workers",
    "C44_refuted"
   ],
   "note": "In range exactly for powers of two up to 256; refuted otherwise (3 workers: index out of range)."
  },
  {
   "property": "C45",
   "status": "proved",
   "theorems": [
    "C45_certs",
    "C45_domains",
    "C45_zero_size_refuted"
   ],
   "note": "For every positive batch size; with size 0 the domain batcher loses items (panics in Go)."
  },
  {
   "property": "C46",
   "status": "partial",
   "theorems": [
    "C46_domains_partial",
    "C46_one_certificate_partial",
    "C46_refuted",
    "C46_second_run_refuted"
   ],
   "note": "Refuted: the domain cache drops the pair of an already seen domain with a second certificate."
  },
  {
   "property": "C47",
   "status": "proved",
   "theorems": [
    "C47_rotations",
    "C47_in_flight",
    "C47_batches",
    "C47_filenames",
    "C47_three_needed"
   ],
   "note": ""
  },
  {
   "property": "C48",
   "status": "proved",
   "theorems": [
    "C48_not_applicable",
    "C48_decided",
    "C48_exact_entry_wins",
    "C48_one_list",
    "C48_default"
   ],
   "note": ""
  },
  {
   "property": "C49",
   "status": "proved",
   "theorems": [
    "C49_validate"
   ],
   "note": ""
  },
  {
   "property": "C50",
   "status": "partial",
   "theorems": [
    "C50_reflexive",
    "C50_symmetric",
    "C50_content_partial",
    "C50_transitive_partial",
    "C50_requests_partial",
    "C50_decoded_copy",
    "C50_transitive_refuted",
    "C50_revocation_refuted",
    "C50_revocation_partial"
   ],
   "note": "Refuted for times with monotonic readings (transitivity) and for revocations, which compare times with ==; proved otherwise, in particular for decoded copies of certificates and requests."
  },
  {
   "property": "C51",
   "status": "partial",
   "theorems": [
    "C51_owner_signature_stays",
    "C51_request_verifies",
    "C51_through_issuance",
    "C51_signing_changes_nothing_else",
    "C51_issuing_changes_nothing_else",
    "C51_verifying_changes_nothing_partial",
    "C51_verified_changes_nothing",
    "C51_signature_binds",
    "C51_failed_verification_refuted"
   ],
   "note": "RSA and SHA-256 are parameters, and the JSON text is one that C72 instantiates. A failed verification loses fields if the JSON encoding fails; everything else is proved. C72_signature_partial says what the signed text fixes."
  },
  {
   "property": "C52",
   "status": "partial",
   "theorems": [
    "C52_period_partial",
    "C52_what_is_accepted",
    "C52_accepts_refuted",
    "C52_refuses_refuted"
   ],
   "note": "The domain condition is inverted in the code: refuted in both directions; the validity period is enforced."
  },
  {
   "property": "C53",
   "status": "partial",
   "theorems": [
    "C53_skip_sound_partial",
    "C53_never_skips",
    "C53_stored_by_key",
    "C53_refuted"
   ],
   "note": "Only if holds; the other direction is false for every history because of the different keys for storing and looking up."
  },
  {
   "property": "C54",
   "status": "proved",
   "theorems": [
    "C54_glue_keeps_the_callers_arrays",
    "C54_glue_order_independent",
    "C54_hash_order_independent",
    "C54_split_gives_sorted_ids",
    "C54_split_then_glue",
    "C54_glue_then_split"
   ],
   "note": "Slices are modelled over a heap of arrays, so aliasing with the caller is covered."
  },
  {
   "property": "C55",
   "status": "partial",
   "theorems": [
    "C55_unfold_certs_partial",
    "C55_unfold_cert_partial",
    "C55_each_once_refuted",
    "C55_empty_chain_panics_refuted"
   ],
   "note": "All rows with the right parents are proved; \"each once\" is false for a parent shared by two chains, and UnfoldCert panics on an empty chain."
  },
  {
   "property": "C56",
   "status": "proved",
   "theorems": [
    "C56_remove_one",
    "C56_remove_many"
   ],
   "note": "Includes the sort of the indices with arbitrary random pivots."
  },
  {
   "property": "C57",
   "status": "partial",
   "theorems": [
    "C57_round_trip",
    "C57_units",
    "C57_malformed_partial",
    "C57_malformed_refuted"
   ],
   "note": "Round trip proved for every int64; refusal of malformed text is false (Atoi errors and overflow ignored)."
  },
  {
   "property": "C58",
   "status": "partial",
   "theorems": [
    "C58_partial",
    "C58_any_zone_partial",
    "C58_within_a_day_refuted",
    "C58_strictly_after_refuted",
    "C58_before_now_refuted"
   ],
   "note": "Holds in UTC up to equality with now; false in other zones."
  },
  {
   "property": "C59",
   "status": "partial",
   "theorems": [
    "C59_partial",
    "C59_wedged",
    "C59_refuted",
    "C59_cancelled_refuted"
   ],
   "note": "Holds when the reload gives no error and the context is not done; refuted otherwise: an error of the reload blocks the server for ever, and a call after cancellation panics."
  },
  {
   "property": "C60",
   "status": "proved",
   "theorems": [
    "C60_nil",
    "C60_each_once",
    "C60_order"
   ],
   "note": ""
  },
  {
   "property": "C61",
   "status": "proved",
   "theorems": [
    "C61_dedup"
   ],
   "note": ""
  },
  {
   "property": "C62",
   "status": "proved",
   "theorems": [
    "C62_qsort"
   ],
   "note": "For every stream of random pivots; strict total order assumed (no NaN)."
  },
  {
   "property": "C63",
   "status": "partial",
   "theorems": [
    "C63_completed",
    "C63_smt",
    "C63_coalesced_partial",
    "C63_coalesced_refuted"
   ],
   "note": "For every sequence of runs, failures and interruptions: completed means ingested, and updated means updated afterwards. Coalesced is truthful unless the strategy onlysmtupdate is used on a state that is not coalesced (refuted: the flag is then set without coalescing)."
  },
  {
   "property": "C64",
   "status": "partial",
   "theorems": [
    "C64_partial",
    "C64_synced",
    "C64_unchanged_refuted"
   ],
   "note": "Same conditions on the update as C20. Refuted for a dirty domain whose entry did not change: no response for it any more."
  },
  {
   "property": "C65",
   "status": "partial",
   "theorems": [
    "C65_found_partial",
    "C65_stored",
    "C65_wildcard_refuted",
    "C65_www_refuted",
    "C65_prefixed_never_found"
   ],
   "note": "Found for names without \"*.\" and \"www.\" in front. Refuted for all others: they are stored under the literal name but looked up without the prefix; wildcard names are in no answer at all."
  },
  {
   "property": "C66",
   "status": "partial",
   "theorems": [
    "C66_recorded_partial",
    "C66_retry_refuted"
   ],
   "note": "Every schedule, with failures and restarts, in which no update starts while the goroutine of a failed one is still at work. Refuted otherwise: the size is recorded with an entry missing."
  },
  {
   "property": "C67",
   "status": "partial",
   "theorems": [
    "C67_lines",
    "C67_written",
    "C67_same_partial",
    "C67_same_refuted",
    "C67_accepts_refuted"
   ],
   "note": "Proved for all files without two carriage returns in a row. Refuted: with two, the last column differs; empty lines and quoted line breaks end the reading although encoding/csv accepts them."
  },
  {
   "property": "C68",
   "status": "partial",
   "theorems": [
    "C68_all_partial",
    "C68_only",
    "C68_parent_refuted",
    "C68_leaf_refuted",
    "C68_empty_chain_refuted"
   ],
   "note": "All certificates are sent if chains agree on what follows a certificate, no leaf is in a chain, all rows are accepted and hashes do not collide. Nothing else is ever sent. Refuted otherwise: a parent dropped but cached, a leaf seen as a parent before, an empty chain column."
  },
  {
   "property": "C69",
   "status": "partial",
   "theorems": [
    "C69_partial",
    "C69_chains_partial",
    "C69_round_partial",
    "C69_leaf_after_chain_refuted",
    "C69_returning_refuted"
   ],
   "note": "Proved for every sequence of complete ingestions, prunings and coalescings (also interrupted ones) and tree updates that satisfy legal_update (see C20). For batches made of chains it is enough that hashes of certificates do not collide and no certificate is both a leaf and in a chain; without that it is refuted: a certificate seen first in a chain never appears under its own names, and a pruned certificate that comes back in a chain leaves the payload of its domain stale."
  },
  {
   "property": "C70",
   "status": "partial",
   "theorems": [
    "C70_agree",
    "C70_estimate",
    "C70_listed",
    "C70_total",
    "C70_run_partial",
    "C70_big_index_refuted"
   ],
   "note": "Proved while all pending indices are below 2^63. Refuted beyond: the estimate parses into signed integers, so one pending file with a larger index, which the journal accepts, ends every run before anything is ingested."
  },
  {
   "property": "C71",
   "status": "partial",
   "theorems": [
    "C71_base64",
    "C71_base64_text",
    "C71_date",
    "C71_certs",
    "C71_dirty",
    "C71_pairs",
    "C71_domains_partial",
    "C71_insert_partial",
    "C71_injection_refuted",
    "C71_comma_refuted",
    "C71_poisoned_refuted",
    "C71_csv_refuted"
   ],
   "note": "Proved for all certificates, dirty domains and associations, and for names without comma, line break, backslash or leading quote (raw writer) or without backslash (encoding/csv), other than NULL. Refuted otherwise: common names are not filtered, the raw writer does not quote, and a name with a line break adds a row for any other domain id, whose true name is then ignored."
  },
  {
   "property": "C72",
   "status": "partial",
   "theorems": [
    "C72_round_trip_partial",
    "C72_what_is_read",
    "C72_certificate_partial",
    "C72_every_text",
    "C72_grammar",
    "C72_only_json",
    "C72_writes_json",
    "C72_repeated_member",
    "C72_white_space",
    "C72_trim",
    "C72_utf8",
    "C72_utf8_unique",
    "C72_utf8_all",
    "C72_strings",
    "C72_strings_only",
    "C72_written_strings",
    "C72_written_bad",
    "C72_names",
    "C72_keeps_text",
    "C72_settles",
    "C72_one_text_one_object_partial",
    "C72_signature_partial",
    "C72_decoded_signatures_partial",
    "C72_not_utf8_refuted",
    "C72_not_utf8_signature_refuted",
    "C72_offset_refuted",
    "C72_pointers_refuted",
    "C72_nil_refuted",
    "C72_two_texts_refuted",
    "C72_file_needs_pointer"
   ],
   "note": "Proved for all objects whose strings are UTF-8 and whose times have offsets of whole minutes; what is read in the other cases is proved too. Refuted for them: two domains with one text and one signature, a signature that no longer verifies after reading, an instant moved by the seconds of the offset. Pointers to pointers are written but not read, nil pointers panic, and many texts give one object with different Raw."
  },
  {
   "property": "C73",
   "status": "partial",
   "theorems": [
    "C73_closed_once_after_all",
    "C73_received_is_sent",
    "C73_everybody_ends",
    "C73_everything_arrives",
    "C73_one_producer",
    "C73_jam",
    "C73_never_returns",
    "C73_error_hangs_ingestion_refuted",
    "C73_no_such_channel_refuted"
   ],
   "note": "Order and exactly-once delivery proved for every schedule; the end proved when stages of the database half fail only at the end of their input. Refuted otherwise: the goroutines in between do not listen for errors, so after an error of a batcher or extractor one that holds a further certificate for it blocks for ever, the channels are never closed and the ingestion never returns."
  },
  {
   "property": "C74",
   "status": "partial",
   "theorems": [
    "C74_no_panic",
    "C74_everybody_ends",
    "C74_one_result_each",
    "C74_add_leaves",
    "C74_fetch_inclusions",
    "C74_query",
    "C74_no_leaves_refuted",
    "C74_no_workers_refuted",
    "C74_failed_leaves_refuted",
    "C74_single_leaf_refuted"
   ],
   "note": "Proved for at least one leaf and one worker, when calls return. Refuted: no leaf panics, no worker hangs, the list of failed leaves always starts with an empty leaf, and a worker that gets an empty proof (a log with one leaf) asks for ever."
  },
  {
   "property": "C75",
   "status": "partial",
   "theorems": [
    "C75_partial",
    "C75_rpcs_lost_refuted",
    "C75_no_files_refuted",
    "C75_never_returns_refuted",
    "C75_add_errors_refuted"
   ],
   "note": "Proved when all files are readable, there is one, and the log comes to the expected size. Refuted otherwise: RPCs read before an unreadable file are removed and never added, an empty directory panics, leaves of others or an uncounted tree size make it wait for ever, and the errors of adding are not reported."
  },
  {
   "property": "C76",
   "status": "proved",
   "theorems": [
    "log_inclusion_accepted",
    "log_inclusion_sound",
    "log_inclusion_by_hash_sound"
   ],
   "note": "Against the top-down definitions of RFC 6962 (tree hash, PATH), for any hash function with 32 bytes (sha256_length: SHA-256 is one). Soundness gives the leaf, its index and the whole path, or an explicit collision among the strings hashed by the log and by the verifier. The library code is modelled from its published source."
  },
  {
   "property": "C77",
   "status": "partial",
   "theorems": [
    "log_consistency_accepted",
    "log_consistency_sound_partial",
    "log_consistency_of_logs",
    "log_consistency_sound_refuted"
   ],
   "note": "Accepts RFC 6962 PROOF(m, D[n]). Sound when every node has 32 bytes, or when both roots are roots of logs; refuted in general: the library does not check node sizes, a root of no log is accepted (with SHA-256 and no collision)."
  },
  {
   "property": "C78",
   "status": "partial",
   "theorems": [
    "log_prev_root_accepted",
    "log_prev_root_sound_partial",
    "log_prev_root_sound_refuted"
   ],
   "note": "Sound when the nodes of the consistency proof have 32 bytes; refuted: with nodes of 31 and 33 bytes a leaf hash is accepted that is the hash of no leaf of the log."
  },
  {
   "property": "C79",
   "status": "partial",
   "theorems": [
    "log_one_proof_enough_partial",
    "log_one_proof_enough_refuted"
   ],
   "note": "Holds when the proofs before the right one have an index in the tree and the right number of nodes; refuted: a proof with a wrong number of nodes or a negative index before it gives an error, a nil pointer a crash."
  },
  {
   "property": "C80",
   "status": "partial",
   "theorems": [
    "C80_payloads_partial",
    "C80_refused",
    "C80_spelling",
    "C80_encoded",
    "C80_broken_connection_refuted"
   ],
   "note": "Holds when the query is answered completely, for 1 up to the number of ids at which the SQL statement is too long (no id at all is refused, as a syntax error). Refuted when the connection breaks while rows are read: rows.Err is not asked, stored payloads are answered as null."
  },
  {
   "property": "C81",
   "status": "partial",
   "theorems": [
    "C81_served_partial",
    "C81_chains_partial",
    "C81_invalid",
    "C81_lists_partial",
    "C81_pruned_refuted",
    "C81_other_lists_refuted"
   ],
   "note": "For names not marked dirty, in every reachable state; batches carry the hashes of the certificates as ids (C81_chains_partial: batches made from chains do). Refuted while a pruned name is still dirty: an accepted answer lists an id whose payload is null. The client does not compare the lists with the verified value: an answer with other lists is accepted (C81_other_lists_refuted); with that comparison the lists together are bound to the tables (C81_lists_partial). Tree-level conditions as in C14 and C69."
  },
  {
   "property": "C82",
   "status": "proved",
   "theorems": [
    "C82_proof_text",
    "C82_verified"
   ],
   "note": "32-byte arrays (as typed in Go), int64 proof type, UTF-8 names (those the server answers with are ASCII)."
  },
  {
   "property": "C83",
   "status": "partial",
   "theorems": [
    "C83_read_partial",
    "C83_unparsable_partial",
    "C83_read_all_partial",
    "C83_round_trip",
    "C83_key_round_trip",
    "C83_key_type",
    "C83_one",
    "C83_truncated_refuted",
    "C83_malformed_refuted",
    "C83_pieces_refuted",
    "C83_none_refuted",
    "C83_key_panic_refuted",
    "C83_failure_refuted"
   ],
   "note": "For texts of blocks as pem.Encode writes them (types without dash, colon and line break, no headers) with lines without dashes around them, and readers that do not fail. Refuted otherwise: cut and malformed blocks are left out without an error, text behind an END line makes the result depend on the pieces, a text without certificates gives an empty certificate instead of nil, a text without PEM makes RSAKeyFromPEM panic, a failed read loses what was buffered."
  },
  {
   "property": "C84",
   "status": "partial",
   "theorems": [
    "C84_delivered",
    "C84_ends",
    "C84_recorded",
    "C84_update",
    "C84_row",
    "C84_file",
    "C84_folder",
    "C84_bad_row_refuted",
    "C84_empty_chain_refuted",
    "C84_short_refuted",
    "C84_lost_refuted",
    "C84_broken_file_refuted",
    "C84_folder_refuted"
   ],
   "note": "For all schedules of one update, all numbers of goroutines and batch sizes, all files whose rows can be parsed: every certificate is delivered once, expired rows are counted, batches are full but the last, it ends without a panic; with the folder model of C35, the target is recorded if the files have as many rows as their names say. Refuted otherwise: one malformed row, or a certificate without chain, makes the process panic; a file with fewer rows is never recorded; rows of an unreadable file can be lost although the size is recorded; a missing folder panics and a foreign file name stops the update. Not modelled: a new update while goroutines of an old one are alive, cancelled contexts."
  },
  {
   "property": "C85",
   "status": "partial",
   "theorems": [
    "C85_calls",
    "C85_on_time",
    "C85_grid",
    "C85_daily",
    "C85_again",
    "C85_cancel",
    "C85_first_call_refuted",
    "C85_calls_after_cancel_refuted",
    "C85_independent_refuted",
    "C85_interval_refuted"
   ],
   "note": "For all schedules: no call before the time, no overlap, the k-th call at least k intervals after the first, no bursts, no end without a cancellation. For schedules without delays of the runtime: the exact beginning of each call; on the grid without gaps if all calls are shorter than the interval, so once a day at the configured time in UTC. A cancellation while waiting for a tick stops it; during a call, unless that call passes a point of the grid. Refuted: the first call takes place even if the context was cancelled before; any number of calls can follow a cancellation if they are long; after a long call the next begins off the grid; an interval of 0 (UpdateTimer missing) panics at the first tick. Not modelled: jumps of the wall clock."
  },
  {
   "property": "C86",
   "status": "partial",
   "theorems": [
    "C86_read",
    "C86_write",
    "C86_new",
    "C86_exact_refuted"
   ],
   "note": "The accepted texts are characterised by a grammar (iff). Written with 0, 3, 6 or 9 decimals, the shortest of these layouts that reads back as the same time. Refuted for whole time.Time values: the year is not written, so an unset UpdateAt (year 1) comes back as year 0; decimals after the ninth are dropped silently. Modelled: time.Parse and Format for these layouts in UTC."
  },
  {
   "property": "C87",
   "status": "partial",
   "theorems": [
    "C87_round_trip",
    "C87_readable",
    "C87_nil",
    "C87_missing",
    "C87_unknown",
    "C87_null",
    "C87_pca_round_trip",
    "C87_utf8_refuted",
    "C87_stale_refuted",
    "C87_null_refuted"
   ],
   "note": "Round trips on the exact text (escapes, indentation, sorted keys, case-insensitive names), maps up to the order of their entries. Refuted: folders whose path is not UTF-8 change and can become one entry; reading a PCA configuration into one in use keeps its old key; null is an error for UpdateAt. The file system is not modelled: a file holds what was written."
  },
  {
   "property": "C88",
   "status": "partial",
   "theorems": [
    "C88_password_partial",
    "C88_no_password_partial",
    "C88_socket_partial",
    "C88_ingest",
    "C88_again",
    "C88_order",
    "C88_port_refused",
    "C88_user_refused",
    "C88_opens_refuted",
    "C88_target_refuted"
   ],
   "note": "Proved under conditions on the characters for the three forms (password, no password and no port, socket), and for the ingest command in any environment. Refuted: a port without a password is always refused, so is a password for a user with an underscore; upper case users become lower case; a # in a password puts the parameters into the password; a socket ignores the password. url.Parse is modelled but for texts with an authority (two slashes at the begin); ParseDSN of the driver before its defaults."
  },
  {
   "property": "C89",
   "status": "partial",
   "theorems": [
    "C89_issued_partial",
    "C89_owner_signature",
    "C89_all_logs_partial",
    "C89_no_certificate",
    "C89_calls",
    "C89_database",
    "C89_loaded",
    "C89_foreign_key",
    "C89_not_ready",
    "C89_request",
    "C89_request_refused",
    "C89_serial_numbers",
    "C89_owner_request",
    "C89_never_renews",
    "C89_timestamp_partial",
    "C89_timestamp_verifies",
    "C89_timestamps_lost",
    "C89_serial_refuted",
    "C89_constraints_refuted",
    "C89_registered_refuted",
    "C89_servers_refuted",
    "C89_renewal_refuted"
   ],
   "note": "Proved: the values, the PCA's signature and the owner's, one answer of each log with its own key about a certificate with the same values, the order of the calls, nothing stored on errors, loading, numbers of the PCA's own requests. Refuted: serial numbers of the owners' requests, constraints, registered only if returned, logs with one key, renewal. The timestamps are about a signature that is replaced and verify with nothing that is in the certificate (C89_timestamps_lost)."
  },
  {
   "property": "C90",
   "status": "partial",
   "theorems": [
    "C90_inserted_partial",
    "C90_again",
    "C90_refused",
    "C90_one_text",
    "C90_settled",
    "C90_killed",
    "C90_killed_refuted",
    "C90_no_domain_refuted",
    "C90_two_ids_refuted"
   ],
   "note": "Proved for every file and every state that rounds and insertions reach (conditions of C69: legal_update, no collision of policies). Refuted: a process that dies after the third of four statements leaves the policy stored and not associated, and no later run repairs it; a policy certificate without domain cannot be asked for; the id is not that of the file as the other reader gives it."
  },
  {
   "property": "C91",
   "status": "partial",
   "theorems": [
    "C91_no_panic",
    "C91_stages",
    "C91_data",
    "C91_errors",
    "C91_no_nil",
    "C91_everything_ends",
    "C91_nothing_ends_early",
    "C91_closed_once",
    "C91_lists_without_repetition",
    "C91_goroutines",
    "C91_goroutines_refuted",
    "C91_no_workers_refuted",
    "C91_no_receivers_refuted"
   ],
   "note": "Proved for all positive numbers of workers. Refuted: three goroutines of the skipped sink never end, for all numbers; with no file readers, parsers or dechainers Wait returns nil before anything is read. C91_everything_ends and C91_nothing_ends_early are about which ends enable which (no stage fails); the schedules of one criss-cross, stage and join are C37, C15 and C73."
  },
  {
   "property": "C92",
   "status": "partial",
   "theorems": [
    "C92_never_wrong",
    "C92_no_invented_error",
    "C92_no_livelock",
    "C92_ends",
    "C92_stops",
    "C92_all_arrived",
    "C92_late_errors",
    "C92_jam",
    "C92_ends_refuted"
   ],
   "note": "Delivery and errors are proved for all runs. Ending is proved when batchers fail, if at all, only on their last batch. Refuted otherwise (C92_ends_refuted; C92_jam for all sizes): the error of a batcher is read by one extractor only, and another one with two more domains for it waits for ever, and so does the first."
  },
  {
   "property": "C93",
   "status": "partial",
   "theorems": [
    "C93_json",
    "C93_round_trip",
    "C93_deterministic",
    "C93_truncated",
    "C93_accepted",
    "C93_stable",
    "C93_round_trip_refuted",
    "C93_distinct_refuted"
   ],
   "note": "The round trip is proved for all journals whose directory names are UTF-8; strings that only inform are repaired. Refuted for the others: the completed indices of such a directory are read under another name, and those of two such directories become one."
  },
  {
   "property": "C94",
   "status": "partial",
   "theorems": [
    "C94_disk",
    "C94_stays",
    "C94_closed",
    "C94_exit_zero",
    "C94_exit_code",
    "C94_no_new_batch",
    "C94_says",
    "C94_first",
    "C94_second",
    "C94_flushed",
    "C94_first_refuted",
    "C94_second_refuted"
   ],
   "note": "Proved for all interleavings, for files whose last index is below 2^64-1 (C26). The statement about signals is refuted when it is read for signals sent: a SIGINT is dropped while a SIGUSR1 is handled and another one waits in the channel, and all batches run; and of two SIGINT the second is dropped if it comes before the handler took the first. Proved: the first is never lost when only termination signals are sent, and two received ones end the process."
  },
  {
   "property": "C95",
   "status": "partial",
   "theorems": [
    "C95_name",
    "C95_names_differ",
    "C95_no_panic",
    "C95_loaded",
    "C95_all_loaded",
    "C95_foreign",
    "C95_clean",
    "C95_causes",
    "C95_bound",
    "C95_ends",
    "C95_storage_refuted",
    "C95_cleanup_refuted",
    "C95_two_buffers_refuted"
   ],
   "note": "All is proved except the last sentence, which is refuted: after a failed write the file and the descriptor stay for the rest of the process. The size of the storage that the comment of CreateTempFile asks for is refuted too, and that two buffers would be enough (the code has eight; three are proved to be enough)."
  },
  {
   "property": "C96",
   "status": "partial",
   "theorems": [
    "C96_causes",
    "C96_never_zero",
    "C96_runs",
    "C96_ready",
    "C96_ends",
    "C96_not_before",
    "C96_second",
    "C96_taken",
    "C96_clean_refuted",
    "C96_early_refuted",
    "C96_cut_refuted",
    "C96_stale_refuted"
   ],
   "note": "All sentences but the last are proved. The last one is refuted: nobody tells the HTTP server to stop, it answers until the watchdog panics, the code 0 is never reached (C96_never_zero), an update is cut, and the goroutine of the scheduled updates may panic before the waiting time has passed, on the closed channel."
  },
  {
   "property": "C97",
   "status": "partial",
   "theorems": [
    "C97_name",
    "C97_plain",
    "C97_written",
    "C97_shape",
    "C97_handover",
    "C97_own",
    "C97_fresh",
    "C97_underscore_refuted",
    "C97_shared_refuted",
    "C97_lower_refuted",
    "C97_slash_refuted"
   ],
   "note": "Proved for URLs without underscores: the directory gives the text that url.Parse and String make of the URL, which is the URL itself if its scheme is in small letters, its host is a plain name with or without a port, and its path has no escapes; user information and addresses in brackets are not modelled. Refuted: for URLs with underscores, that directories with different names record for different URLs, that a record never lowers the size, and that a slash at the end of the URL makes no difference."
  },
  {
   "property": "C98",
   "status": "partial",
   "theorems": [
    "C98_ingest",
    "C98_refused",
    "C98_numbers",
    "C98_marked",
    "C98_every",
    "C98_server",
    "C98_server_refused",
    "C98_server_one",
    "C98_ignored_refuted",
    "C98_after_refuted",
    "C98_negative_refuted",
    "C98_nothing_refuted",
    "C98_octal_refuted",
    "C98_zero_refuted"
   ],
   "note": "Proved: exactly which command lines are accepted and with which configuration and phases, the codes of the others, and that every configuration can be given; the same for the map server. Refuted: that all arguments are taken into account (flags after the directory are ignored), that accepted numbers can be worked with (negative ones panic; with no readers, parsers or dechainers nothing is read and the run ends without an error), and that digits mean a decimal number (a zero in front makes them octal)."
  },
  {
   "property": "C99",
   "status": "partial",
   "theorems": [
    "C99_request",
    "C99_reply",
    "C99_unknown",
    "C99_text",
    "C99_same",
    "C99_name",
    "C99_served_partial",
    "C99_stale_refuted",
    "C99_long",
    "C99_large_refuted",
    "C99_call",
    "C99_exit_refuted",
    "C99_flags_refuted"
   ],
   "note": "Proved: the messages and the text arrive as sent; the answer is the one over HTTP for every domain as long as the root is the one that was loaded and the answer fits the limit; in every state of the server (as in C81) it lists exactly the certificates and policies of the tables. Refuted: that this holds at any time (the root is never loaded again: absence is proved for a domain which is present), for any size (4 MiB), and that the call has no other effect (it parses the arguments of the process and may end it). The large answer is shown for tables and a tree that need not belong together."
  }
 ]
}
