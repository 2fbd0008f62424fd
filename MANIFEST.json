{
 "claims": [
  {
   "property": "C01",
   "status": "proved",
   "theorems": [
    "C01_wildcard_exact",
    "wildcard_means_subdomain"
   ],
   "note": "any set of wildcard entries, any query name without empty labels"
  },
  {
   "property": "C02",
   "status": "proved",
   "theorems": [
    "C02_plain_exact"
   ],
   "note": "any list of plain entries, any query name"
  },
  {
   "property": "C03",
   "status": "partial",
   "theorems": [
    "C03_entry_goes_to_one_matcher_partial",
    "C03_single_slash_crashes_refuted",
    "C03_slash_line_crashes_refuted"
   ],
   "note": "holds for every entry except \"/\", which crashes the load"
  },
  {
   "property": "C04",
   "status": "proved",
   "theorems": [
    "C04_lookup_exact_after_any_history"
   ],
   "note": ""
  },
  {
   "property": "C05",
   "status": "proved",
   "theorems": [
    "C05_refresh_leaves_other_groups"
   ],
   "note": ""
  },
  {
   "property": "C06",
   "status": "proved",
   "theorems": [
    "C06_failed_refresh_keeps_content",
    "C06_refresh"
   ],
   "note": ""
  },
  {
   "property": "C07",
   "status": "partial",
   "theorems": [
    "C07_lookup_during_refresh_partial",
    "C07_lookup_during_refresh_refuted"
   ],
   "note": "atomicity fails when a name moves between matchers; no false match and same-matcher stability are proved"
  },
  {
   "property": "C08",
   "status": "proved",
   "theorems": [
    "C08_error_budget_exact",
    "C08_lines",
    "C08_every_source_covered"
   ],
   "note": ""
  },
  {
   "property": "C09",
   "status": "proved",
   "theorems": [
    "C09_comments_and_blanks_neutral"
   ],
   "note": "ASCII white space"
  },
  {
   "property": "C10",
   "status": "proved",
   "theorems": [
    "C10_hosts_file_line_exact",
    "C10_hosts_line_in_list"
   ],
   "note": "net.ParseIP is an oracle"
  },
  {
   "property": "C11",
   "status": "proved",
   "theorems": [
    "C11_domain_name_grammar",
    "C11_list_line_grammar"
   ],
   "note": "net.ParseIP, IDNA conversion and regexp.Compile are oracles"
  },
  {
   "property": "C12",
   "status": "proved",
   "theorems": [
    "C12_size_bounded",
    "C12_lru_eviction",
    "C12_present_was_used",
    "C12_no_other_eviction"
   ],
   "note": "all interleavings of puts, lookups, clears and clean-up steps; golang-lru itself is modelled, not part of /repo"
  },
  {
   "property": "C13",
   "status": "proved",
   "theorems": [
    "C13_get_last_put",
    "C13_clear"
   ],
   "note": ""
  },
  {
   "property": "C14",
   "status": "partial",
   "theorems": [
    "C14_undisturbed_clean_up_partial",
    "C14_only_condemned_removed",
    "C14_valid_entry_removed_refuted"
   ],
   "note": "exact when the clean-up is not interleaved with stores; a store during a clean-up can be lost (witness); a replacement without positive lifetime leaves the expired entry in place"
  },
  {
   "property": "C15",
   "status": "partial",
   "theorems": [
    "C15_expired_value_served_refuted",
    "C15_remaining_time_tells_partial",
    "C15_gone_after_clean_up_partial"
   ],
   "note": "false as stated: lookups do not check the expiry (witness); the remaining time reported is exact and the next undisturbed clean-up removes the entry"
  },
  {
   "property": "C16",
   "status": "proved",
   "theorems": [
    "C16_prefetch_exact",
    "C16_rare_names_never_prefetched"
   ],
   "note": "exact when the name cache has room for the looked-up names and fewer than 2^32 operations; without these no rare name is re-fetched; a racing increment of the same counter is not modelled"
  },
  {
   "property": "C17",
   "status": "proved",
   "theorems": [
    "C17_cache_key_separates",
    "C17_cache_key_decodes"
   ],
   "note": "16-bit types"
  },
  {
   "property": "C18",
   "status": "partial",
   "theorems": [
    "C18_cached_ttls_count_down_partial",
    "C18_served_ttl_never_raised",
    "C18_cached_ttl_nxdomain_refuted"
   ],
   "note": "proved for positive answers to client queries and from peers; false for NXDOMAIN answers that contain records and for prefetched entries"
  },
  {
   "property": "C19",
   "status": "partial",
   "theorems": [
    "C19_reply_ttls_clamped_partial",
    "C20_stored_iff_cacheable",
    "C19_prefetched_ttl_above_max_refuted"
   ],
   "note": "prefetched records are cached unclamped (witness)"
  },
  {
   "property": "C20",
   "status": "proved",
   "theorems": [
    "C20_stored_iff_cacheable",
    "C20_bypass",
    "C20_lookup_or_forward",
    "C20_prefetch_stores_truncated_refuted"
   ],
   "note": "answers to client queries; prefetching stores truncated answers too (witness)"
  },
  {
   "property": "C21",
   "status": "proved",
   "theorems": [
    "C21_cached_reply_belongs_to_request",
    "C22_cached_reply_correct"
   ],
   "note": ""
  },
  {
   "property": "C22",
   "status": "proved",
   "theorems": [
    "C22_cached_reply_correct",
    "C22_entry_changes_only_by_delivery",
    "C22_prefetch_asks_same_question",
    "C22_two_questions_poison_refuted"
   ],
   "note": "all interleavings at the accesses to the cache; the answer to a request with several questions is cached for each of them (witness)"
  },
  {
   "property": "C23",
   "status": "proved",
   "theorems": [
    "C23_flush_empties",
    "C23_flush_inflight_refuted"
   ],
   "note": "until the next answer is stored; an answer received before the flush may be stored after it (witness)"
  },
  {
   "property": "C24",
   "status": "proved",
   "theorems": [
    "C24_blocked_iff",
    "C24_setting_of_lists"
   ],
   "note": "For every configuration, client, list content and request; for the first question decided by name. C24_setting_of_lists discharges the hypothesis on list lookups from C04."
  },
  {
   "property": "C25",
   "status": "proved",
   "theorems": [
    "C25_groups_exact"
   ],
   "note": "filepath.Match, CIDR membership and IP printing are oracles; independent of map iteration order."
  },
  {
   "property": "C26",
   "status": "proved",
   "theorems": [
    "C26_allowlist_only_blocks_rest"
   ],
   "note": ""
  },
  {
   "property": "C27",
   "status": "proved",
   "theorems": [
    "C27_answers_screened"
   ],
   "note": "Answers to allow-listed questions are not screened (example C27_allowed_question_not_screened)."
  },
  {
   "property": "C28",
   "status": "proved",
   "theorems": [
    "C28_block_answer_shape",
    "C24_blocked_iff"
   ],
   "note": ""
  },
  {
   "property": "C29",
   "status": "proved",
   "theorems": [
    "C29_blocked_never_forwarded"
   ],
   "note": ""
  },
  {
   "property": "C30",
   "status": "proved",
   "theorems": [
    "C30_temporary_disable"
   ],
   "note": "Provided no earlier timer callback is still waiting for the lock when the command is executed (see C32)."
  },
  {
   "property": "C31",
   "status": "partial",
   "theorems": [
    "C31_rejected_keeps_status_partial",
    "C31_rejected_changes_nothing_refuted"
   ],
   "note": "False as stated: a rejected command stops the timer that would re-enable blocking. Proved: rejection iff unknown group; the current status is unchanged; nothing at all changes when no timer is running."
  },
  {
   "property": "C32",
   "status": "partial",
   "theorems": [
    "C32_last_command_wins_partial",
    "C32_last_command_wins_refuted"
   ],
   "note": "False as stated: a timer that has fired but not yet obtained the lock overrides a newer command. Proved for all histories in which no such callback is pending at the last accepted command."
  },
  {
   "property": "C33",
   "status": "proved",
   "theorems": [
    "C33_answers_exact",
    "C33_others_passed_on"
   ],
   "note": "For every mapping and zone in which no two names of the mapping (or of the zone) denote the same domain; iff with a declarative meaning of the configuration."
  },
  {
   "property": "C34",
   "status": "proved",
   "theorems": [
    "C34_terminates",
    "C34_cycle_no_answer",
    "C34_loop_error_only_for_cycles"
   ],
   "note": "Cancellation by the context is not modelled."
  },
  {
   "property": "C35",
   "status": "proved",
   "theorems": [
    "C35_right_records"
   ],
   "note": ""
  },
  {
   "property": "C36",
   "status": "partial",
   "theorems": [
    "C36_reverse_partial",
    "C36_letter_case_refuted"
   ],
   "note": "Proved for reverse names in lower case; in another letter case the lookup is not recognised (refuted)."
  },
  {
   "property": "C37",
   "status": "proved",
   "theorems": [
    "C37_most_specific_zone",
    "C37_responsible_unique"
   ],
   "note": "Zones distinct up to letter case. The upstream group is an arbitrary oracle; exactly one destination is asked, with the lower-cased name."
  },
  {
   "property": "C38",
   "status": "partial",
   "theorems": [
    "C38_invisible",
    "C38_question_restored",
    "C38_later_request_partial",
    "C38_later_request_refuted"
   ],
   "note": "Asked name and restored names: proved for all rules, orders and inner resolvers. The last clause is false: with conditional upstreams inside and no applicable rule, a fallback sees the name in lower case (refuted); it holds whenever a name was rewritten or the inner resolver leaves the message alone (partial)."
  },
  {
   "property": "C39",
   "status": "proved",
   "theorems": [
    "C39_fallback_exact"
   ],
   "note": "Answer == nil is modelled as an empty answer list."
  },
  {
   "property": "C40",
   "status": "partial",
   "theorems": [
    "C40_special_use_partial",
    "C40_disabled",
    "C40_letter_case_refuted"
   ],
   "note": "Exact for lower-case names, against zones listed from the RFCs. Missing: letter case; the lookup is case-sensitive, so e.g. Secret.Onion is forwarded (refuted)."
  },
  {
   "property": "C41",
   "status": "proved",
   "theorems": [
    "C41_filtered"
   ],
   "note": ""
  },
  {
   "property": "C42",
   "status": "partial",
   "theorems": [
    "C42_fqdn_only_partial",
    "C42_response_matches_refuted"
   ],
   "note": "Exactly single-label names are rejected. The reply has no id, question or response flag (refuted)."
  },
  {
   "property": "C43",
   "status": "partial",
   "theorems": [
    "C43_only_network_partial",
    "C43_leaks_refuted"
   ],
   "note": "Proved where the mask of the client's family is set, or none is and the option occurs once. Refuted: default configuration, mask of the other family only, repeated option."
  },
  {
   "property": "C44",
   "status": "partial",
   "theorems": [
    "C44_set",
    "C44_get",
    "C44_remove_partial",
    "C44_remove_refuted",
    "C44_remove_record"
   ],
   "note": "Removing deletes only the first of several options of the kind (refuted); setting replaces all."
  },
  {
   "property": "C45",
   "status": "proved",
   "theorems": [
    "C45_extended_errors",
    "C45_transparent"
   ],
   "note": ""
  },
  {
   "property": "C46",
   "status": "partial",
   "theorems": [
    "C46_all_or_nothing",
    "C46_error_reported",
    "C46_answer",
    "C46_last_entry_partial",
    "C46_last_entry_refuted"
   ],
   "note": "Loading is all-or-nothing for all histories (proved). The last entry wins only if the name is not the name of one entry and an alias of another; names take precedence over later aliases (refuted)."
  },
  {
   "property": "C47",
   "status": "partial",
   "theorems": [
    "C47_precedence",
    "C47_names_partial",
    "C47_names_determined",
    "C47_lookup_question",
    "C47_found_names_kept",
    "C47_some_name_refuted"
   ],
   "note": "Precedence proved for all histories of requests, lookups, flushes and clean-up steps, and the names found are the specified ones when singleNameOrder is empty or contains 1. Otherwise a client whose lookup has no name at the listed positions ends up with no name at all, not even its IP (C47_some_name_refuted). net.IP.String is an oracle assumed to tell the configured addresses apart."
  },
  {
   "property": "C48",
   "status": "partial",
   "theorems": [
    "C48_group_partial",
    "C48_tree_partial",
    "C48_creation",
    "C48_ip_spelling_refuted"
   ],
   "note": "Precedence proved for every iteration order, including that the chosen group exists. A group for an exact IP is found only if it is written as Go prints the address: 'FD00::1' is not (C48_ip_spelling_refuted). filepath.Match, CIDR membership and IP texts are oracles."
  },
  {
   "property": "C49",
   "status": "proved",
   "theorems": [
    "C49_strict_first",
    "C49_strict_determined"
   ],
   "note": ""
  },
  {
   "property": "C50",
   "status": "proved",
   "theorems": [
    "C50_parallel",
    "C50_random",
    "C50_single"
   ],
   "note": "For groups of resolvers with different identities; arrival order and random numbers arbitrary."
  },
  {
   "property": "C51",
   "status": "proved",
   "theorems": [
    "C51_retries",
    "C51_first_non_timeout",
    "C51_dead_client"
   ],
   "note": "A further attempt also needs a client that is still waiting."
  },
  {
   "property": "C52",
   "status": "partial",
   "theorems": [
    "C52_rotation_partial",
    "C52_index_in_range",
    "C52_forward",
    "C52_one_by_one",
    "C52_skip_refuted",
    "C52_fourth_never_refuted",
    "C52_refused_address_refuted"
   ],
   "note": "Every request starts again with the first address and makes at most three attempts: a fourth address is never used; errors other than timeouts are not retried at another address. Rotation proved for up to three addresses; the index stays in range in every interleaving of concurrent calls and, with fewer calls than addresses, moves only to the following address; with more calls a late one can skip addresses."
  },
  {
   "property": "C53",
   "status": "partial",
   "theorems": [
    "C53_one_reply",
    "C53_no_question",
    "C53_failure_partial",
    "C53_reply_passed",
    "C53_health_check",
    "C53_fqdn_only_refuted"
   ],
   "note": "False with fqdnOnly: that reply has id 0 and is not marked as a response. One message is written for every query; the SERVFAIL reply matches if the chain keeps id and question of the request; replies of the chain keep their header. Failures of the writer are not modelled."
  },
  {
   "property": "C54",
   "status": "partial",
   "theorems": [
    "C54_fits_partial",
    "C54_udp_partial",
    "C54_connection",
    "C54_truncation_marked",
    "C54_no_needless_truncation",
    "C54_tcp_edns_refuted",
    "C54_long_opt_refuted",
    "C54_ecs_drops_size_refuted"
   ],
   "note": "False in three cases: over TCP the UDP size of the OPT record limits the answer; a long OPT record of the reply is never cut; the ECS resolver may remove the client's OPT record. Lengths of records are an arbitrary measure that compression never enlarges."
  },
  {
   "property": "C55",
   "status": "proved",
   "theorems": [
    "C55_base64",
    "C55_get",
    "C55_post"
   ],
   "note": "Unpacking of messages is an arbitrary function."
  },
  {
   "property": "C56",
   "status": "partial",
   "theorems": [
    "C56_max_age_partial",
    "C56_no_answer",
    "C56_zero_ttl_refuted"
   ],
   "note": "False when a record has TTL 0: it is ignored."
  },
  {
   "property": "C57",
   "status": "proved",
   "theorems": [
    "C57_client_id",
    "C57_no_client_id",
    "C57_requests"
   ],
   "note": "An empty x gives no client id."
  },
  {
   "property": "C58",
   "status": "partial",
   "theorems": [
    "C58_fields",
    "C58_result",
    "C58_offered",
    "C58_order",
    "C58_dropped_only_full",
    "C58_complete",
    "C58_drained",
    "C58_stop_refuted"
   ],
   "note": "All schedules of offers and writes of the channel of 1000 entries. Entries still queued when the server stops are not written (C58_stop_refuted). That the resolver never waits is the shape of the model: an offer is one step that never blocks."
  },
  {
   "property": "C59",
   "status": "partial",
   "theorems": [
    "C59_batches",
    "C59_once_partial",
    "C59_never_twice",
    "C59_content",
    "C59_failed_batch_refuted"
   ],
   "note": "False when the database refuses a batch: its entries are lost. Never twice and in order in any case; exactly once with a working database."
  },
  {
   "property": "C60",
   "status": "proved",
   "theorems": [
    "C60_no_separator"
   ],
   "note": ""
  },
  {
   "property": "C61",
   "status": "partial",
   "theorems": [
    "C61_exactly_partial",
    "C61_own_files",
    "C61_calendar",
    "C61_unlimited",
    "C61_database",
    "C61_future_refuted",
    "C61_foreign_refuted"
   ],
   "note": "False for files dated in the future (removed at once on amd64) and for foreign files that look like logs. Age in full days of 24 hours; calendar days in zones without clock changes. Float rounding is not modelled."
  },
  {
   "property": "C62",
   "status": "partial",
   "theorems": [
    "C62_obfuscate",
    "C62_hidden",
    "C62_entry",
    "C62_blocking_debug_refuted"
   ],
   "note": "Holds for the query log and where Obfuscate is used; the debug lines of the blocking resolver show the name."
  },
  {
   "property": "C63",
   "status": "partial",
   "theorems": [
    "C63_roundtrip",
    "C63_printed_wellformed",
    "C63_only_wellformed_partial",
    "C63_only_wellformed_refuted"
   ],
   "note": "Round trip proved for all addresses. 'Only well-formed' proved for IPv4, and for IPv6 with one-character labels; false in general (labels like 'ab' are accepted as digits)."
  },
  {
   "property": "C64",
   "status": "partial",
   "theorems": [
    "C64_sync_partial",
    "C64_no_echo_partial",
    "C64_delivered_partial",
    "C64_keys",
    "C64_key_refuted"
   ],
   "note": "Proved for every history and interleaving of any number of instances with distinct ids, as long as the keys and group names are valid UTF-8, which C64_keys shows for all ASCII names and type numbers with both bytes below 128. Refuted for other types: the key of an ANY question is changed by the JSON encoding. The DNS codec is an oracle (what was packed unpacks to the same message)."
  },
  {
   "property": "C65",
   "status": "partial",
   "theorems": [
    "C65_moved_iff_default",
    "C65_reported",
    "C65_others_kept",
    "C65_two_deprecated_refuted"
   ],
   "note": "Proved for all 25 deprecated options and all values, with the documented meaning of each, provided that no second deprecated option for the same new option is used. Without that proviso it is refuted: blocking.startStrategy is dropped when blocking.failStartOnListError is used too, with a log line claiming that the new option is set."
  },
  {
   "property": "C66",
   "status": "proved",
   "theorems": [
    "C66_returned",
    "C66_returns",
    "C66_returns_once",
    "C66_fast_returns_at_once",
    "C66_once",
    "C66_complete_at_return",
    "C66_fast_completes"
   ],
   "note": ""
  },
  {
   "property": "C67",
   "status": "partial",
   "theorems": [
    "C67_minutes_partial",
    "C67_exact_minutes",
    "C67_signs",
    "C67_overflow_refuted",
    "C67_units",
    "C67_only",
    "C67_advice_refuted"
   ],
   "note": "A number alone is that many minutes up to 153722867 (292 years); above that the multiplication overflows silently (refuted with 153722868, a negative duration). The values of texts with units are proved for all texts whose sum fits; the value of a decimal fraction (float64 arithmetic in Go) is an arbitrary function. The text advised by the deprecation warning ('30 min') is refused."
  },
  {
   "property": "C68",
   "status": "partial",
   "theorems": [
    "C68_parts",
    "C68_unambiguous",
    "C68_round_trip",
    "C68_common_name_refuted"
   ],
   "note": "parse_upstream accepts exactly the texts of the grammar upstream_text with exactly these parts. Printing and parsing gives the same upstream without its common name; the common name is lost (refuted as a full round trip)."
  },
  {
   "property": "C69",
   "status": "partial",
   "theorems": [
    "C69_port_partial",
    "C69_zero_refuted"
   ],
   "note": "Port texts are characterised exactly; port 0 and white space around the number are accepted, so 'between 1 and 65535' is refuted."
  },
  {
   "property": "C70",
   "status": "partial",
   "theorems": [
    "C70_sources_in_order_partial",
    "C70_first_source_answers_partial",
    "C70_source_found_partial",
    "C70_cache_begins",
    "C70_cache_continues",
    "C70_conditional_same",
    "C70_block_answer_without_upstream_refuted",
    "C70_custom_without_upstream_refuted",
    "C70_cached_without_upstream_refuted"
   ],
   "note": "Proved for the whole chain as assembled by createQueryResolver: for requests with one question, the sources consulted are exactly those up to the one that answered, in the order of precedence, each once, and the kind of the response names it, unless the answer was replaced by a block answer because of its content (C70_sources_in_order_partial). Without rewriting rules, for questions other than PTR and with lower-case names, the one that answered is the first that has an answer by the separate specification of each source (C70_first_source_answers_partial). The full claim is false of the code in three ways, each with a witness: screening replaces upstream answers by block answers, custom CNAMEs to other names ask the rest of the chain, and with several questions the cache may answer after the upstreams were asked. Missing: rewriting rules, PTR and upper-case names in the second theorem."
  },
  {
   "property": "C71",
   "status": "proved",
   "theorems": [
    "C71_list_source_means_its_lines"
   ],
   "note": "sources without malformed lines; for malformed ones see C08"
  },
  {
   "property": "C72",
   "status": "proved",
   "theorems": [
    "C72_kept_until_expiry"
   ],
   "note": ""
  },
  {
   "property": "C73",
   "status": "partial",
   "theorems": [
    "C73_queries_progress_partial",
    "C73_no_deadlock_refuted"
   ],
   "note": "False: isGroupDisabled takes the read lock again while groupsToCheckForClient holds it; with a waiting writer all goroutines block forever. Proved: queries alone always progress."
  },
  {
   "property": "C74",
   "status": "partial",
   "theorems": [
    "C74_disable_all_partial",
    "C74_disable_all_refuted"
   ],
   "note": "False: groups with only allow lists are not among the disabled ones. Proved: nothing is blocked for being on a deny list."
  },
  {
   "property": "C75",
   "status": "partial",
   "theorems": [
    "C75_fqdn_addresses_partial",
    "C75_history",
    "C75_fqdn_recovers_refuted"
   ],
   "note": "Second half false: an identifier that cannot be resolved at start is never looked up again."
  },
  {
   "property": "C76",
   "status": "partial",
   "theorems": [
    "C76_unsupported_harmless_refuted",
    "C35_right_records"
   ],
   "note": "False: e.g. an MX record makes all queries for its name fail. Holds for domains all of whose records are of supported types."
  },
  {
   "property": "C77",
   "status": "partial",
   "theorems": [
    "C77_question_echoed_partial",
    "C77_question_echoed_refuted"
   ],
   "note": "False for names with upper-case letters (refuted): the answer carries the lower-cased name. Proved for lower-case names."
  },
  {
   "property": "C78",
   "status": "partial",
   "theorems": [
    "C78_cname_with_rewriting_refuted"
   ],
   "note": "False: with any rewrite rule the no-op resolver's response without message is dereferenced, for every such CNAME; a crash of the query. Without rewriting the property is C33/C34."
  },
  {
   "property": "C79",
   "status": "partial",
   "theorems": [
    "C79_deterministic_partial",
    "C79_deterministic_refuted"
   ],
   "note": "False for overlapping rules (refuted); proved if no rule is about a sub-domain of another."
  },
  {
   "property": "C80",
   "status": "partial",
   "theorems": [
    "C80_no_crash_refuted",
    "C80_no_crash_partial",
    "C80_mask_config"
   ],
   "note": "An IPv4 client with only an IPv6 mask above 32 crashes the handler (refuted); proved otherwise."
  },
  {
   "property": "C81",
   "status": "partial",
   "theorems": [
    "C81_no_opt_unasked_refuted"
   ],
   "note": "False: the EDE resolver adds an OPT record regardless of the request."
  },
  {
   "property": "C82",
   "status": "proved",
   "theorems": [
    "C82_client_address"
   ],
   "note": ""
  },
  {
   "property": "C83",
   "status": "partial",
   "theorems": [
    "C83_atomic_reload_refuted",
    "C83_atomic_reload_partial"
   ],
   "note": "The table consists of four references assigned without lock; refuted for names changing between name and alias, proved otherwise."
  },
  {
   "property": "C84",
   "status": "partial",
   "theorems": [
    "C84_letter_case_partial",
    "C84_letter_case_refuted"
   ],
   "note": "Names with upper-case letters or final dot in the file are never found (refuted); spelling of the query does not matter."
  },
  {
   "property": "C85",
   "status": "partial",
   "theorems": [
    "C85_reverse_partial",
    "C85_reverse_refuted"
   ],
   "note": "The names of one entry in force with that address are returned. With several entries for the address only one, chosen by map order, is used (refuted)."
  },
  {
   "property": "C86",
   "status": "proved",
   "theorems": [
    "C86_only_served_entries"
   ],
   "note": ""
  },
  {
   "property": "C87",
   "status": "partial",
   "theorems": [
    "C87_flush_forgets_partial",
    "C87_failure_forgotten_refuted"
   ],
   "note": "False: the result of a failed lookup is cached for an hour like a success. After a flush the lookup is done again."
  },
  {
   "property": "C88",
   "status": "partial",
   "theorems": [
    "C88_unambiguous_partial",
    "C88_same_group_refuted"
   ],
   "note": "False when several groups match: the first one of a map iteration is taken. Proved when each name and the address match at most one group."
  },
  {
   "property": "C89",
   "status": "proved",
   "theorems": [
    "C89_weight",
    "C89_recovers",
    "C89_failure_noted",
    "C89_share"
   ],
   "note": "The weighted choice of the library is modelled as intervals of the random number."
  },
  {
   "property": "C90",
   "status": "proved",
   "theorems": [
    "C90_race",
    "C90_complete_if_any"
   ],
   "note": ""
  },
  {
   "property": "C91",
   "status": "partial",
   "theorems": [
    "C91_servfail_partial",
    "C91_tls_refuted",
    "C91_no_clear_text"
   ],
   "note": "True for plain DNS over UDP/TCP; over TLS and HTTPS a SERVFAIL counts as an answer and the other upstreams are not used."
  },
  {
   "property": "C92",
   "status": "partial",
   "theorems": [
    "C92_addresses_partial",
    "C92_never_empty",
    "C92_dial_no_crash",
    "C92_family_partial",
    "C92_dial_family_partial",
    "C92_one_family_refuted",
    "C92_usable_iff",
    "C92_literal_refuted"
   ],
   "note": "False when one of the lookups fails with an error: the addresses found by the other one are dropped. The IP version clause needs that A answers carry only IPv4 addresses and AAAA answers only IPv6 ones; a host given as an address, or with configured addresses, is used whatever the IP version (refuted by a concrete case). C92_usable_iff says exactly when a host name can be used and with which addresses."
  },
  {
   "property": "C93",
   "status": "proved",
   "theorems": [
    "C93_fail_on_error",
    "C93_other_strategies"
   ],
   "note": "State after initialisation has finished."
  },
  {
   "property": "C94",
   "status": "partial",
   "theorems": [
    "C94_https_partial",
    "C94_unrelated_reply_refuted"
   ],
   "note": "Status, content type and well-formedness are checked, id and question are not."
  },
  {
   "property": "C95",
   "status": "partial",
   "theorems": [
    "C95_http_client_partial",
    "C95_bare_address",
    "C95_two_proxies_refuted"
   ],
   "note": "A header with several addresses is not understood: the client has no address."
  },
  {
   "property": "C96",
   "status": "proved",
   "theorems": [
    "C96_record",
    "C96_files"
   ],
   "note": "The reader is RFC 4180 with tabs and without conversion of line ends."
  },
  {
   "property": "C97",
   "status": "partial",
   "theorems": [
    "C97_apart_partial",
    "C97_same_file_refuted"
   ],
   "note": "False for names that differ only in special characters; proved for clients with one name of letters, digits, minus and underscore, and years before 10000."
  },
  {
   "property": "C98",
   "status": "partial",
   "theorems": [
    "C98_fallback",
    "C98_zero_attempts_refuted"
   ],
   "note": "With creationAttempts 0 the start-up never ends if the target does not work."
  },
  {
   "property": "C99",
   "status": "partial",
   "theorems": [
    "C99_returns_partial",
    "C99_stall_refuted"
   ],
   "note": "False in general: PublishCache is a blocking send; once 1000 replies wait, queries wait until Redis takes one. Proved that it returns at once below that number."
  },
  {
   "property": "C100",
   "status": "partial",
   "theorems": [
    "C100_store_key",
    "C100_age_partial",
    "C100_loaded",
    "C100_last_moment_refuted",
    "C100_negative_refuted"
   ],
   "note": "Proved (up to the rounding of Redis, half a second) for replies with records as long as half a second is left. Refuted in the last half second, where the full time to live comes back, and for replies without records, kept for 2^31-1 seconds."
  },
  {
   "property": "C101",
   "status": "proved",
   "theorems": [
    "C101_read",
    "C101_valid",
    "C101_round_trip",
    "C101_no_address",
    "C101_distinct",
    "C101_unambiguous",
    "C101_clients"
   ],
   "note": "net.ParseIP and net.IP.String are transcribed from Go's standard library; IPv4 in IPv6 form is identified with IPv4, as in the rest of the model."
  },
  {
   "property": "C105",
   "status": "proved",
   "theorems": [
    "C105_listen"
   ],
   "note": "Blanks after a comma are kept in the part (see Example C105_blank)."
  },
  {
   "property": "C102",
   "status": "partial",
   "theorems": [
    "C102_new_wins_partial",
    "C102_new_wins_refuted"
   ],
   "note": "Holds if the explicit value differs from the default. Refuted otherwise: an explicit value that equals the default is overridden by the deprecated option (refreshPeriod 4h explicit, deprecated 1h)."
  },
  {
   "property": "C106",
   "status": "proved",
   "theorems": [
    "C106_validated",
    "C106_kept"
   ],
   "note": ""
  },
  {
   "property": "C107",
   "status": "partial",
   "theorems": [
    "C107_periodic_only",
    "C107_rounds",
    "C107_go_on",
    "C107_stopped",
    "C107_no_overlap",
    "C107_after_cancel_refuted",
    "C107_no_overlap_refuted"
   ],
   "note": "Two parts are refuted: with the strategy fast the first load may overlap the first periodic refresh, and a refresh may be started after the context is done when a tick is waiting (select chooses at random). The rest is proved for all schedules."
  },
  {
   "property": "C103",
   "status": "partial",
   "theorems": [
    "C103_url_hidden_partial",
    "C103_rest_shown",
    "C103_mysql_shown",
    "C103_hidden_refuted",
    "C103_other_forms_refuted",
    "C103_empty_password_refuted",
    "C103_fragment_refuted"
   ],
   "note": "Proved for targets written as URLs whose password needs no escaping. Refuted for every target in the form of the MySQL driver, which is the one in the documentation (the port in tcp(host:port) is no valid port of a URL, so the target is logged as it is), for escaped passwords, for the key-value form of PostgreSQL, and for targets without scheme with a URL in their parameters. An empty password makes the target unreadable (stars around every character), and a wrong escape in the fragment shows the password."
  },
  {
   "property": "C104",
   "status": "partial",
   "theorems": [
    "C104_understood",
    "C104_shown_is_read",
    "C104_inline_shown",
    "C104_inline_text",
    "C104_file_names_refuted",
    "C104_dots_refuted"
   ],
   "note": "Refuted in two points: files whose name begins with http are taken for downloads, and further lines of an inline list are dropped without dots. The rest is proved for all texts."
  },
  {
   "property": "C108",
   "status": "partial",
   "theorems": [
    "C108_no_crash_partial",
    "C108_mask_refuted",
    "C108_cname_refuted",
    "C108_label_refuted"
   ],
   "note": "For the whole chain: with upstreams that answer with a message or an error, masks that suit both address families and, if rewriting rules are configured for custom DNS, no custom CNAMEs, and, if metrics are enabled, names of clients in UTF-8, every request with a question gets a result and every response has a message. Missing: the excluded cases, for which the claim is false (witnesses: a client identifier of one byte FF with metrics enabled; an IPv6 mask longer than 32 bits without IPv4 mask; a custom CNAME to a name outside together with any rewriting rule)."
  },
  {
   "property": "C109",
   "status": "partial",
   "theorems": [
    "C109_sound",
    "C109_exact_partial",
    "C109_slash_refuted",
    "C109_client_partial",
    "C109_plain"
   ],
   "note": "Exact for names without a slash; with a slash a name accepted by the pattern can be missed. ASCII texts."
  },
  {
   "property": "C110",
   "status": "partial",
   "theorems": [
    "C110_network",
    "C110_no_address",
    "C110_groups_partial",
    "C110_address_text_refuted",
    "C110_upstreams_partial"
   ],
   "note": "Refuted for identifiers that write an address in another than the canonical form. Names without slash, requests with a valid address."
  },
  {
   "property": "C111",
   "status": "partial",
   "theorems": [
    "C111_disable",
    "C111_bad_duration",
    "C111_unknown_group_partial",
    "C111_names_group",
    "C111_enable",
    "C111_one_line",
    "C111_escape",
    "C111_status_partial",
    "C111_last_second_refuted",
    "C111_announced_refuted",
    "C111_negative_refuted"
   ],
   "note": "Refuted: in the last second the status looks like a pause for ever; after a refused command the status announces a re-activation that does not come; negative durations are accepted. A refused command for an unknown group loses the running timer (C31)."
  },
  {
   "property": "C112",
   "status": "partial",
   "theorems": [
    "C112_one_writer_partial",
    "C112_two_writers_refuted",
    "C112_late_timer_refuted"
   ],
   "note": "Agreement if all commands go to one instance and no timer fires; refuted for two writers and for timers of peers. Delivery by Redis taken as reliable and ordered."
  },
  {
   "property": "C113",
   "status": "partial",
   "theorems": [
    "C113_success",
    "C113_failure",
    "C113_endless",
    "C113_cancelled_refuted",
    "C113_shutdown_refuted"
   ],
   "note": "Number of tries, cooldowns, result and closing of bodies are proved for all answers of the network. The end of the context does not end a download (refuted), with zero attempts it never ends (refuted)."
  },
  {
   "property": "C114",
   "status": "partial",
   "theorems": [
    "C114_refresh",
    "C114_all_fail",
    "C114_kind_of_failure",
    "C114_missing_source_refuted",
    "C114_truncated_refuted"
   ],
   "note": "Proved if all sources can be read with at most the allowed number of lines without a meaning, and if no source can be opened. Refuted in between: one missing source unblocks its domains; a download that breaks off or an over-long line truncates the list without an error."
  },
  {
   "property": "C115",
   "status": "partial",
   "theorems": [
    "C115_text",
    "C115_refused",
    "C115_answers",
    "C115_case_refuted"
   ],
   "note": "Proved for mappings without names that differ only in case or a final dot; with such names the answer depends on the map iteration order (refuted)."
  },
  {
   "property": "C116",
   "status": "partial",
   "theorems": [
    "C116_zone_partial",
    "C116_case_refuted",
    "C116_hidden_refuted"
   ],
   "note": "Proved if names denoting the same domain are written alike. Refuted otherwise: spellings of one name overwrite each other, and a zone record hides the mapping of its name."
  },
  {
   "property": "C117",
   "status": "proved",
   "theorems": [
    "C117_text",
    "C117_asked"
   ],
   "note": ""
  },
  {
   "property": "C118",
   "status": "partial",
   "theorems": [
    "C118_trouble",
    "C118_directory",
    "C118_link_refuted",
    "C118_twice_refuted"
   ],
   "note": "Full for directories; refuted for a configured path that is a link to a directory, and files may be decoded twice through links."
  },
  {
   "property": "C119",
   "status": "partial",
   "theorems": [
    "C119_outcome",
    "C119_whole_partial",
    "C119_first_document",
    "C119_documents_refuted"
   ],
   "note": "The whole text is decoded only if it has no document markers; otherwise refuted. What is decoded then is exactly the first document."
  },
  {
   "property": "C120",
   "status": "partial",
   "theorems": [
    "C120_duration",
    "C120_disable",
    "C120_unknown_partial",
    "C120_status_partial",
    "C120_empty_refuted"
   ],
   "note": "Decimal fractions of units are assumed to be computed exactly; unknown groups still stop a running timer (C111); an empty name means all groups."
  },
  {
   "property": "C121",
   "status": "partial",
   "theorems": [
    "C121_address_partial",
    "C121_flags_partial",
    "C121_defaults",
    "C121_ipv6_refuted",
    "C121_refresh_refuted",
    "C121_override_refuted"
   ],
   "note": "Hosts without colon; refuted for IPv6 addresses, for the command refresh and for the flags."
  },
  {
   "property": "C122",
   "status": "partial",
   "theorems": [
    "C122_validate_partial",
    "C122_environment_refuted"
   ],
   "note": "Only if the path does not come from the environment; refuted otherwise."
  },
  {
   "property": "C123",
   "status": "proved",
   "theorems": [
    "C123_gauge",
    "C123_groups_refuted"
   ],
   "note": "Refuted in addition: the gauge 0 does not mean that nothing is blocked (some groups may be disabled only)."
  },
  {
   "property": "C124",
   "status": "partial",
   "theorems": [
    "C124_gauge_partial",
    "C124_names",
    "C124_entries",
    "C124_overlap_refuted",
    "C124_wildcard_refuted"
   ],
   "note": "If no group is refreshed twice at the same time, refuted otherwise; a wildcard that occurs twice counts twice."
  },
  {
   "property": "C125",
   "status": "partial",
   "theorems": [
    "C125_at_least_partial",
    "C125_exact_partial",
    "C125_bounded",
    "C125_lookups",
    "C125_flush_refuted",
    "C125_overlap_refuted",
    "C125_bootstrap_refuted"
   ],
   "note": "The gauge is exact until something is dropped, if puts do not overlap; refuted after a flush, for overlapping puts, and for lookups of the bootstrap, which count as well."
  },
  {
   "property": "C126",
   "status": "partial",
   "theorems": [
    "C126_counters",
    "C126_query_partial",
    "C126_filtered_refuted"
   ],
   "note": "Counters for every interleaving; through the chain for one question, names in UTF-8, and not for queries that are filtered or have no full name: those are not counted."
  },
  {
   "property": "C127",
   "status": "partial",
   "theorems": [
    "C127_answers_partial",
    "C127_refuted"
   ],
   "note": "If the names of the client are UTF-8; otherwise metrics turn an answer into SERVFAIL."
  },
  {
   "property": "C128",
   "status": "partial",
   "theorems": [
    "C128_as_over_dns",
    "C128_unknown_type",
    "C128_command",
    "C128_privacy",
    "C128_privacy_refuted",
    "C128_health_check_refuted"
   ],
   "note": "Proved without privacy mode and outside the zone of the health check.  Refuted otherwise: with log.privacy the answer of the interface is hidden too, so different answers look the same; names of the health check are given to the resolvers."
  },
  {
   "property": "C129",
   "status": "partial",
   "theorems": [
    "C129_responses_ignored",
    "C129_one_answer",
    "C129_refused",
    "C129_resolved",
    "C129_health_check",
    "C129_queries_resolved",
    "C129_healthcheck_command",
    "C129_healthcheck_exact",
    "C129_doh_questions_refuted"
   ],
   "note": "Proved for packets over UDP, TCP and TLS (given what miekg/dns unpacks).  Over HTTPS messages with several questions are resolved: with type AAAA filtered, a message with questions A and AAAA reaches the upstream server."
  },
  {
   "property": "C130",
   "status": "proved",
   "theorems": [
    "C130_refresh",
    "C130_controls",
    "C130_first"
   ],
   "note": ""
  },
  {
   "property": "C131",
   "status": "partial",
   "theorems": [
    "C131_listeners",
    "C131_starts",
    "C131_plain",
    "C131_empty_text_refuted"
   ],
   "note": "Proved for lists of addresses.  An empty text for addresses does not give an empty list: a listener on any free port is opened."
  },
  {
   "property": "C132",
   "status": "partial",
   "theorems": [
    "C132_reason",
    "C132_noticed",
    "C132_stops",
    "C132_graceful",
    "C132_stop_refuted"
   ],
   "note": "Proved; the graceful part needs that all DNS servers serve when the signal is taken: one that has not opened its socket makes Stop give up before the servers behind it (refutation)."
  },
  {
   "property": "C133",
   "status": "proved",
   "theorems": [
    "C133_lists_as_written"
   ],
   "note": "Sources that can be read with few errors; the entry / is excluded since it makes the program panic (C03). Downloads, files, IDNA and regular expressions are parameters."
  },
  {
   "property": "C134",
   "status": "proved",
   "theorems": [
    "C134_written_is_blocked",
    "C134_allowed_not_blocked",
    "C134_unlisted_not_blocked"
   ],
   "note": "For the chain as assembled by createQueryResolver and the server's resolve; lists as loaded by C133. For reverse lookups and names with custom records or hosts entries see C70."
  },
  {
   "property": "C135",
   "status": "proved",
   "theorems": [
    "C135_custom_records_answered"
   ],
   "note": "Address, TXT and SRV records; CNAMEs are C36 and C70."
  },
  {
   "property": "C136",
   "status": "proved",
   "theorems": [
    "C136_hosts_answered"
   ],
   "note": ""
  },
  {
   "property": "C137",
   "status": "proved",
   "theorems": [
    "C137_rest_resolved_upstream"
   ],
   "note": "The upstream tree as a whole is a parameter here; what it does is C10-C17."
  },
  {
   "property": "C138",
   "status": "proved",
   "theorems": [
    "C138_zone_answered",
    "C138_zone_stays_private"
   ],
   "note": "With rewriting rules for conditional upstreams see C70 and C45."
  },
  {
   "property": "C139",
   "status": "partial",
   "theorems": [
    "C139_read",
    "C139_forms",
    "C139_checked",
    "C139_empty_address_refuted"
   ],
   "note": "Reading and checking are characterised exactly; that all accepted addresses are addresses is refuted. YAML parsing of mappings with the internal field names and null values are outside."
  },
  {
   "property": "C140",
   "status": "partial",
   "theorems": [
    "C140_configured",
    "C140_ends",
    "C140_literal",
    "C140_system",
    "C140_looked_up",
    "C140_asks",
    "C140_ips_ignored_refuted"
   ],
   "note": "Termination and results proved for all configurations; use of addresses listed beside an address as host is refuted. The choice among upstreams is a parameter (see C55-C57)."
  },
  {
   "property": "C141",
   "status": "partial",
   "theorems": [
    "C141_always_reloads",
    "C141_hour_partial",
    "C141_user_min",
    "C141_hour_refuted"
   ],
   "note": "The hour holds without a largest time below it; with one it is refuted."
  },
  {
   "property": "C142",
   "status": "proved",
   "theorems": [
    "C142_enums",
    "C142_round_trip",
    "C142_log_fields",
    "C142_tls",
    "C142_timeout"
   ],
   "note": "generated enumerations, TLS version, timeout"
  },
  {
   "property": "C143",
   "status": "proved",
   "theorems": [
    "C143_read",
    "C143_filtered"
   ],
   "note": "types of queries that are filtered; the table of names of miekg/dns is a parameter"
  },
  {
   "property": "C144",
   "status": "partial",
   "theorems": [
    "C144_printed",
    "C144_disabled_partial",
    "C144_names",
    "C144_rewrite_alone",
    "C144_all_disabled",
    "C144_disabled_refuted"
   ],
   "note": "holds but for custom DNS with a zone (refuted: printed as disabled, but answers from the zone)"
  },
  {
   "property": "C145",
   "status": "partial",
   "theorems": [
    "C145_restored",
    "C145_text",
    "C145_json",
    "C145_levels",
    "C145_other_messages",
    "C145_laid_out",
    "C145_headings",
    "C145_lists",
    "C145_counts",
    "C145_upstreams",
    "C145_mappings",
    "C145_values",
    "C145_further_values",
    "C145_redis_passwords",
    "C145_target",
    "C145_list_passwords_refuted",
    "C145_other_messages_refuted"
   ],
   "note": "Refuted: passwords in the addresses of lists are printed, and messages of other parts of the program get the indentation while the configuration is printed. The target's password is hidden only if it is written as a URL (C103). Texts of durations, addresses and records are arbitrary; time stamps and colours are not modelled."
  },
  {
   "property": "C146",
   "status": "partial",
   "theorems": [
    "C146_line",
    "C146_names_once",
    "C146_configured",
    "C146_level",
    "C146_instance",
    "C146_writers",
    "C146_written_refuted"
   ],
   "note": "Refuted: with the log level warn or higher the query log on the console is empty although it is configured."
  },
  {
   "property": "C147",
   "status": "partial",
   "theorems": [
    "C147_table",
    "C147_refused",
    "C147_started",
    "C147_doh",
    "C147_started_refuted",
    "C147_metrics_refuted"
   ],
   "note": "Refuted: a path of the metrics without a slash at its start is accepted and makes the start panic; a path of the metrics may replace another route. The search of go-chi/chi is modelled for the registered patterns; paths of the metrics with braces or stars are not modelled."
  },
  {
   "property": "C148",
   "status": "partial",
   "theorems": [
    "C148_headers",
    "C148_read",
    "C148_credentials",
    "C148_preflight",
    "C148_credentials_refuted",
    "C148_control_refuted"
   ],
   "note": "Refuted: credentials are announced but never usable, and pages of other origins can control the server. go-chi/cors is modelled for the options which are set; the browser is the CORS check of the Fetch standard in HttpSpec.v."
  },
  {
   "property": "C149",
   "status": "partial",
   "theorems": [
    "C149_links",
    "C149_metrics_link",
    "C149_limits_refuted"
   ],
   "note": "Refuted: three documented limits of downloads do not limit downloads. The contents of the pages are not modelled."
  },
  {
   "property": "C150",
   "status": "partial",
   "theorems": [
    "C150_prefetches",
    "C150_hits",
    "C150_silent",
    "C150_names_partial",
    "C150_names_exact",
    "C150_names_refuted",
    "C150_useless_refuted"
   ],
   "note": "After a flush the gauge of names is stale until the next lookup; a prefetch whose answer has TTL 0 is counted though nothing is stored."
  },
  {
   "property": "C151",
   "status": "partial",
   "theorems": [
    "C151_clean_up_partial",
    "C151_for_ever_refuted"
   ],
   "note": "What one clean-up makes of an expired entry is exact.  An answer with TTL 0 to a prefetch leaves the expired entry in place, and it is served as long as the upstream keeps answering so."
  },
  {
   "property": "C152",
   "status": "partial",
   "theorems": [
    "C152_tls",
    "C152_https_partial",
    "C152_https_direct",
    "C152_plain",
    "C152_host_partial",
    "C152_redirect_refuted",
    "C152_common_name_refuted",
    "C152_path_refuted",
    "C152_id_refuted",
    "C152_host_refuted"
   ],
   "note": "Full for tcp-tls and tcp+udp, and for https if the upstream does not redirect and the path is one by RFC 3986.  Refuted: a redirection to http sends the question in the clear; a common name is accepted for plain DNS and ignored; a path with wrong percent-encoding is accepted and no question is ever sent; ids are not compared over https; Host lacks the port and the brackets of IPv6 addresses."
  },
  {
   "property": "C153",
   "status": "partial",
   "theorems": [
    "C153_sent",
    "C153_private_partial",
    "C153_start_refuted"
   ],
   "note": "Full for groups that have started, if those who hold the certificate of a https upstream do not redirect (C152).  Refuted while a group starts with the strategy fast: then questions of clients go to the bootstrap DNS, which may be plain."
  },
  {
   "property": "C154",
   "status": "proved",
   "theorems": [
    "C154_complaints",
    "C154_reported",
    "C154_before",
    "C154_same_reading",
    "C154_canceled",
    "C154_log",
    "C154_hosts_log"
   ],
   "note": "line numbers and counts do not overflow; bufio.Scanner as in C08"
  },
  {
   "property": "C155",
   "status": "proved",
   "theorems": [
    "C155_hosts_file",
    "C155_list"
   ],
   "note": "texts of the errors of IDNA and regexp.Compile are parameters"
  },
  {
   "property": "C156",
   "status": "partial",
   "theorems": [
    "C156_kept_partial",
    "C156_unlimited_partial",
    "C156_logged",
    "C156_gone",
    "C156_policy",
    "C156_unlimited_refuted",
    "C156_restarts_refuted"
   ],
   "note": "Refuted for Timescale without a retention and for processes that restart more often than every 12 hours; proved for everything else. Chunks and policies of TimescaleDB as documented."
  },
  {
   "property": "C157",
   "status": "partial",
   "theorems": [
    "C157_ready_partial",
    "C157_again",
    "C157_recovers",
    "C157_first",
    "C157_postgres_never",
    "C157_postgres_refuted",
    "C157_error_refuted",
    "C157_changed_refuted"
   ],
   "note": "Refuted for PostgreSQL (no primary key), for other errors which contain 1060, and for a changed retention of Timescale."
  },
  {
   "property": "C158",
   "status": "partial",
   "theorems": [
    "C158_failed",
    "C158_one",
    "C158_time",
    "C158_only_replaced",
    "C158_all_replaced",
    "C158_downloads_refuted",
    "C158_refresh_refuted"
   ],
   "note": "as stated it is proved; the documented meanings do not hold: failed tries of downloads that succeed are counted as failed downloads (C158_downloads_refuted), and the timestamp of the last list refresh is renewed though another group could not be loaded (C158_refresh_refuted)"
  },
  {
   "property": "C159",
   "status": "partial",
   "theorems": [
    "C159_strong",
    "C159_accepts",
    "C159_certificate",
    "C159_starts",
    "C159_self_signed",
    "C159_http2_refuted",
    "C159_renewal_refuted",
    "C159_any_name_refuted"
   ],
   "note": "as stated it is proved; what does not hold: HTTP/2 is never agreed on (C159_http2_refuted), renewed certificate files are not taken over while running (C159_renewal_refuted), the wildcard of the generated certificate is not for ordinary names (C159_any_name_refuted)"
  },
  {
   "property": "C160",
   "status": "partial",
   "theorems": [
    "C160_lines_partial",
    "C160_info_partial",
    "C160_quiet",
    "C160_letters",
    "C160_prefetch_ok",
    "C160_blocked_refuted",
    "C160_list_match_refuted",
    "C160_custom_refuted",
    "C160_answer_refuted",
    "C160_loop_refuted",
    "C160_prefetch_refuted"
   ],
   "note": "every line is characterised: clean, one of seven kinds of debug lines which show a name or an answer, or the error line of a CNAME loop; that the property as a whole does not hold is shown by the six refutations; the fields 'prefix' and trace lines naming the next resolver are left out"
  },
  {
   "property": "C161",
   "status": "proved",
   "theorems": [
    "C161_cached_served"
   ],
   "note": ""
  },
  {
   "property": "C162",
   "status": "proved",
   "theorems": [
    "C162_special_use_answered"
   ],
   "note": ""
  },
  {
   "property": "C163",
   "status": "partial",
   "theorems": [
    "C163_filtered_type",
    "C163_short_name_partial",
    "C163_short_name_refuted"
   ],
   "note": "the reply to a short name has the code and no records, but not the number of the query (refuted by a concrete case)"
  },
  {
   "property": "C164",
   "status": "partial",
   "theorems": [
    "C164_explained_partial",
    "C164_others_unchanged",
    "C164_filtered_refuted",
    "C164_short_name_refuted"
   ],
   "note": "holds for all kinds but the two that are refused before the EDE resolver; for these refuted by concrete cases"
  },
  {
   "property": "C165",
   "status": "proved",
   "theorems": [
    "C165_upstream_screened",
    "C165_cached_screened"
   ],
   "note": ""
  },
  {
   "property": "C166",
   "status": "proved",
   "theorems": [
    "C166_failure_told",
    "C166_zone_failure_told"
   ],
   "note": ""
  },
  {
   "property": "C167",
   "status": "proved",
   "theorems": [
    "C167_custom_reverse",
    "C167_hosts_reverse"
   ],
   "note": "without custom rewriting rules"
  },
  {
   "property": "C168",
   "status": "proved",
   "theorems": [
    "C168_rewritten_zone_answered",
    "C168_passed_on"
   ],
   "note": "exactly one rule applies to the name; see C79 for several"
  },
  {
   "property": "C169",
   "status": "proved",
   "theorems": [
    "C169_custom_rewritten"
   ],
   "note": "exactly one rule applies to the name, records other than CNAME"
  },
  {
   "property": "C170",
   "status": "partial",
   "theorems": [
    "C170_target_blocked_partial",
    "C170_target_resolved",
    "C170_target_blocked_refuted"
   ],
   "note": "the lists count as for the client without its names; for clients restricted by name the full statement is refuted"
  },
  {
   "property": "C171",
   "status": "partial",
   "theorems": [
    "C171_same_client_partial",
    "C171_group_partial",
    "C171_address_kept",
    "C171_by_address",
    "C171_group_refuted",
    "C171_shared_cache_refuted"
   ],
   "note": "Proved for every query that does not lead to a custom CNAME, and for every query of a client whose group does not depend on its names, unless answered from the cache. False otherwise: C171_group_refuted (the target of a custom CNAME is asked for at the default group) and C171_shared_cache_refuted (a client gets the cached answer of another group)."
  },
  {
   "property": "C172",
   "status": "partial",
   "theorems": [
    "C172_nothing_added",
    "C172_network_partial",
    "C172_prefetch",
    "C172_leak_refuted"
   ],
   "note": "C172_nothing_added and C172_prefetch hold without conditions. The bound to the configured network holds on the conditions of C43 (C172_network_partial); C172_leak_refuted shows that what C43 lets through gets to the upstreams."
  },
  {
   "property": "C173",
   "status": "partial",
   "theorems": [
    "C173_bounded_partial",
    "C173_once_refuted"
   ],
   "note": "Bounded by the number of questions, once for one question; C173_once_refuted: a query with two questions is sent twice, each time with both. Custom CNAMEs (which ask for other names) are left out."
  },
  {
   "property": "C174",
   "status": "proved",
   "theorems": [
    "C174_deny_more",
    "C174_allow_more",
    "C174_first_deny_list_refuted",
    "C174_first_allow_list_refuted"
   ],
   "note": "For entries of configured lists; C174_first_*_refuted: false for whole lists, namely for the first deny list of a group with allow lists only and for the first allow list of a group without deny lists."
  },
  {
   "property": "C175",
   "status": "proved",
   "theorems": [
    "C175_own_lists",
    "C175_order"
   ],
   "note": "Stated for any two servers with correct list lookups (C04) over the spec of BlockingSpec.v of which groups apply."
  },
  {
   "property": "C176",
   "status": "partial",
   "theorems": [
    "C176_disable_partial",
    "C176_disable_refuted"
   ],
   "note": "Needs that the disabled groups of the client have no entries on allow lists; C176_disable_refuted: disabling a group with an allow list blocks a name that was answered."
  },
  {
   "property": "C177",
   "status": "proved",
   "theorems": [
    "C177_spelling",
    "C177_zone"
   ],
   "note": "Letter case of ASCII letters, as names are given to the program by the DNS library."
  }
 ]
}
