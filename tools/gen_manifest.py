#!/usr/bin/env python3
"""Write MANIFEST.json from the table below."""
import json, os
root = os.path.dirname(os.path.dirname(os.path.abspath(__file__)))
C = {}
def c(pid, status, theorems, note): C[pid] = dict(property=pid, status=status, theorems=theorems, note=note)

c("C01", "proved", ["C01_wildcard_exact", "wildcard_means_subdomain"], "any set of wildcard entries, any query name without empty labels")
c("C02", "proved", ["C02_plain_exact"], "any list of plain entries, any query name")
c("C03", "partial", ["C03_entry_goes_to_one_matcher_partial", "C03_single_slash_crashes_refuted", "C03_slash_line_crashes_refuted"], "holds for every entry except \"/\", which crashes the load")
c("C04", "proved", ["C04_lookup_exact_after_any_history"], "")
c("C05", "proved", ["C05_refresh_leaves_other_groups"], "")
c("C06", "proved", ["C06_failed_refresh_keeps_content", "C06_refresh"], "")
c("C07", "partial", ["C07_lookup_during_refresh_partial", "C07_lookup_during_refresh_refuted"], "atomicity fails when a name moves between matchers; no false match and same-matcher stability are proved")
c("C08", "proved", ["C08_error_budget_exact", "C08_lines", "C08_every_source_covered"], "")
c("C09", "proved", ["C09_comments_and_blanks_neutral"], "ASCII white space")
c("C10", "proved", ["C10_hosts_file_line_exact", "C10_hosts_line_in_list"], "net.ParseIP is an oracle")
c("C11", "proved", ["C11_domain_name_grammar", "C11_list_line_grammar"], "net.ParseIP, IDNA conversion and regexp.Compile are oracles")
c("C71", "proved", ["C71_list_source_means_its_lines"], "sources without malformed lines; for malformed ones see C08")
c("C12", "proved", ["C12_size_bounded", "C12_lru_eviction", "C12_present_was_used", "C12_no_other_eviction"], "all interleavings of puts, lookups, clears and clean-up steps; golang-lru itself is modelled, not part of /repo")
c("C13", "proved", ["C13_get_last_put", "C13_clear"], "")
c("C14", "partial", ["C14_undisturbed_clean_up_partial", "C14_only_condemned_removed", "C14_valid_entry_removed_refuted"], "exact when the clean-up is not interleaved with stores; a store during a clean-up can be lost (witness); a replacement without positive lifetime leaves the expired entry in place")
c("C15", "partial", ["C15_expired_value_served_refuted", "C15_remaining_time_tells_partial", "C15_gone_after_clean_up_partial"], "false as stated: lookups do not check the expiry (witness); the remaining time reported is exact and the next undisturbed clean-up removes the entry")
c("C16", "proved", ["C16_prefetch_exact", "C16_rare_names_never_prefetched"], "exact when the name cache has room for the looked-up names and fewer than 2^32 operations; without these no rare name is re-fetched; a racing increment of the same counter is not modelled")
c("C72", "proved", ["C72_kept_until_expiry"], "")
c("C17", "proved", ["C17_cache_key_separates", "C17_cache_key_decodes"], "16-bit types")
c("C18", "partial", ["C18_cached_ttls_count_down_partial", "C18_served_ttl_never_raised", "C18_cached_ttl_nxdomain_refuted"], "proved for positive answers to client queries and from peers; false for NXDOMAIN answers that contain records and for prefetched entries")
c("C19", "partial", ["C19_reply_ttls_clamped_partial", "C20_stored_iff_cacheable", "C19_prefetched_ttl_above_max_refuted"], "prefetched records are cached unclamped (witness)")
c("C20", "proved", ["C20_stored_iff_cacheable", "C20_bypass", "C20_lookup_or_forward", "C20_prefetch_stores_truncated_refuted"], "answers to client queries; prefetching stores truncated answers too (witness)")
c("C21", "proved", ["C21_cached_reply_belongs_to_request", "C22_cached_reply_correct"], "")
c("C22", "proved", ["C22_cached_reply_correct", "C22_entry_changes_only_by_delivery", "C22_prefetch_asks_same_question", "C22_two_questions_poison_refuted"], "all interleavings at the accesses to the cache; the answer to a request with several questions is cached for each of them (witness)")
c("C23", "proved", ["C23_flush_empties", "C23_flush_inflight_refuted"], "until the next answer is stored; an answer received before the flush may be stored after it (witness)")
c("C24","proved",["C24_blocked_iff","C24_setting_of_lists"],"For every configuration, client, list content and request; for the first question decided by name. C24_setting_of_lists discharges the hypothesis on list lookups from C04.")
c("C25","proved",["C25_groups_exact"],"filepath.Match, CIDR membership and IP printing are oracles; independent of map iteration order.")
c("C26","proved",["C26_allowlist_only_blocks_rest"],"")
c("C27","proved",["C27_answers_screened"],"Answers to allow-listed questions are not screened (example C27_allowed_question_not_screened).")
c("C28","proved",["C28_block_answer_shape","C24_blocked_iff"],"")
c("C29","proved",["C29_blocked_never_forwarded"],"")
c("C30","proved",["C30_temporary_disable"],"Provided no earlier timer callback is still waiting for the lock when the command is executed (see C32).")
c("C31","partial",["C31_rejected_keeps_status_partial","C31_rejected_changes_nothing_refuted"],"False as stated: a rejected command stops the timer that would re-enable blocking. Proved: rejection iff unknown group; the current status is unchanged; nothing at all changes when no timer is running.")
c("C32","partial",["C32_last_command_wins_partial","C32_last_command_wins_refuted"],"False as stated: a timer that has fired but not yet obtained the lock overrides a newer command. Proved for all histories in which no such callback is pending at the last accepted command.")
c("C73","partial",["C73_queries_progress_partial","C73_no_deadlock_refuted"],"False: isGroupDisabled takes the read lock again while groupsToCheckForClient holds it; with a waiting writer all goroutines block forever. Proved: queries alone always progress.")
c("C74","partial",["C74_disable_all_partial","C74_disable_all_refuted"],"False: groups with only allow lists are not among the disabled ones. Proved: nothing is blocked for being on a deny list.")
c("C75","partial",["C75_fqdn_addresses_partial", "C75_history","C75_fqdn_recovers_refuted"],"Second half false: an identifier that cannot be resolved at start is never looked up again.")
c("C33","proved",["C33_answers_exact","C33_others_passed_on"],"For every mapping and zone in which no two names of the mapping (or of the zone) denote the same domain; iff with a declarative meaning of the configuration.")
c("C34","proved",["C34_terminates","C34_cycle_no_answer","C34_loop_error_only_for_cycles"],"Cancellation by the context is not modelled.")
c("C35","proved",["C35_right_records"],"")
c("C36","partial",["C36_reverse_partial","C36_letter_case_refuted"],"Proved for reverse names in lower case; in another letter case the lookup is not recognised (refuted).")
c("C63","partial",["C63_roundtrip","C63_printed_wellformed","C63_only_wellformed_partial","C63_only_wellformed_refuted"],"Round trip proved for all addresses. 'Only well-formed' proved for IPv4, and for IPv6 with one-character labels; false in general (labels like 'ab' are accepted as digits).")
c("C76","partial",["C76_unsupported_harmless_refuted","C35_right_records"],"False: e.g. an MX record makes all queries for its name fail. Holds for domains all of whose records are of supported types.")
c("C37","proved",["C37_most_specific_zone","C37_responsible_unique"],"Zones distinct up to letter case. The upstream group is an arbitrary oracle; exactly one destination is asked, with the lower-cased name.")
c("C38","partial",["C38_invisible","C38_question_restored","C38_later_request_partial","C38_later_request_refuted"],"Asked name and restored names: proved for all rules, orders and inner resolvers. The last clause is false: with conditional upstreams inside and no applicable rule, a fallback sees the name in lower case (refuted); it holds whenever a name was rewritten or the inner resolver leaves the message alone (partial).")
c("C39","proved",["C39_fallback_exact"],"Answer == nil is modelled as an empty answer list.")
c("C77","partial",["C77_question_echoed_partial","C77_question_echoed_refuted"],"False for names with upper-case letters (refuted): the answer carries the lower-cased name. Proved for lower-case names.")
c("C78","partial",["C78_cname_with_rewriting_refuted"],"False: with any rewrite rule the no-op resolver's response without message is dereferenced, for every such CNAME; a crash of the query. Without rewriting the property is C33/C34.")
c("C79","partial",["C79_deterministic_partial","C79_deterministic_refuted"],"False for overlapping rules (refuted); proved if no rule is about a sub-domain of another.")
c("C40","partial",["C40_special_use_partial","C40_disabled","C40_letter_case_refuted"],"Exact for lower-case names, against zones listed from the RFCs. Missing: letter case; the lookup is case-sensitive, so e.g. Secret.Onion is forwarded (refuted).")
c("C41","proved",["C41_filtered"],"")
c("C42","partial",["C42_fqdn_only_partial","C42_response_matches_refuted"],"Exactly single-label names are rejected. The reply has no id, question or response flag (refuted).")
c("C43","partial",["C43_only_network_partial","C43_leaks_refuted"],"Proved where the mask of the client's family is set, or none is and the option occurs once. Refuted: default configuration, mask of the other family only, repeated option.")
c("C44","partial",["C44_set","C44_get","C44_remove_partial","C44_remove_refuted","C44_remove_record"],"Removing deletes only the first of several options of the kind (refuted); setting replaces all.")
c("C45","proved",["C45_extended_errors","C45_transparent"],"")
c("C80","partial",["C80_no_crash_refuted","C80_no_crash_partial","C80_mask_config"],"An IPv4 client with only an IPv6 mask above 32 crashes the handler (refuted); proved otherwise.")
c("C81","partial",["C81_no_opt_unasked_refuted"],"False: the EDE resolver adds an OPT record regardless of the request.")
c("C82","proved",["C82_client_address"],"")
c("C46","partial",["C46_all_or_nothing","C46_error_reported","C46_answer","C46_last_entry_partial","C46_last_entry_refuted"],"Loading is all-or-nothing for all histories (proved). The last entry wins only if the name is not the name of one entry and an alias of another; names take precedence over later aliases (refuted).")
c("C83","partial",["C83_atomic_reload_refuted","C83_atomic_reload_partial"],"The table consists of four references assigned without lock; refuted for names changing between name and alias, proved otherwise.")
c("C84","partial",["C84_letter_case_partial","C84_letter_case_refuted"],"Names with upper-case letters or final dot in the file are never found (refuted); spelling of the query does not matter.")
c("C85","partial",["C85_reverse_partial","C85_reverse_refuted"],"The names of one entry in force with that address are returned. With several entries for the address only one, chosen by map order, is used (refuted).")
c("C86","proved",["C86_only_served_entries"],"")
c("C47","partial",["C47_precedence","C47_names_partial","C47_names_determined","C47_lookup_question","C47_found_names_kept","C47_some_name_refuted"],"Precedence proved for all histories of requests, lookups, flushes and clean-up steps, and the names found are the specified ones when singleNameOrder is empty or contains 1. Otherwise a client whose lookup has no name at the listed positions ends up with no name at all, not even its IP (C47_some_name_refuted). net.IP.String is an oracle assumed to tell the configured addresses apart.")
c("C48","partial",["C48_group_partial","C48_tree_partial","C48_creation","C48_ip_spelling_refuted"],"Precedence proved for every iteration order, including that the chosen group exists. A group for an exact IP is found only if it is written as Go prints the address: 'FD00::1' is not (C48_ip_spelling_refuted). filepath.Match, CIDR membership and IP texts are oracles.")
c("C87","partial",["C87_flush_forgets_partial","C87_failure_forgotten_refuted"],"False: the result of a failed lookup is cached for an hour like a success. After a flush the lookup is done again.")
c("C88","partial",["C88_unambiguous_partial","C88_same_group_refuted"],"False when several groups match: the first one of a map iteration is taken. Proved when each name and the address match at most one group.")
c("C49","proved",["C49_strict_first","C49_strict_determined"],"")
c("C50","proved",["C50_parallel","C50_random","C50_single"],"For groups of resolvers with different identities; arrival order and random numbers arbitrary.")
c("C51","proved",["C51_retries","C51_first_non_timeout","C51_dead_client"],"A further attempt also needs a client that is still waiting.")
c("C52","partial",["C52_rotation_partial","C52_index_in_range","C52_forward","C52_one_by_one","C52_skip_refuted","C52_fourth_never_refuted","C52_refused_address_refuted"],"Every request starts again with the first address and makes at most three attempts: a fourth address is never used; errors other than timeouts are not retried at another address. Rotation proved for up to three addresses; the index stays in range in every interleaving of concurrent calls and, with fewer calls than addresses, moves only to the following address; with more calls a late one can skip addresses.")
c("C89","proved",["C89_weight","C89_recovers","C89_failure_noted","C89_share"],"The weighted choice of the library is modelled as intervals of the random number.")
c("C90","proved",["C90_race","C90_complete_if_any"],"")
c("C91","partial",["C91_servfail_partial","C91_tls_refuted","C91_no_clear_text"],"True for plain DNS over UDP/TCP; over TLS and HTTPS a SERVFAIL counts as an answer and the other upstreams are not used.")
c("C92","partial",["C92_addresses_partial","C92_never_empty","C92_dial_no_crash","C92_family_partial","C92_dial_family_partial","C92_one_family_refuted","C92_usable_iff","C92_literal_refuted"],"False when one of the lookups fails with an error: the addresses found by the other one are dropped. The IP version clause needs that A answers carry only IPv4 addresses and AAAA answers only IPv6 ones; a host given as an address, or with configured addresses, is used whatever the IP version (refuted by a concrete case). C92_usable_iff says exactly when a host name can be used and with which addresses.")
c("C93","proved",["C93_fail_on_error","C93_other_strategies"],"State after initialisation has finished.")
c("C94","partial",["C94_https_partial","C94_unrelated_reply_refuted"],"Status, content type and well-formedness are checked, id and question are not.")
c("C53","partial",["C53_one_reply","C53_no_question","C53_failure_partial","C53_reply_passed","C53_health_check","C53_fqdn_only_refuted"],"False with fqdnOnly: that reply has id 0 and is not marked as a response. One message is written for every query; the SERVFAIL reply matches if the chain keeps id and question of the request; replies of the chain keep their header. Failures of the writer are not modelled.")
c("C54","partial",["C54_fits_partial","C54_udp_partial","C54_connection","C54_truncation_marked","C54_no_needless_truncation","C54_tcp_edns_refuted","C54_long_opt_refuted","C54_ecs_drops_size_refuted"],"False in three cases: over TCP the UDP size of the OPT record limits the answer; a long OPT record of the reply is never cut; the ECS resolver may remove the client's OPT record. Lengths of records are an arbitrary measure that compression never enlarges.")
c("C55","proved",["C55_base64","C55_get","C55_post"],"Unpacking of messages is an arbitrary function.")
c("C56","partial",["C56_max_age_partial","C56_no_answer","C56_zero_ttl_refuted"],"False when a record has TTL 0: it is ignored.")
c("C57","proved",["C57_client_id","C57_no_client_id","C57_requests"],"An empty x gives no client id.")
c("C95","partial",["C95_http_client_partial","C95_bare_address","C95_two_proxies_refuted"],"A header with several addresses is not understood: the client has no address.")
c("C58","partial",["C58_fields","C58_result","C58_offered","C58_order","C58_dropped_only_full","C58_complete","C58_drained","C58_stop_refuted"],"All schedules of offers and writes of the channel of 1000 entries. Entries still queued when the server stops are not written (C58_stop_refuted). That the resolver never waits is the shape of the model: an offer is one step that never blocks.")
c("C59","partial",["C59_batches","C59_once_partial","C59_never_twice","C59_content","C59_failed_batch_refuted"],"False when the database refuses a batch: its entries are lost. Never twice and in order in any case; exactly once with a working database.")
c("C60","proved",["C60_no_separator"],"")
c("C61","partial",["C61_exactly_partial","C61_own_files","C61_calendar","C61_unlimited","C61_database","C61_future_refuted","C61_foreign_refuted"],"False for files dated in the future (removed at once on amd64) and for foreign files that look like logs. Age in full days of 24 hours; calendar days in zones without clock changes. Float rounding is not modelled.")
c("C62","partial",["C62_obfuscate","C62_hidden","C62_entry","C62_blocking_debug_refuted"],"Holds for the query log and where Obfuscate is used; the debug lines of the blocking resolver show the name.")
c("C96","proved",["C96_record","C96_files"],"The reader is RFC 4180 with tabs and without conversion of line ends.")
c("C97","partial",["C97_apart_partial","C97_same_file_refuted"],"False for names that differ only in special characters; proved for clients with one name of letters, digits, minus and underscore, and years before 10000.")
c("C98","partial",["C98_fallback","C98_zero_attempts_refuted"],"With creationAttempts 0 the start-up never ends if the target does not work.")
c("C64","partial",["C64_sync_partial","C64_no_echo_partial","C64_delivered_partial","C64_keys","C64_key_refuted"],"Proved for every history and interleaving of any number of instances with distinct ids, as long as the keys and group names are valid UTF-8, which C64_keys shows for all ASCII names and type numbers with both bytes below 128. Refuted for other types: the key of an ANY question is changed by the JSON encoding. The DNS codec is an oracle (what was packed unpacks to the same message).")
c("C99","partial",["C99_returns_partial","C99_stall_refuted"],"False in general: PublishCache is a blocking send; once 1000 replies wait, queries wait until Redis takes one. Proved that it returns at once below that number.")
c("C100","partial",["C100_store_key","C100_age_partial","C100_loaded","C100_last_moment_refuted","C100_negative_refuted"],"Proved (up to the rounding of Redis, half a second) for replies with records as long as half a second is left. Refuted in the last half second, where the full time to live comes back, and for replies without records, kept for 2^31-1 seconds.")
c("C101", "proved", ["C101_read","C101_valid","C101_round_trip","C101_no_address","C101_distinct","C101_unambiguous","C101_clients"], "net.ParseIP and net.IP.String are transcribed from Go's standard library; IPv4 in IPv6 form is identified with IPv4, as in the rest of the model.")
c("C67","partial",["C67_minutes_partial","C67_exact_minutes","C67_signs","C67_overflow_refuted","C67_units","C67_only","C67_advice_refuted"],"A number alone is that many minutes up to 153722867 (292 years); above that the multiplication overflows silently (refuted with 153722868, a negative duration). The values of texts with units are proved for all texts whose sum fits; the value of a decimal fraction (float64 arithmetic in Go) is an arbitrary function. The text advised by the deprecation warning ('30 min') is refused.")
c("C68","partial",["C68_parts","C68_unambiguous","C68_round_trip","C68_common_name_refuted"],"parse_upstream accepts exactly the texts of the grammar upstream_text with exactly these parts. Printing and parsing gives the same upstream without its common name; the common name is lost (refuted as a full round trip).")
c("C69","partial",["C69_port_partial","C69_zero_refuted"],"Port texts are characterised exactly; port 0 and white space around the number are accepted, so 'between 1 and 65535' is refuted.")
c("C105","proved",["C105_listen"],"Blanks after a comma are kept in the part (see Example C105_blank).")
c("C65","partial",["C65_moved_iff_default","C65_reported","C65_others_kept","C65_two_deprecated_refuted"],"Proved for all 25 deprecated options and all values, with the documented meaning of each, provided that no second deprecated option for the same new option is used. Without that proviso it is refuted: blocking.startStrategy is dropped when blocking.failStartOnListError is used too, with a log line claiming that the new option is set.")
c("C102","partial",["C102_new_wins_partial","C102_new_wins_refuted"],"Holds if the explicit value differs from the default. Refuted otherwise: an explicit value that equals the default is overridden by the deprecated option (refreshPeriod 4h explicit, deprecated 1h).")
c("C106","proved",["C106_validated","C106_kept"],"")
c("C66","proved",["C66_returned","C66_returns","C66_returns_once","C66_fast_returns_at_once","C66_once","C66_complete_at_return","C66_fast_completes"],"")
c("C107","partial",["C107_periodic_only","C107_rounds","C107_go_on","C107_stopped","C107_no_overlap","C107_after_cancel_refuted","C107_no_overlap_refuted"],"Two parts are refuted: with the strategy fast the first load may overlap the first periodic refresh, and a refresh may be started after the context is done when a tick is waiting (select chooses at random). The rest is proved for all schedules.")
c("C103","partial",["C103_url_hidden_partial","C103_rest_shown","C103_mysql_shown","C103_hidden_refuted","C103_other_forms_refuted","C103_empty_password_refuted","C103_fragment_refuted"],"Proved for targets written as URLs whose password needs no escaping. Refuted for every target in the form of the MySQL driver, which is the one in the documentation (the port in tcp(host:port) is no valid port of a URL, so the target is logged as it is), for escaped passwords, for the key-value form of PostgreSQL, and for targets without scheme with a URL in their parameters. An empty password makes the target unreadable (stars around every character), and a wrong escape in the fragment shows the password.")
c("C104","partial",["C104_understood","C104_shown_is_read","C104_inline_shown","C104_inline_text","C104_file_names_refuted","C104_dots_refuted"],"Refuted in two points: files whose name begins with http are taken for downloads, and further lines of an inline list are dropped without dots. The rest is proved for all texts.")
c("C70","partial",["C70_sources_in_order_partial","C70_first_source_answers_partial","C70_source_found_partial","C70_cache_begins","C70_cache_continues","C70_conditional_same",
  "C70_block_answer_without_upstream_refuted","C70_custom_without_upstream_refuted","C70_cached_without_upstream_refuted"],
  "Proved for the whole chain as assembled by createQueryResolver: for requests with one question, the sources consulted are exactly those up to the one that answered, in the order of precedence, each once, and the kind of the response names it, unless the answer was replaced by a block answer because of its content (C70_sources_in_order_partial). Without rewriting rules, for questions other than PTR and with lower-case names, the one that answered is the first that has an answer by the separate specification of each source (C70_first_source_answers_partial). The full claim is false of the code in three ways, each with a witness: screening replaces upstream answers by block answers, custom CNAMEs to other names ask the rest of the chain, and with several questions the cache may answer after the upstreams were asked. Missing: rewriting rules, PTR and upper-case names in the second theorem.")
c("C108","partial",["C108_no_crash_partial","C108_mask_refuted","C108_cname_refuted","C108_label_refuted"],
  "For the whole chain: with upstreams that answer with a message or an error, masks that suit both address families and, if rewriting rules are configured for custom DNS, no custom CNAMEs, and, if metrics are enabled, names of clients in UTF-8, every request with a question gets a result and every response has a message. Missing: the excluded cases, for which the claim is false (witnesses: a client identifier of one byte FF with metrics enabled; an IPv6 mask longer than 32 bits without IPv4 mask; a custom CNAME to a name outside together with any rewriting rule).")
c("C109","partial",["C109_sound","C109_exact_partial","C109_slash_refuted","C109_client_partial","C109_plain"],"Exact for names without a slash; with a slash a name accepted by the pattern can be missed. ASCII texts.")
c("C110","partial",["C110_network","C110_no_address","C110_groups_partial","C110_address_text_refuted","C110_upstreams_partial"],"Refuted for identifiers that write an address in another than the canonical form. Names without slash, requests with a valid address.")
c("C111","partial",["C111_disable","C111_bad_duration","C111_unknown_group_partial","C111_names_group","C111_enable","C111_one_line","C111_escape","C111_status_partial","C111_last_second_refuted","C111_announced_refuted","C111_negative_refuted"],"Refuted: in the last second the status looks like a pause for ever; after a refused command the status announces a re-activation that does not come; negative durations are accepted. A refused command for an unknown group loses the running timer (C31).")
c("C112","partial",["C112_one_writer_partial","C112_two_writers_refuted","C112_late_timer_refuted"],"Agreement if all commands go to one instance and no timer fires; refuted for two writers and for timers of peers. Delivery by Redis taken as reliable and ordered.")
c("C113","partial",["C113_success","C113_failure","C113_endless","C113_cancelled_refuted","C113_shutdown_refuted"],"Number of tries, cooldowns, result and closing of bodies are proved for all answers of the network. The end of the context does not end a download (refuted), with zero attempts it never ends (refuted).")
c("C114","partial",["C114_refresh","C114_all_fail","C114_kind_of_failure","C114_missing_source_refuted","C114_truncated_refuted"],"Proved if all sources can be read with at most the allowed number of lines without a meaning, and if no source can be opened. Refuted in between: one missing source unblocks its domains; a download that breaks off or an over-long line truncates the list without an error.")
c("C115","partial",["C115_text","C115_refused","C115_answers","C115_case_refuted"],"Proved for mappings without names that differ only in case or a final dot; with such names the answer depends on the map iteration order (refuted).")
c("C116","partial",["C116_zone_partial","C116_case_refuted","C116_hidden_refuted"],"Proved if names denoting the same domain are written alike. Refuted otherwise: spellings of one name overwrite each other, and a zone record hides the mapping of its name.")
c("C117","proved",["C117_text","C117_asked"],"")
c("C118","partial",["C118_trouble","C118_directory","C118_link_refuted","C118_twice_refuted"],"Full for directories; refuted for a configured path that is a link to a directory, and files may be decoded twice through links.")
c("C119","partial",["C119_outcome","C119_whole_partial","C119_first_document","C119_documents_refuted"],"The whole text is decoded only if it has no document markers; otherwise refuted. What is decoded then is exactly the first document.")
c("C120","partial",["C120_duration","C120_disable","C120_unknown_partial","C120_status_partial","C120_empty_refuted"],"Decimal fractions of units are assumed to be computed exactly; unknown groups still stop a running timer (C111); an empty name means all groups.")
c("C121","partial",["C121_address_partial","C121_flags_partial","C121_defaults","C121_ipv6_refuted","C121_refresh_refuted","C121_override_refuted"],"Hosts without colon; refuted for IPv6 addresses, for the command refresh and for the flags.")
c("C122","partial",["C122_validate_partial","C122_environment_refuted"],"Only if the path does not come from the environment; refuted otherwise.")
c("C123","proved",["C123_gauge","C123_groups_refuted"],"Refuted in addition: the gauge 0 does not mean that nothing is blocked (some groups may be disabled only).")
c("C124","partial",["C124_gauge_partial","C124_names","C124_entries","C124_overlap_refuted","C124_wildcard_refuted"],"If no group is refreshed twice at the same time, refuted otherwise; a wildcard that occurs twice counts twice.")
c("C125","partial",["C125_at_least_partial","C125_exact_partial","C125_bounded","C125_lookups","C125_flush_refuted","C125_overlap_refuted","C125_bootstrap_refuted"],"The gauge is exact until something is dropped, if puts do not overlap; refuted after a flush, for overlapping puts, and for lookups of the bootstrap, which count as well.")
c("C126","partial",["C126_counters","C126_query_partial","C126_filtered_refuted"],"Counters for every interleaving; through the chain for one question, names in UTF-8, and not for queries that are filtered or have no full name: those are not counted.")
c("C127","partial",["C127_answers_partial","C127_refuted"],"If the names of the client are UTF-8; otherwise metrics turn an answer into SERVFAIL.")
c("C128","partial",["C128_as_over_dns","C128_unknown_type","C128_command","C128_privacy","C128_privacy_refuted","C128_health_check_refuted"],"Proved without privacy mode and outside the zone of the health check.  Refuted otherwise: with log.privacy the answer of the interface is hidden too, so different answers look the same; names of the health check are given to the resolvers.")
c("C129","partial",["C129_responses_ignored","C129_one_answer","C129_refused","C129_resolved","C129_health_check","C129_queries_resolved","C129_healthcheck_command","C129_healthcheck_exact","C129_doh_questions_refuted"],"Proved for packets over UDP, TCP and TLS (given what miekg/dns unpacks).  Over HTTPS messages with several questions are resolved: with type AAAA filtered, a message with questions A and AAAA reaches the upstream server.")
c("C130","proved",["C130_refresh","C130_controls","C130_first"],"")
c("C131","partial",["C131_listeners","C131_starts","C131_plain","C131_empty_text_refuted"],"Proved for lists of addresses.  An empty text for addresses does not give an empty list: a listener on any free port is opened.")
c("C132","partial",["C132_reason","C132_noticed","C132_stops","C132_graceful","C132_stop_refuted"],"Proved; the graceful part needs that all DNS servers serve when the signal is taken: one that has not opened its socket makes Stop give up before the servers behind it (refutation).")
c("C133","proved",["C133_lists_as_written"],"Sources that can be read with few errors; the entry / is excluded since it makes the program panic (C03). Downloads, files, IDNA and regular expressions are parameters.")
c("C134","proved",["C134_written_is_blocked","C134_allowed_not_blocked","C134_unlisted_not_blocked"],"For the chain as assembled by createQueryResolver and the server's resolve; lists as loaded by C133. For reverse lookups and names with custom records or hosts entries see C70.")
c("C135","proved",["C135_custom_records_answered"],"Address, TXT and SRV records; CNAMEs are C36 and C70.")
c("C136","proved",["C136_hosts_answered"],"")
c("C137","proved",["C137_rest_resolved_upstream"],"The upstream tree as a whole is a parameter here; what it does is C10-C17.")
c("C138","proved",["C138_zone_answered","C138_zone_stays_private"],"With rewriting rules for conditional upstreams see C70 and C45.")
c("C139","partial",["C139_read","C139_forms","C139_checked","C139_empty_address_refuted"],"Reading and checking are characterised exactly; that all accepted addresses are addresses is refuted. YAML parsing of mappings with the internal field names and null values are outside.")
c("C140","partial",["C140_configured","C140_ends","C140_literal","C140_system","C140_looked_up","C140_asks","C140_ips_ignored_refuted"],"Termination and results proved for all configurations; use of addresses listed beside an address as host is refuted. The choice among upstreams is a parameter (see C55-C57).")
c("C141","partial",["C141_always_reloads","C141_hour_partial","C141_user_min","C141_hour_refuted"],"The hour holds without a largest time below it; with one it is refuted.")
c("C142","proved",["C142_enums","C142_round_trip","C142_log_fields","C142_tls","C142_timeout"],"generated enumerations, TLS version, timeout")
c("C143","proved",["C143_read","C143_filtered"],"types of queries that are filtered; the table of names of miekg/dns is a parameter")
c("C144","partial",["C144_printed","C144_disabled_partial","C144_names","C144_rewrite_alone","C144_all_disabled","C144_disabled_refuted"],"holds but for custom DNS with a zone (refuted: printed as disabled, but answers from the zone)")
c("C145","partial",["C145_restored","C145_text","C145_json","C145_levels","C145_other_messages","C145_laid_out","C145_headings","C145_lists","C145_counts","C145_upstreams","C145_mappings","C145_values","C145_further_values","C145_redis_passwords","C145_target","C145_list_passwords_refuted","C145_other_messages_refuted"],"Refuted: passwords in the addresses of lists are printed, and messages of other parts of the program get the indentation while the configuration is printed. The target's password is hidden only if it is written as a URL (C103). Texts of durations, addresses and records are arbitrary; time stamps and colours are not modelled.")
c("C146","partial",["C146_line","C146_names_once","C146_configured","C146_level","C146_instance","C146_writers","C146_written_refuted"],"Refuted: with the log level warn or higher the query log on the console is empty although it is configured.")
c("C147","partial",["C147_table","C147_refused","C147_started","C147_doh","C147_started_refuted","C147_metrics_refuted"],"Refuted: a path of the metrics without a slash at its start is accepted and makes the start panic; a path of the metrics may replace another route. The search of go-chi/chi is modelled for the registered patterns; paths of the metrics with braces or stars are not modelled.")
c("C148","partial",["C148_headers","C148_read","C148_credentials","C148_preflight","C148_credentials_refuted","C148_control_refuted"],"Refuted: credentials are announced but never usable, and pages of other origins can control the server. go-chi/cors is modelled for the options which are set; the browser is the CORS check of the Fetch standard in HttpSpec.v.")
c("C149","partial",["C149_links","C149_metrics_link","C149_limits_refuted"],"Refuted: three documented limits of downloads do not limit downloads. The contents of the pages are not modelled.")
c("C150","partial",["C150_prefetches","C150_hits","C150_silent","C150_names_partial","C150_names_exact","C150_names_refuted","C150_useless_refuted"],"After a flush the gauge of names is stale until the next lookup; a prefetch whose answer has TTL 0 is counted though nothing is stored.")
c("C151","partial",["C151_clean_up_partial","C151_for_ever_refuted"],"What one clean-up makes of an expired entry is exact.  An answer with TTL 0 to a prefetch leaves the expired entry in place, and it is served as long as the upstream keeps answering so.")
c("C152","partial",["C152_tls","C152_https_partial","C152_https_direct","C152_plain","C152_host_partial","C152_redirect_refuted","C152_common_name_refuted","C152_path_refuted","C152_id_refuted","C152_host_refuted"],"Full for tcp-tls and tcp+udp, and for https if the upstream does not redirect and the path is one by RFC 3986.  Refuted: a redirection to http sends the question in the clear; a common name is accepted for plain DNS and ignored; a path with wrong percent-encoding is accepted and no question is ever sent; ids are not compared over https; Host lacks the port and the brackets of IPv6 addresses.")
c("C153","partial",["C153_sent","C153_private_partial","C153_start_refuted"],"Full for groups that have started, if those who hold the certificate of a https upstream do not redirect (C152).  Refuted while a group starts with the strategy fast: then questions of clients go to the bootstrap DNS, which may be plain.")
c("C154","proved",["C154_complaints","C154_reported","C154_before","C154_same_reading","C154_canceled","C154_log","C154_hosts_log"],"line numbers and counts do not overflow; bufio.Scanner as in C08")
c("C155","proved",["C155_hosts_file","C155_list"],"texts of the errors of IDNA and regexp.Compile are parameters")
c("C156","partial",["C156_kept_partial","C156_unlimited_partial","C156_logged","C156_gone","C156_policy","C156_unlimited_refuted","C156_restarts_refuted"],"Refuted for Timescale without a retention and for processes that restart more often than every 12 hours; proved for everything else. Chunks and policies of TimescaleDB as documented.")
c("C157","partial",["C157_ready_partial","C157_again","C157_recovers","C157_first","C157_postgres_never","C157_postgres_refuted","C157_error_refuted","C157_changed_refuted"],"Refuted for PostgreSQL (no primary key), for other errors which contain 1060, and for a changed retention of Timescale.")
c("C158","partial",["C158_failed","C158_one","C158_time","C158_only_replaced","C158_all_replaced","C158_downloads_refuted","C158_refresh_refuted"],"as stated it is proved; the documented meanings do not hold: failed tries of downloads that succeed are counted as failed downloads (C158_downloads_refuted), and the timestamp of the last list refresh is renewed though another group could not be loaded (C158_refresh_refuted)")
c("C159","partial",["C159_strong","C159_accepts","C159_certificate","C159_starts","C159_self_signed","C159_http2_refuted","C159_renewal_refuted","C159_any_name_refuted"],"as stated it is proved; what does not hold: HTTP/2 is never agreed on (C159_http2_refuted), renewed certificate files are not taken over while running (C159_renewal_refuted), the wildcard of the generated certificate is not for ordinary names (C159_any_name_refuted)")
c("C160","partial",["C160_lines_partial","C160_info_partial","C160_quiet","C160_letters","C160_prefetch_ok","C160_blocked_refuted","C160_list_match_refuted","C160_custom_refuted","C160_answer_refuted","C160_loop_refuted","C160_prefetch_refuted"],"every line is characterised: clean, one of seven kinds of debug lines which show a name or an answer, or the error line of a CNAME loop; that the property as a whole does not hold is shown by the six refutations; the fields 'prefix' and trace lines naming the next resolver are left out")
c("C161","proved",["C161_cached_served"],"")
c("C162","proved",["C162_special_use_answered"],"")
c("C163","partial",["C163_filtered_type","C163_short_name_partial","C163_short_name_refuted"],"the reply to a short name has the code and no records, but not the number of the query (refuted by a concrete case)")
c("C164","partial",["C164_explained_partial","C164_others_unchanged","C164_filtered_refuted","C164_short_name_refuted"],"holds for all kinds but the two that are refused before the EDE resolver; for these refuted by concrete cases")
c("C165","proved",["C165_upstream_screened","C165_cached_screened"],"")
c("C166","proved",["C166_failure_told","C166_zone_failure_told"],"")
c("C167","proved",["C167_custom_reverse","C167_hosts_reverse"],"without custom rewriting rules")
c("C168","proved",["C168_rewritten_zone_answered","C168_passed_on"],"exactly one rule applies to the name; see C79 for several")
c("C169","proved",["C169_custom_rewritten"],"exactly one rule applies to the name, records other than CNAME")
c("C170","partial",["C170_target_blocked_partial","C170_target_resolved","C170_target_blocked_refuted"],"the lists count as for the client without its names; for clients restricted by name the full statement is refuted")
c("C171","partial",["C171_same_client_partial","C171_group_partial","C171_address_kept","C171_by_address","C171_group_refuted","C171_shared_cache_refuted"],"Proved for every query that does not lead to a custom CNAME, and for every query of a client whose group does not depend on its names, unless answered from the cache. False otherwise: C171_group_refuted (the target of a custom CNAME is asked for at the default group) and C171_shared_cache_refuted (a client gets the cached answer of another group).")
c("C172","partial",["C172_nothing_added","C172_network_partial","C172_prefetch","C172_leak_refuted"],"C172_nothing_added and C172_prefetch hold without conditions. The bound to the configured network holds on the conditions of C43 (C172_network_partial); C172_leak_refuted shows that what C43 lets through gets to the upstreams.")
c("C173","partial",["C173_bounded_partial","C173_once_refuted"],"Bounded by the number of questions, once for one question; C173_once_refuted: a query with two questions is sent twice, each time with both. Custom CNAMEs (which ask for other names) are left out.")
c("C174","proved",["C174_deny_more","C174_allow_more","C174_first_deny_list_refuted","C174_first_allow_list_refuted"],"For entries of configured lists; C174_first_*_refuted: false for whole lists, namely for the first deny list of a group with allow lists only and for the first allow list of a group without deny lists.")
c("C175","proved",["C175_own_lists","C175_order"],"Stated for any two servers with correct list lookups (C04) over the spec of BlockingSpec.v of which groups apply.")
c("C176","partial",["C176_disable_partial","C176_disable_refuted"],"Needs that the disabled groups of the client have no entries on allow lists; C176_disable_refuted: disabling a group with an allow list blocks a name that was answered.")
c("C177","proved",["C177_spelling","C177_zone"],"Letter case of ASCII letters, as names are given to the program by the DNS library.")

if __name__ == "__main__":
    props = [json.loads(l) for l in open(os.path.join(root, "properties.jsonl"))]
    out = [C[p["id"]] for p in props if p["id"] in C]  # properties without an entry carry no claim yet
    with open(os.path.join(root, "MANIFEST.json"), "w") as f:
        json.dump({"claims": out}, f, indent=1); f.write("\n")
