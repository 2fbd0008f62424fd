{"id": "C01", "title": "Wildcard list entries match exactly the domain and its sub-domains", "statement": "After loading any sequence of wildcard entries '*.d', a lookup of a host name reports a match iff the name equals some loaded d or ends with '.'+d; the order of loading and duplicate or overlapping entries do not matter.", "quantifier": "all finite sequences of entries, all looked-up names", "why_tests_cant": "The lookup structure is compressed while it is being filled, so the outcome depends on the insertion history; tests cover a handful of orders.", "anchors": ["trie/trie.go:Trie.Insert", "trie/trie.go:Trie.HasParentOf", "trie/split.go:SplitTLD", "cache/stringcache/string_caches.go:wildcardCache"]}
{"id": "C02", "title": "Plain list entries match exactly, ignoring case", "statement": "After loading any sequence of plain entries, a lookup reports a match iff the lower-cased name is one of the lower-cased non-empty entries, whatever the insertion order and number of duplicates.", "quantifier": "all finite sequences of entries, all looked-up strings", "why_tests_cant": "Lookup is a binary search in a concatenated bucket kept sorted by incremental insertion; only a proof covers every order and every alignment.", "anchors": ["cache/stringcache/string_caches.go:stringMap.contains", "cache/stringcache/string_caches.go:stringCacheFactory"]}
{"id": "C03", "title": "Every list entry is interpreted as exactly one kind", "statement": "An entry enclosed in slashes is a regular expression, an entry containing '*' is a wildcard (ignored unless it is '*.' plus a name without '*'), anything else is matched literally; no entry is stored in two matchers and none raises a crash.", "quantifier": "all entries accepted by the list parser", "why_tests_cant": "Routing depends on byte-level shape of arbitrary third-party list content.", "anchors": ["cache/stringcache/chained_grouped_cache.go:chainedGroupFactory.AddEntry", "cache/stringcache/string_caches.go:regexCacheFactory.addEntry", "cache/stringcache/string_caches.go:wildcardCacheFactory.addEntry"]}
{"id": "C04", "title": "Group matching reports exactly the matching requested groups", "statement": "For any state of the list cache and any requested groups, the reported groups are precisely those requested groups whose content matches the name in some matcher; the report is sorted and free of duplicates.", "quantifier": "all cache contents, all group lists, all names", "why_tests_cant": "Union over several matchers and groups; the number of combinations is unbounded.", "anchors": ["cache/stringcache/chained_grouped_cache.go:ChainedGroupedCache.Contains", "cache/stringcache/in_memory_grouped_cache.go:InMemoryGroupedCache.Contains"]}
{"id": "C05", "title": "Refreshing one group never changes another", "statement": "A refresh of group g replaces exactly the content of g by the newly added entries; every other group answers all lookups as before.", "quantifier": "all cache states, all sequences of refreshes", "why_tests_cant": "Must hold for every history of refreshes.", "anchors": ["cache/stringcache/in_memory_grouped_cache.go:InMemoryGroupedCache.Refresh", "cache/stringcache/chained_grouped_cache.go:ChainedGroupedCache.Refresh"]}
{"id": "C06", "title": "A failed list refresh keeps the previous content", "statement": "If a group's sources fail with a transient error, or fail without yielding any entry, all lookups in this group answer as before the refresh; otherwise the group contains exactly the entries delivered in this refresh.", "quantifier": "all source outcomes, all entry sequences, all earlier contents", "why_tests_cant": "Depends on combinations of failures over several sources in any completion order.", "anchors": ["lists/list_cache.go:ListCache.createCacheForGroup", "lists/list_cache.go:ListCache.refresh"]}
{"id": "C07", "title": "A lookup during a refresh sees the old or the new list", "statement": "A name which is matched by a group both before and after a refresh is matched at every moment during the refresh.", "quantifier": "all interleavings of a lookup with the steps of a refresh", "why_tests_cant": "It is about every interleaving; unit tests do not control the scheduler.", "anchors": ["cache/stringcache/chained_grouped_cache.go:chainedGroupFactory.Finish"]}
{"id": "C08", "title": "The parse error budget is respected exactly", "statement": "With a limit of n errors a source is processed to the end iff it has at most n malformed lines; every well-formed line before the abort is delivered, in order, exactly once; with a limit of -1 all well-formed lines are delivered.", "quantifier": "all files (finite line sequences), all limits", "why_tests_cant": "Off-by-one in the budget only shows at exact counts; must hold for every placement of the bad lines.", "anchors": ["lists/parsers/filtererrors.go:errorFilter.Next", "lists/parsers/parser.go:ForEach", "lists/parsers/lines.go:linesParser.Next"]}
{"id": "C09", "title": "Comments and blank lines are neutral", "statement": "Lines that are empty, blank or start with '#' yield nothing, and a trailing '#...' comment or surrounding white space never changes what a line yields.", "quantifier": "all lines and all comment texts", "why_tests_cant": "Arbitrary text content.", "anchors": ["lists/parsers/lines.go:linesParser.Next"]}
{"id": "C10", "title": "A hosts-file line yields all of its names", "statement": "For a line 'IP name alias...' the delivered names are exactly the names and aliases in order, and the line is rejected iff the IP is malformed, there is no name, or some name is invalid.", "quantifier": "all lines", "why_tests_cant": "Arbitrary number of aliases and arbitrary white space.", "anchors": ["lists/parsers/hosts.go:HostsFileEntry.UnmarshalText"]}
{"id": "C11", "title": "Accepted domain names are well-formed", "statement": "A plain list entry is accepted iff its length is at most 255 and it is a dot-separated sequence of labels of 1 to 63 letters, digits, '-' or '_', optionally followed by one '.' or '_'.", "quantifier": "all strings", "why_tests_cant": "Infinite input space.", "anchors": ["lists/parsers/hosts.go:validateDomainName"]}
{"id": "C12", "title": "The cache never exceeds its configured size", "statement": "After any sequence of operations the number of stored entries is at most the configured maximum (10000 when unset), and one entry is evicted only when a new key arrives at a full cache, the evicted one being the least recently used.", "quantifier": "all operation sequences", "why_tests_cant": "Needs an invariant over every history.", "anchors": ["cache/expirationcache/expiration_cache.go:ExpiringLRUCache.Put"]}
{"id": "C13", "title": "A cache lookup returns the last stored value or nothing", "statement": "Get(k) returns either nothing or the value of the most recent effective Put(k), never a value put under a different key; after Clear nothing is returned until the next Put.", "quantifier": "all operation sequences with arbitrary times", "why_tests_cant": "Needs an invariant over every history.", "anchors": ["cache/expirationcache/expiration_cache.go:ExpiringLRUCache.Get", "cache/expirationcache/expiration_cache.go:ExpiringLRUCache.Clear"]}
{"id": "C14", "title": "Clean-up removes exactly the expired entries", "statement": "A clean-up run removes every entry whose time has passed (unless its expiration handler supplies a new value, which is then stored) and never removes or changes an entry that is still valid.", "quantifier": "all cache contents, clock values and handler outcomes", "why_tests_cant": "All contents and clock values.", "anchors": ["cache/expirationcache/expiration_cache.go:ExpiringLRUCache.cleanUp"]}
{"id": "C15", "title": "A cached value is not served past its expiry", "statement": "A lookup at a time later than the expiry of the entry does not return its value.", "quantifier": "all operation sequences with arbitrary times", "why_tests_cant": "Depends on the race between the periodic clean-up and lookups at arbitrary moments.", "anchors": ["cache/expirationcache/expiration_cache.go:ExpiringLRUCache.Get"]}
{"id": "C16", "title": "Prefetching happens exactly for frequently queried names", "statement": "On expiry the entry is re-fetched iff the number of lookups of its key counted in the still open window exceeds the threshold (always, if the threshold is 0); otherwise it is dropped.", "quantifier": "all histories of lookups, expiries and clean-ups", "why_tests_cant": "Sliding window over histories.", "anchors": ["cache/expirationcache/prefetching_cache.go:PrefetchingExpiringLRUCache"]}
{"id": "C17", "title": "Cache keys separate all questions", "statement": "Two questions share a cache key iff they have the same type and the same name up to ASCII case, and the key decodes back to this type and lower-cased name.", "quantifier": "all pairs (type, name)", "why_tests_cant": "Injectivity over an infinite domain.", "anchors": ["util/common.go:GenerateCacheKey", "util/common.go:ExtractCacheKey"]}
{"id": "C18", "title": "TTLs in cached answers only count down", "statement": "A record served from the cache carries its stored TTL reduced by the age of the entry: the record with the smallest TTL gets exactly the remaining time, differences between records are preserved, and no arithmetic wrap-around occurs.", "quantifier": "all answers, all ages", "why_tests_cant": "uint32 arithmetic over all values.", "anchors": ["resolver/caching_resolver.go:setTTLInCachedResponse", "resolver/caching_resolver.go:CachingResolver.getFromCache"]}
{"id": "C19", "title": "TTLs are clamped to the configured range", "statement": "Before caching and delivery each answer TTL is raised to the configured minimum and then lowered to the configured maximum (when set); the cache lifetime is the smallest resulting TTL, or the negative-cache time for an empty answer.", "quantifier": "all answers, all configurations", "why_tests_cant": "All values of two clamps.", "anchors": ["resolver/caching_resolver.go:CachingResolver.adjustTTLs"]}
{"id": "C20", "title": "Only cacheable responses are stored", "statement": "A response to a client query is stored iff it is NOERROR, neither truncated nor flagged checking-disabled, with a positive cache time, or NXDOMAIN with a positive negative-cache time; queries carrying a client subnet that is not a single host bypass the cache.", "quantifier": "all requests and responses", "why_tests_cant": "Combination of all header flags, codes and options.", "anchors": ["resolver/caching_resolver.go:CachingResolver.putInCache", "resolver/caching_resolver.go:isResponseCacheable", "resolver/caching_resolver.go:isRequestCacheable"]}
{"id": "C21", "title": "A cached reply belongs to the question asked", "statement": "A reply from the cache carries the id of the current request and the question of the current request, and its answer names and data are those stored for that question.", "quantifier": "all requests, all cache states", "why_tests_cant": "Every combination of stored and asked question.", "anchors": ["resolver/caching_resolver.go:CachingResolver.Resolve"]}
{"id": "C22", "title": "Every cached reply was once an upstream reply to the same question", "statement": "For every history of queries, prefetches, remote cache updates, clean-ups and flushes, whatever is answered from the cache was received earlier (after the last flush) from the next resolver or from a peer for a question with the same type and same lower-cased name.", "quantifier": "all histories", "why_tests_cant": "Invariant over unbounded histories.", "anchors": ["resolver/caching_resolver.go:CachingResolver", "cache/expirationcache/prefetching_cache.go"]}
{"id": "C23", "title": "Flushing empties the cache", "statement": "After a flush the next query for any name is resolved by the next resolver.", "quantifier": "all histories before the flush, all queries", "why_tests_cant": "Histories.", "anchors": ["resolver/caching_resolver.go:CachingResolver.FlushCaches"]}
{"id": "C24", "title": "Allow beats deny", "statement": "A query is blocked iff blocking is in force for some of the client's groups and the question is denied: it is not on an allow list of these groups and it is on a deny list of these groups or these groups are allow-list-only; names on the client's allow lists are never blocked on account of the question.", "quantifier": "all list contents, configurations, clients and questions", "why_tests_cant": "Combinatorial interaction of groups, lists and clients.", "anchors": ["resolver/blocking_resolver.go:BlockingResolver.handleDenylist", "resolver/blocking_resolver.go:BlockingResolver.Resolve"]}
{"id": "C25", "title": "Group assignment follows the documented precedence", "statement": "The groups applied to a client are those configured for its names (with wildcards), its IP, its networks, and FQDN identifiers currently resolving to its IP; the groups of 'default' apply iff none of these yields a group; currently disabled groups are dropped.", "quantifier": "all configurations, clients, disabled sets", "why_tests_cant": "Combinatorial.", "anchors": ["resolver/blocking_resolver.go:BlockingResolver.groupsToCheckForClient"]}
{"id": "C26", "title": "Allow-list-only groups block everything else", "statement": "A client one of whose groups has only allow lists is answered 'blocked' for each name that is not on an allow list of its groups.", "quantifier": "all configurations and names", "why_tests_cant": "Combinatorial.", "anchors": ["resolver/blocking_resolver.go:determineAllowlistOnlyGroups", "resolver/blocking_resolver.go:BlockingResolver.hasAllowlistOnlyAllowed"]}
{"id": "C27", "title": "Answers are screened too", "statement": "For a request whose question is neither allow-listed nor blocked, the answer of the following resolvers is passed unchanged iff no A/AAAA address or CNAME target in it is on a deny list without being on an allow list of the client's groups; otherwise the client gets the block answer.", "quantifier": "all answers, all list contents", "why_tests_cant": "All record lists.", "anchors": ["resolver/blocking_resolver.go:BlockingResolver.Resolve", "resolver/blocking_resolver.go:extractEntryToCheck"]}
{"id": "C28", "title": "Block answers have the configured shape", "statement": "A blocked query is answered with the request's id and question and: NXDOMAIN mode: NXDOMAIN without records; zero-IP mode: one all-zero address for A and AAAA and NXDOMAIN for every other type; custom-IP mode: the configured addresses of the asked family, and the zero-IP behaviour if there is none. All records carry the block TTL.", "quantifier": "all requests, all configurations", "why_tests_cant": "All types and address lists.", "anchors": ["resolver/blocking_resolver.go:zeroIPBlockHandler", "resolver/blocking_resolver.go:ipBlockHandler", "resolver/blocking_resolver.go:nxDomainBlockHandler"]}
{"id": "C29", "title": "Blocked questions never leave the host", "statement": "If the question is blocked, no request is sent to the following resolvers (cache, conditional, upstream).", "quantifier": "all requests, list contents and chains", "why_tests_cant": "Absence of an effect in every execution.", "anchors": ["resolver/blocking_resolver.go:BlockingResolver.Resolve", "server/server.go:createQueryResolver"]}
{"id": "C30", "title": "Temporary disabling is followed by re-enabling", "statement": "After 'disable for duration d' and no further command, blocking is off until d has passed and on afterwards; the reported remaining time is the time until then.", "quantifier": "all command/timer schedules", "why_tests_cant": "Timers and commands interleave arbitrarily.", "anchors": ["resolver/blocking_resolver.go:BlockingResolver.internalDisableBlocking", "resolver/blocking_resolver.go:BlockingResolver.BlockingStatus"]}
{"id": "C31", "title": "A rejected disable command changes nothing", "statement": "A disable command naming an unknown group is rejected and leaves the observable blocking behaviour, now and in the future, as it was.", "quantifier": "all states and commands", "why_tests_cant": "Depends on the state at the time of the command.", "anchors": ["resolver/blocking_resolver.go:BlockingResolver.internalDisableBlocking"]}
{"id": "C32", "title": "The last enable/disable command wins", "statement": "The blocking state is always determined by the last accepted command and the time since it: timers started by earlier commands have no effect.", "quantifier": "all schedules of commands and timer callbacks", "why_tests_cant": "A race between timer goroutine and commands.", "anchors": ["resolver/blocking_resolver.go:BlockingResolver.internalEnableBlocking", "resolver/blocking_resolver.go:BlockingResolver.internalDisableBlocking"]}
{"id": "C33", "title": "The most specific custom DNS mapping wins", "statement": "For a query the mapping used is the one of the longest configured domain that equals the name or is a parent of it; names without such a mapping are passed on unchanged.", "quantifier": "all mappings, all names", "why_tests_cant": "All suffix relations.", "anchors": ["resolver/custom_dns_resolver.go:CustomDNSResolver.processRequest"]}
{"id": "C34", "title": "Custom CNAME chains terminate", "statement": "Resolving through configured CNAMEs always terminates, whatever cycles the configuration contains; a cycle yields an error and not an answer.", "quantifier": "all mappings, all queries", "why_tests_cant": "Termination for every cyclic configuration.", "anchors": ["resolver/custom_dns_resolver.go:CustomDNSResolver.processCNAME"]}
{"id": "C35", "title": "Custom answers have the right type, owner and TTL", "statement": "Every record produced from a mapping without CNAMEs has the question's name and type and the TTL of the mapping; types without mapping are answered empty (or passed on, if so configured).", "quantifier": "all mappings and questions", "why_tests_cant": "All combinations.", "anchors": ["resolver/custom_dns_resolver.go:CustomDNSResolver.processDNSEntry", "util/common.go:CreateAnswerFromQuestion"]}
{"id": "C36", "title": "Reverse lookups mirror the forward mapping", "statement": "A PTR query for an address is answered by the custom mapping with exactly the domains mapped to this address.", "quantifier": "all mappings and addresses", "why_tests_cant": "All addresses.", "anchors": ["resolver/custom_dns_resolver.go:NewCustomDNSResolver", "resolver/custom_dns_resolver.go:CustomDNSResolver.handleReverseDNS"]}
{"id": "C37", "title": "Conditional forwarding picks the most specific zone", "statement": "A dotted name is sent to the upstreams of the longest configured zone which is the name or a parent of it, a single-label name only to those of '.', and everything else to the next resolver; such a query is never sent to any other upstream.", "quantifier": "all mappings and names", "why_tests_cant": "All suffix relations.", "anchors": ["resolver/conditional_upstream_resolver.go:ConditionalUpstreamResolver.processRequest"]}
{"id": "C38", "title": "Rewriting is invisible to the client", "statement": "With a rewrite rule the inner resolver is asked the rewritten name, and in the response the question and records owned by the rewritten name carry the original name; the request seen by later resolvers is the original one.", "quantifier": "all rules, requests and inner responses", "why_tests_cant": "All messages.", "anchors": ["resolver/rewriter_resolver.go:RewriterResolver.Resolve"]}
{"id": "C39", "title": "Rewriter fallback happens exactly when configured and needed", "statement": "The next resolver is consulted iff the inner resolver has no response, or fallback is configured and the inner resolver fails or has no answer records.", "quantifier": "all inner outcomes and configurations", "why_tests_cant": "All outcomes.", "anchors": ["resolver/rewriter_resolver.go:RewriterResolver.Resolve"]}
{"id": "C40", "title": "Special-use names never reach the upstreams", "statement": "With special-use handling enabled a query for a special-use name (or a sub-domain of it) is answered locally as the table of RFC 6761 and friends demands and not forwarded; all other names are forwarded.", "quantifier": "all names and types", "why_tests_cant": "All names, in any letter case.", "anchors": ["resolver/sudn_resolver.go:SpecialUseDomainNamesResolver.Resolve"]}
{"id": "C41", "title": "Filtered query types get an empty answer", "statement": "A query whose type is configured as filtered is answered NOERROR without records and not forwarded; all others are forwarded unchanged.", "quantifier": "all types and configurations", "why_tests_cant": "All types.", "anchors": ["resolver/filtering_resolver.go:FilteringResolver.Resolve"]}
{"id": "C42", "title": "FQDN-only mode rejects exactly single-label names", "statement": "With the mode on, a name without inner dot gets NXDOMAIN and is not forwarded, others are forwarded; the response matches the request (id and question).", "quantifier": "all names", "why_tests_cant": "All names.", "anchors": ["resolver/fqdn_only_resolver.go:FQDNOnlyResolver.Resolve"]}
{"id": "C43", "title": "The client subnet is only disclosed as configured", "statement": "With forwarding off no client-subnet option with an address received from the client or derived from it beyond the configured mask is sent upstream.", "quantifier": "all requests and configurations", "why_tests_cant": "A privacy property over all messages.", "anchors": ["resolver/ecs_resolver.go:ECSResolver.Resolve"]}
{"id": "C44", "title": "EDNS0 options are set, read and removed independently", "statement": "Setting an option and reading it gives the option set; removing it makes it absent; other options and records are unaffected by both.", "quantifier": "all messages and options", "why_tests_cant": "All messages.", "anchors": ["util/edns0.go:SetEdns0Option", "util/edns0.go:GetEdns0Option", "util/edns0.go:RemoveEdns0Option", "util/edns0.go:RemoveEdns0Record"]}
{"id": "C45", "title": "Extended DNS errors reflect the response kind", "statement": "With EDE enabled each response whose kind has an extended error code carries exactly one EDE option holding that code and its reason, all others are unchanged; everything but that option is unchanged.", "quantifier": "all responses", "why_tests_cant": "All messages.", "anchors": ["resolver/ede_resolver.go:EDEResolver.Resolve", "model/models.go:ResponseType.ToExtendedErrorCode"]}
{"id": "C46", "title": "Hosts-file answers follow the last matching entry and loading is all-or-nothing", "statement": "A host name is answered with the address of the last loaded entry for it in the asked family; if any source fails the previous table stays complete.", "quantifier": "all sources, all orders of arrival", "why_tests_cant": "Orders and failures.", "anchors": ["resolver/hosts_file_resolver.go:HostsFileResolver.loadSources", "resolver/hosts_file_resolver.go:hostsFileData.add"]}
{"id": "C47", "title": "Client names follow the documented precedence", "statement": "A client id in the request wins, then a cached result, then the IP mapping, then the reverse lookup with the preferred name order, then the IP itself.", "quantifier": "all configurations, requests and lookup results", "why_tests_cant": "All combinations.", "anchors": ["resolver/client_names_resolver.go:ClientNamesResolver.getClientNames"]}
{"id": "C48", "title": "Upstream group selection follows the documented precedence", "statement": "The upstream group is the one configured for the client's exact IP, else for one of its names, else for a network containing its IP, else 'default'.", "quantifier": "all configurations and clients", "why_tests_cant": "All combinations.", "anchors": ["resolver/upstream_tree_resolver.go:UpstreamTreeResolver.upstreamGroupByClient"]}
{"id": "C49", "title": "Strict strategy takes the first healthy upstream in order", "statement": "The answer is that of the first upstream in configuration order that answers without error or timeout, no later upstream is contacted, and an error results iff all fail.", "quantifier": "all outcomes of all upstreams", "why_tests_cant": "All outcome vectors.", "anchors": ["resolver/strict_resolver.go:StrictResolver.Resolve"]}
{"id": "C50", "title": "Parallel strategy answers iff some contacted upstream answers", "statement": "With two upstreams racing, the reply is a successful reply of one of them whenever at least one succeeds, in every completion order; with 'random' a second, different upstream is tried when the first fails.", "quantifier": "all completion orders and outcomes, all random choices", "why_tests_cant": "Scheduling and randomness.", "anchors": ["resolver/parallel_best_resolver.go:ParallelBestResolver.Resolve"]}
{"id": "C51", "title": "Upstream retries are bounded and only on timeout", "statement": "At most 3 attempts are made; a further attempt is made iff the previous one timed out; the result is the first non-timeout outcome.", "quantifier": "all outcome sequences", "why_tests_cant": "All sequences.", "anchors": ["resolver/upstream_resolver.go:UpstreamResolver.Resolve"]}
{"id": "C52", "title": "Every upstream address is tried in turn", "statement": "Successive retries use the addresses of a host in rotation, so that n retries reach each of n addresses, for any concurrent use.", "quantifier": "all address lists and interleavings", "why_tests_cant": "Wrap-around and concurrency.", "anchors": ["resolver/bootstrap.go:IPSet"]}
{"id": "C53", "title": "Every query gets exactly one matching response", "statement": "Each DNS message received is answered exactly once; the response has the id of the query; without question it is FORMERR; if resolving fails or crashes it is SERVFAIL, unless the upstream supplied an error message.", "quantifier": "all messages and resolver behaviours, including panics", "why_tests_cant": "All behaviours of the chain.", "anchors": ["server/server.go:Server.handleReq", "server/server.go:Server.resolve"]}
{"id": "C54", "title": "Responses fit the client's buffer", "statement": "The response is truncated to the size announced by the client (512 without EDNS0 over UDP, 65535 over TCP).", "quantifier": "all requests", "why_tests_cant": "All sizes.", "anchors": ["server/server.go:getMaxResponseSize"]}
{"id": "C55", "title": "DoH requests are decoded exactly and bounded", "statement": "A DoH GET/POST request is accepted iff it carries one well-formed message of at most 512 bytes with the right content type; otherwise the documented HTTP error is returned and nothing is resolved.", "quantifier": "all HTTP requests", "why_tests_cant": "All inputs.", "anchors": ["server/server_endpoints.go:Server.dohGetRequestHandler", "server/server_endpoints.go:Server.dohPostRequestHandler"]}
{"id": "C56", "title": "DoH max-age never exceeds a record's TTL", "statement": "The cache-control max-age of a DoH response is the smallest TTL of the answer records.", "quantifier": "all answers", "why_tests_cant": "All TTL lists.", "anchors": ["server/server_endpoints.go:getSmallestTTLFromAnswer"]}
{"id": "C57", "title": "The client id is taken from the host name only as documented", "statement": "The client id is x iff the TLS server name or HTTP host is 'id-x.<rest>' with no dot in x; every other host name gives no client id.", "quantifier": "all host names", "why_tests_cant": "All strings.", "anchors": ["server/server.go:extractClientIDFromHost"]}
{"id": "C58", "title": "Query log entries are complete, ordered and at most once", "statement": "Every answered query is logged at most once, in order, with only the configured fields; entries are dropped only while the queue is full and logging never delays the answer.", "quantifier": "all schedules of producers and the writer", "why_tests_cant": "Scheduling.", "anchors": ["resolver/query_logging_resolver.go:QueryLoggingResolver.Resolve"]}
{"id": "C59", "title": "Database log batches keep every entry once", "statement": "Entries handed to the database writer are written exactly once in order, in batches of at most 100.", "quantifier": "all numbers of entries and flush schedules, all database outcomes", "why_tests_cant": "Counts and failures.", "anchors": ["querylog/database_writer.go:DatabaseWriter.doDBWrite"]}
{"id": "C60", "title": "Log file names stay inside the log directory", "statement": "For every client name the log file name contains no path separator.", "quantifier": "all client names", "why_tests_cant": "All strings.", "anchors": ["querylog/file_writer.go:escape", "querylog/file_writer.go:FileWriter.Write"]}
{"id": "C61", "title": "Log retention deletes exactly the files older than the limit", "statement": "Cleaning up removes exactly those log files whose date is more than the configured number of days ago, and never files of today, foreign files, or anything if no limit is configured.", "quantifier": "all file names, dates and limits", "why_tests_cant": "All dates.", "anchors": ["querylog/file_writer.go:FileWriter.CleanUp"]}
{"id": "C62", "title": "Log obfuscation hides every letter and digit", "statement": "With privacy mode on no letter or digit of a name appears in logs; length and structure are preserved.", "quantifier": "all strings", "why_tests_cant": "All strings.", "anchors": ["util/common.go:Obfuscate"]}
{"id": "C63", "title": "Reverse-address parsing inverts reverse-address printing", "statement": "Parsing the reverse-lookup name of any IPv4 or IPv6 address gives this address, and only well-formed reverse names are parsed.", "quantifier": "all addresses, all strings", "why_tests_cant": "2^128 addresses.", "anchors": ["util/arpa.go:ParseIPFromArpaAddr"]}
{"id": "C64", "title": "Redis synchronisation neither echoes nor mixes keys", "statement": "A node never processes its own messages; a peer's cache message is delivered with exactly the key and response published.", "quantifier": "all messages and node ids", "why_tests_cant": "All interleavings.", "anchors": ["redis/redis.go:Client.processReceivedMessage", "redis/redis.go:prefixKey"]}
{"id": "C65", "title": "Deprecated options never override new ones", "statement": "When migrating configuration a deprecated option is moved to its new place iff the new option still has its default value, and its presence is reported in any case.", "quantifier": "all configurations", "why_tests_cant": "All values.", "anchors": ["config/migration/migration.go:Migrate"]}
{"id": "C66", "title": "Start-up strategies behave as documented", "statement": "'failOnError' returns the initialisation error, 'blocking' initialises before returning but never fails, 'fast' returns at once and initialises in background; the initialiser runs exactly once in each.", "quantifier": "all outcomes", "why_tests_cant": "Scheduling.", "anchors": ["config/config.go:InitStrategy.Do"]}
{"id": "C67", "title": "Durations without unit are minutes", "statement": "A duration option consisting of digits only is that many minutes, otherwise it is parsed with its unit.", "quantifier": "all strings", "why_tests_cant": "Overflow and all numbers.", "anchors": ["config/duration.go:Duration.UnmarshalText"]}
{"id": "C68", "title": "Upstream definitions parse unambiguously", "statement": "Parsing 'net:host:port/path#cn' yields exactly these parts, with documented defaults for omitted ones; printing a parsed upstream and parsing it again gives the same upstream up to the common name.", "quantifier": "all strings", "why_tests_cant": "All strings.", "anchors": ["config/upstream.go:ParseUpstream", "config/upstream.go:Upstream.String"]}
{"id": "C69", "title": "Ports are accepted iff between 1 and 65535", "statement": "A port text is accepted iff it is a decimal number from 1 to 65535 and then denotes this number.", "quantifier": "all strings", "why_tests_cant": "All strings.", "anchors": ["config/config.go:ConvertPort"]}
{"id": "C70", "title": "Local data beats blocking beats cache beats upstream", "statement": "For every query the answer comes from the first of: type filter, FQDN check, custom DNS, hosts file, blocking, cache, conditional upstream, special-use table, upstream; no later stage is consulted once an earlier one has answered.", "quantifier": "all configurations, states and queries", "why_tests_cant": "Whole-chain property over all states.", "anchors": ["server/server.go:createQueryResolver", "resolver/resolver.go:Chain"]}
{"id": "C71", "title": "A list source means exactly what its lines say", "statement": "After loading a source all of whose lines are well-formed, a lookup matches iff some line of the source (comments and white space stripped, addresses in canonical form) denotes an entry that matches the name.", "quantifier": "all sources, all looked-up names", "why_tests_cant": "All files and all names; parsing and matching together.", "anchors": ["lists/list_cache.go:parseFile", "lists/list_cache.go:createCacheForGroup", "lists/parsers/hosts.go:HostsIterator.UnmarshalText"]}
{"id": "C72", "title": "A cached value stays available until it expires or is displaced", "statement": "After a value is stored with a positive lifetime, a lookup of the key finds this value, with the exact remaining time, as long as the cache is not cleared, the key is not stored again, no clean-up looks at the entry after its expiry, and fewer other keys than the cache has room for have been used since.", "quantifier": "all histories before and after the store, all interleavings with a clean-up", "why_tests_cant": "Depends on recency order, on pending clean-up work and on every interleaving; tests only use short fixed scripts.", "anchors": ["cache/expirationcache/expiration_cache.go:ExpiringLRUCache.Put", "cache/expirationcache/expiration_cache.go:ExpiringLRUCache.Get", "cache/expirationcache/expiration_cache.go:ExpiringLRUCache.cleanUp"]}
{"id": "C73", "title": "Queries and enable/disable commands never deadlock", "statement": "Whatever queries, enable commands and disable commands run concurrently, some of them can always make progress on the status lock.", "quantifier": "all numbers of concurrent queries and commands, all interleavings", "why_tests_cant": "A deadlock needs a writer to arrive between two read locks of the same goroutine; tests practically never hit this window.", "anchors": ["resolver/blocking_resolver.go:BlockingResolver.groupsToCheckForClient", "resolver/blocking_resolver.go:BlockingResolver.isGroupDisabled", "resolver/blocking_resolver.go:BlockingResolver.internalDisableBlocking"]}
{"id": "C74", "title": "Disabling blocking disables it for everyone", "statement": "After a 'disable' command without group names no request is blocked until blocking is enabled again.", "quantifier": "all configurations, clients and names", "why_tests_cant": "Depends on which kinds of lists each group has.", "anchors": ["resolver/blocking_resolver.go:BlockingResolver.retrieveAllBlockingGroups", "resolver/blocking_resolver.go:BlockingResolver.internalDisableBlocking"]}
{"id": "C75", "title": "Clients named by domain name are recognised", "statement": "A client identifier that is a domain name stands for exactly the addresses of the successful A and AAAA answers for this name, and is looked up again after a failure.", "quantifier": "all answers and failures, all numbers of clean-ups", "why_tests_cant": "Failure at start followed by recovery.", "anchors": ["resolver/blocking_resolver.go:BlockingResolver.queryForFQIdentifierIPs", "resolver/blocking_resolver.go:BlockingResolver.initFQDNIPCache"]}
{"id": "C76", "title": "Unsupported zone records do not disturb the others", "statement": "A configured name with records of supported types is answered for these types, whatever other records the zone has for it.", "quantifier": "all zones and questions", "why_tests_cant": "Combinations of record types at one name.", "anchors": ["resolver/custom_dns_resolver.go:CustomDNSResolver.processDNSEntry"]}
{"id": "C77", "title": "A conditional answer echoes the client's question", "statement": "The question section of an answer from a conditional upstream is the client's question, provided the upstream echoes the question it was asked.", "quantifier": "all mappings, requests and upstream answers", "why_tests_cant": "All spellings of a name: clients that randomise letter case compare the echoed question byte by byte.", "anchors": ["resolver/conditional_upstream_resolver.go:ConditionalUpstreamResolver.internalResolve"]}
{"id": "C78", "title": "Custom CNAMEs work together with rewriting", "statement": "A custom CNAME to a name outside the custom zones is answered with the CNAME and what the rest of the chain knows about the target, also when rewrite rules are configured for custom DNS.", "quantifier": "all configurations and requests", "why_tests_cant": "Combination of two features, each tested alone.", "anchors": ["resolver/custom_dns_resolver.go:CustomDNSResolver.processCNAME", "resolver/noop_resolver.go:NoOpResolver.Resolve", "resolver/rewriter_resolver.go:NewRewriterResolver"]}
{"id": "C79", "title": "Rewriting is deterministic", "statement": "Which name the inner resolver is asked depends only on the configured rules and the query.", "quantifier": "all rules, requests and orders of map iteration", "why_tests_cant": "Map iteration order is random; a test sees one order per run.", "anchors": ["resolver/rewriter_resolver.go:RewriterResolver.rewriteDomain"]}
{"id": "C80", "title": "Client-subnet handling never makes a query fail", "statement": "With masks accepted by the configuration, every query is passed on to the next resolver exactly once and its result returned, whatever the client's address family.", "quantifier": "all configurations and requests", "why_tests_cant": "Depends on the combination of address family and configured masks.", "anchors": ["resolver/ecs_resolver.go:ECSResolver.setSubnet", "resolver/ecs_resolver.go:maskIP", "config/ecs.go:ECSv4Mask.UnmarshalText"]}
{"id": "C81", "title": "A client without EDNS gets no OPT record", "statement": "If neither the request nor the response of the next resolver has an OPT record, the response has none (RFC 6891, 6.1.1), also with extended errors enabled.", "quantifier": "all requests and responses", "why_tests_cant": "All messages.", "anchors": ["resolver/ede_resolver.go:EDEResolver.addExtraReasoning"]}
{"id": "C82", "title": "The client address comes from the subnet option only as configured", "statement": "The address the following resolvers see as the client's is that of the request's client-subnet option if this is configured and the option carries a complete address, and the address of the connection in all other cases.", "quantifier": "all requests and configurations", "why_tests_cant": "A trust property: all messages and configurations.", "anchors": ["resolver/ecs_resolver.go:ECSResolver.Resolve"]}
{"id": "C83", "title": "Reloading hosts files is atomic for queries", "statement": "A query running concurrently with a reload is answered as the table before or the table after the reload says.", "quantifier": "all tables, all interleavings of the reader with the assignment", "why_tests_cant": "A data race: depends on the interleaving.", "anchors": ["resolver/hosts_file_resolver.go:HostsFileResolver.loadSources", "resolver/hosts_file_resolver.go:HostsFileResolver.resolve"]}
{"id": "C84", "title": "Host names match regardless of letter case", "statement": "A name in a hosts file is found for every spelling of the query and of the file that differs in letter case or final dot only.", "quantifier": "all names", "why_tests_cant": "All names.", "anchors": ["resolver/hosts_file_resolver.go:hostsFileData.add", "resolver/hosts_file_resolver.go:hostsFileData.getIP"]}
{"id": "C85", "title": "Reverse lookups return the names of the address", "statement": "A PTR query for an address in the hosts files is answered with the names and aliases the files give for it, deterministically; for other addresses it is passed on.", "quantifier": "all tables, addresses and map iteration orders", "why_tests_cant": "Depends on Go's random map iteration order.", "anchors": ["resolver/hosts_file_resolver.go:HostsFileResolver.handleReverseDNS"]}
{"id": "C86", "title": "Only entries meant to be served are served", "statement": "Every address answered comes from a line of a loaded source for that name; never from a line bound to an interface, and with loopback filtering never a loopback address or an entry named localhost.", "quantifier": "all histories of loads, sources, orders of arrival", "why_tests_cant": "All histories.", "anchors": ["resolver/hosts_file_resolver.go:HostsFileResolver.parseFile"]}
{"id": "C87", "title": "A failed reverse lookup does not decide a client's name later", "statement": "After a reverse lookup of a client failed, the next request of the client tries again instead of treating the client as nameless.", "quantifier": "all histories of requests, lookups, flushes and clean-ups", "why_tests_cant": "Needs a failing lookup followed by requests over an hour of wall-clock time.", "anchors": ["resolver/client_names_resolver.go:ClientNamesResolver.getClientNames", "resolver/client_names_resolver.go:ClientNamesResolver.resolveClientNames"]}
{"id": "C88", "title": "A client always uses the same upstream group", "statement": "With the same configuration, address and names, every request of a client goes to the same upstream group.", "quantifier": "all configurations, clients and iteration orders", "why_tests_cant": "Map iteration order is random; a test sees a few of the orders.", "anchors": ["resolver/upstream_tree_resolver.go:UpstreamTreeResolver.upstreamGroupByClient"]}
{"id": "C89", "title": "A failing upstream is used less, never banned, and recovers", "statement": "The share of an upstream in the random choice is its weight: 60 if it had no error in the last hour, else the full minutes since the last error, at least 1; the weight never falls as time passes without errors, and cancelled calls do not count as errors.", "quantifier": "all times, upstream lists, excluded upstreams and random numbers", "why_tests_cant": "The choice is random; a test can only sample it.", "anchors": ["resolver/parallel_best_resolver.go:weightedRandom", "resolver/parallel_best_resolver.go:upstreamResolverStatus.resolve"]}
{"id": "C90", "title": "The UDP/TCP race returns a complete answer if there is one", "statement": "When an upstream is asked over UDP and TCP at once, the result is the first complete answer; a truncated answer is returned only if no transport gives a complete one; an error, that of the client's own transport, only if both fail.", "quantifier": "all outcomes of both transports in both orders of arrival", "why_tests_cant": "Orders of arrival and combinations of outcomes.", "anchors": ["resolver/upstream_resolver.go:dnsUpstreamClient.raceClients"]}
{"id": "C91", "title": "SERVFAIL from an upstream makes blocky try another upstream", "statement": "An answer with code SERVFAIL counts as a failure of the upstream, whatever the transport, so that the strategies turn to the other upstreams.", "quantifier": "all transports, outcomes and strategies", "why_tests_cant": "Needs every transport combined with every strategy.", "anchors": ["resolver/upstream_resolver.go:createUpstreamClient", "resolver/upstream_resolver.go:dnsUpstreamClient.raceClients"]}
{"id": "C92", "title": "An upstream host is usable when any of its addresses can be looked up", "statement": "The addresses of an upstream host are those found by the lookups for the configured IP version(s); the host is usable iff some address is found; an empty list is never used (no crash); with a fixed IP version only such addresses are used.", "quantifier": "all results of the lookups", "why_tests_cant": "Partial failures of the lookups and index computations.", "anchors": ["resolver/bootstrap.go:Bootstrap.resolve", "resolver/bootstrap.go:Bootstrap.dialContext"]}
{"id": "C93", "title": "Start-up verification of upstream groups", "statement": "With failOnError start-up fails iff no upstream of the group passes its test, and only upstreams that pass are used; with the other strategies all configured upstreams are used, and the bootstrap resolver for an empty group.", "quantifier": "all groups and test outcomes", "why_tests_cant": "All combinations of outcomes.", "anchors": ["resolver/resolver.go:initGroupResolvers", "resolver/resolver.go:createGroupResolvers", "config/config.go:InitStrategy.Do"]}
{"id": "C94", "title": "DoH upstream answers are checked", "statement": "An answer over HTTPS is used only if the status is 200, the content type is application/dns-message and the body is a DNS message answering the query (same id and question).", "quantifier": "all HTTP responses", "why_tests_cant": "All responses of the server.", "anchors": ["resolver/upstream_resolver.go:httpUpstreamClient.callExternal"]}
{"id": "C95", "title": "HTTP clients are identified by their address", "statement": "A client using DoH or the API has the address of the connection; behind proxies (X-Forwarded-For) the first address of the header, for every spelling with or without port.", "quantifier": "all header values and peer addresses", "why_tests_cant": "All spellings of addresses and lists of proxies.", "anchors": ["util/http.go:HTTPClientIP"]}
{"id": "C96", "title": "CSV query logs read back exactly", "statement": "Every CSV log file consists of exactly the records of the entries written to it, in order; reading it as tab separated text gives back every field, whatever characters names and answers contain, so no client can forge or split a record.", "quantifier": "all entries, all sequences of writes including files that can't be opened", "why_tests_cant": "All contents of names and answers, including quotes, tabs and line breaks.", "anchors": ["querylog/file_writer.go:FileWriter.Write", "querylog/file_writer.go:createQueryLogRow"]}
{"id": "C97", "title": "Per-client query logs keep clients and days apart", "statement": "With type csv-client entries of different clients or of different days are never written to the same file.", "quantifier": "all client names and dates", "why_tests_cant": "All pairs of names.", "anchors": ["querylog/file_writer.go:FileWriter.Write", "querylog/file_writer.go:escape"]}
{"id": "C98", "title": "A broken query log target never prevents the start", "statement": "The query log writer is tried at most the configured number of times, stopping with the first success; if every attempt fails, queries are logged to the console instead.", "quantifier": "all outcomes of the attempts, all numbers of attempts", "why_tests_cant": "All sequences of outcomes.", "anchors": ["resolver/query_logging_resolver.go:NewQueryLoggingResolver"]}
{"id": "C99", "title": "A stalled Redis does not hold up answers", "statement": "Queries are answered even if the Redis server stops answering: handing a reply over for synchronisation never waits for Redis.", "quantifier": "every history of replies handed over, messages sent and received, on any number of instances", "why_tests_cant": "Needs a Redis that stops answering and more than a thousand replies meanwhile; a unit test uses a working in-memory Redis.", "anchors": ["redis/redis.go:Client.PublishCache", "resolver/caching_resolver.go:CachingResolver.putInCache"]}
{"id": "C100", "title": "Replies loaded from Redis are not older than their time to live", "statement": "When an instance starts and loads the replies stored in Redis, each comes back under the key it was stored with and with the time that is left of it, so that no reply is used longer than its time to live (or the negative caching time) allows.", "quantifier": "every reply, key, time of storing and time of loading", "why_tests_cant": "The result depends on the moments at which the store is read relative to the expiry; a test reads at one moment.", "anchors": ["redis/redis.go:Client.getResponse", "redis/redis.go:Client.getTTL", "redis/redis.go:Client.GetRedisCache"]}
{"id": "C101", "title": "Addresses are read and written unambiguously", "statement": "Wherever an address is given as text (configuration, lists, hosts files), it is accepted exactly if it is one of the documented forms of IPv4 or IPv6 text and then denotes one address; the text written for an address is a form of that address, so reading it gives the address back, and different clients never have the same text.", "quantifier": "all texts, all addresses", "why_tests_cant": "All texts and all 2^128 addresses; tables keyed by address texts rely on the absence of collisions.", "anchors": ["config/custom_dns.go", "config/upstream.go:ParseUpstream", "lists/parsers/hosts.go", "resolver/client_names_resolver.go:ClientNamesResolver.getClientNames"]}
{"id": "C105", "title": "Listen addresses are the comma separated parts", "statement": "A listen option 'a,b,c' yields exactly the parts between the commas in order, each with ':' in front when it is only a port number.", "quantifier": "all lists of comma-free parts", "why_tests_cant": "unit tests try a handful of texts; white space around a comma and mixed forms are not covered", "anchors": ["config/config.go:ListenConfig.UnmarshalText"]}
{"id": "C102", "title": "A new option given in the configuration wins over its deprecated form", "statement": "If the configuration gives a new option explicitly, its value is used, whatever the deprecated option says.", "quantifier": "all configurations, all options with a deprecated form", "why_tests_cant": "All values, also those equal to defaults.", "anchors": ["config/migration/migration.go:Migrate", "config/config.go:unmarshalConfig"]}
{"id": "C106", "title": "A loaded configuration has usable limits", "statement": "After loading, the time limit for upstreams is positive and the minimum TLS version is at least 1.2, whatever the configuration says and also if it says so by deprecated options; values that are fine already are kept.", "quantifier": "all configurations", "why_tests_cant": "All values and combinations with deprecated options.", "anchors": ["config/config.go:validate", "config/upstreams.go:validate"]}
{"id": "C107", "title": "Periodic refreshes go on until shutdown, and only then stop", "statement": "Lists and hosts files are refreshed at every tick of the refresh period if one is set and the start did not fail; a failing or panicking refresh is logged and does not end the refreshes; refreshes never run at the same time; none is started after the context is done.", "quantifier": "all strategies, periods, outcomes and schedules", "why_tests_cant": "Goroutine interleavings and the random choice of select.", "anchors": ["config/config.go:SourceLoading.StartPeriodicRefresh", "config/config.go:SourceLoading.periodically", "config/config.go:recoverToError"]}
{"id": "C103", "title": "Database passwords are not logged", "statement": "The password in the target of the query log never occurs in the logged configuration; the rest of the target is shown unchanged.", "quantifier": "all targets, all types of query log", "why_tests_cant": "All passwords and forms of targets; the tests use two.", "anchors": ["config/query_log.go:censoredTarget"]}
{"id": "C104", "title": "Sources of lists are understood and shown as meant", "statement": "A source with a line end is an inline list, one that is a URL is downloaded and all others are files; the shown form of a source that is not inline is understood as the same source; of an inline list at most twelve characters of the first line are shown, with dots when something is left out.", "quantifier": "all texts", "why_tests_cant": "All texts.", "anchors": ["config/bytes_source.go:UnmarshalText", "config/bytes_source.go:String"]}
{"id": "C108", "title": "No query crashes the resolver chain", "statement": "Whatever the configuration, the state of caches and lists and the answers of upstreams, a query with a question gets a response with a message or an error; no resolver of the chain dereferences a missing message or indexes a missing element.", "quantifier": "all configurations, states, upstream behaviours and requests with a question", "why_tests_cant": "Panics hide in combinations of features and odd answers; tests visit few combinations, and the server's recover hides them as SERVFAIL.", "anchors": ["server/server.go:createQueryResolver", "resolver/resolver.go:Chain", "resolver/ecs_resolver.go:maskIP", "resolver/custom_dns_resolver.go:CustomDNSResolver.processCNAME"]}
{"id": "C109", "title": "Client name patterns match exactly what their syntax says", "statement": "A client identifier with *, ?, character classes and escapes matches a client name exactly if the name is accepted by the pattern, regardless of case; an identifier without such characters matches only itself.", "quantifier": "all patterns and names", "why_tests_cant": "Unbounded patterns and names; the backtracking of the matcher has many paths.", "anchors": ["util/common.go:ClientNameMatchesGroupName"]}
{"id": "C110", "title": "Network identifiers name exactly the addresses in the network, and clients get exactly their groups", "statement": "An identifier that is a network in CIDR notation names exactly the addresses sharing its first bits; the groups checked and the upstream group used for a client are exactly those of the identifiers that name it.", "quantifier": "all identifiers, addresses, names and map iteration orders", "why_tests_cant": "All addresses and prefixes; map iteration order.", "anchors": ["util/common.go:CidrContainsIP", "resolver/blocking_resolver.go:BlockingResolver.groupsToCheckForClient", "resolver/upstream_tree_resolver.go:UpstreamTreeResolver.upstreamGroupByClient"]}
{"id": "C111", "title": "The REST interface carries out blocking commands as asked and reports the status truthfully", "statement": "A well-formed disable request disables exactly the groups asked for until the end of the duration asked for; a malformed one is refused with one line of text and changes nothing; the status shows what is disabled and when blocking comes back.", "quantifier": "all parameters, states and times", "why_tests_cant": "All texts of durations and groups; depends on the state and the clock.", "anchors": ["api/api_interface_impl.go:OpenAPIInterfaceImpl.DisableBlocking", "api/api_interface_impl.go:OpenAPIInterfaceImpl.BlockingStatus", "log/logger.go:EscapeInput"]}
{"id": "C112", "title": "Synchronised instances agree about blocking", "statement": "Instances synchronised through Redis that have received all messages are in the same blocking state.", "quantifier": "any number of instances, all histories of commands, deliveries and timers", "why_tests_cant": "Interleavings of several instances, message delays and timers.", "anchors": ["resolver/blocking_resolver.go:BlockingResolver.redisSubscriber", "resolver/blocking_resolver.go:BlockingResolver.EnableBlocking", "resolver/blocking_resolver.go:BlockingResolver.DisableBlocking"]}
{"id": "C113", "title": "A download tries exactly as often as configured and hands over the first success", "statement": "A download of a list returns the body of the first successful request within the configured number of attempts; each failure is counted and followed by the cooldown; otherwise it fails after exactly that many tries with the error of the last, no body stays open, and the end of the context ends it.", "quantifier": "all numbers of attempts, all sequences of answers of the network", "why_tests_cant": "All sequences of failures and the interplay with the context.", "anchors": ["lists/downloader.go:httpDownloader.DownloadFile", "lists/downloader.go:onDownloadError"]}
{"id": "C114", "title": "After a refresh a group holds exactly the entries of its sources", "statement": "When a group is refreshed, it blocks exactly what is written in its text, file and HTTP sources; if sources cannot be read, the domains they block stay blocked.", "quantifier": "all sources, contents, failures, histories and orders in which entries arrive", "why_tests_cant": "All contents of sources, concurrent producers, failures in between.", "anchors": ["lists/list_cache.go:ListCache.createCacheForGroup", "lists/list_cache.go:ListCache.parseFile", "lists/sourcereader.go:NewSourceOpener"]}
{"id": "C115", "title": "A custom DNS mapping answers with exactly the addresses written in it", "statement": "The text of a customDNS mapping is accepted exactly if all its comma-separated parts are IP addresses; a query for the name is answered with exactly the written addresses of the asked family, in order, with the custom TTL.", "quantifier": "all texts, mappings, queries and map iteration orders", "why_tests_cant": "All texts of addresses; map iteration order.", "anchors": ["config/custom_dns.go:CustomDNSEntries.UnmarshalYAML", "config/custom_dns.go:configToRR", "resolver/custom_dns_resolver.go:NewCustomDNSResolver"]}
{"id": "C116", "title": "All records of a configured zone are served", "statement": "Every record of a configured zone is answered for its name, and names of the mapping are not affected by the zone.", "quantifier": "all zones, mappings and map iteration orders", "why_tests_cant": "All combinations of records and spellings; map iteration order.", "anchors": ["config/custom_dns.go:ZoneFileDNS.UnmarshalYAML", "resolver/custom_dns_resolver.go:NewCustomDNSResolver"]}
{"id": "C117", "title": "Conditional upstreams are exactly those written for the most specific zone", "statement": "The text of a conditional mapping is accepted exactly if all its comma-separated parts are upstreams; if no two zones differ only in case, a query goes to exactly the upstreams written for the most specific zone of its name, and to the next resolver if there is none.", "quantifier": "all texts, mappings without zones equal up to case, and queries", "why_tests_cant": "All texts of upstreams and all zones.", "anchors": ["config/conditional_upstream.go:ConditionalUpstreamMapping.UnmarshalYAML", "resolver/conditional_upstream_resolver.go:ConditionalUpstreamResolver.processRequest"]}
{"id": "C118", "title": "A directory of configuration files is read completely, in order, or refused", "statement": "If the configured path is a directory, the text that is decoded consists of the contents of all files ending in .yml or .yaml below it, each after a newline, in the order of their paths; if one of them or a directory cannot be read, loading fails. (Refuted variants: a configured path that is a link to a directory gives an empty configuration without error; the layout of a mounted ConfigMap is decoded twice.)", "quantifier": "all directory trees with distinct names per directory, including links, unreadable files and unreadable directories", "why_tests_cant": "tests create one or two directories on the file system of the machine; order, nesting and failures over all trees cannot be enumerated", "anchors": ["config/config.go:readFromDir", "config/config.go:isRegularFile", "config/config.go:loadConfig"]}
{"id": "C119", "title": "Loading a configuration either takes effect or leaves everything as it was", "statement": "Loading fails without touching the privacy flag, or yields a configuration and sets the flag to what that configuration says; a missing path gives the default values if and only if the configuration is not mandatory, and the whole text is decoded. (Refuted without the hypothesis: a second file starting with --- is ignored silently.)", "quantifier": "all paths, file contents and decoders", "why_tests_cant": "tests cover a handful of files; that no path through the function drops text or sets the flag on errors is a statement about all of them", "anchors": ["config/config.go:loadConfig", "config/config.go:LoadConfig", "config/config.go:unmarshalConfig"]}
{"id": "C120", "title": "The command line disables exactly the groups named, for exactly the duration given", "statement": "`blocky blocking disable -d D -g G...` on a reachable server: the text of the duration that is sent means D, the groups named (all known ones if none is named) are disabled, nothing else, and blocking is enabled again after D (never for 0); with an unknown group the command fails and answers stay as they were; `status` then names these groups and the whole seconds left. (Refuted without the hypothesis: an empty name disables everything.)", "quantifier": "all 64 bit durations, all lists of group names without commas, all states of the server", "why_tests_cant": "the path goes through the printing of durations, the parameters of the interface and the parsing on the other side; tests check single values like 5m", "anchors": ["cmd/blocking.go:disableBlocking", "cmd/blocking.go:statusBlocking", "cmd/root.go:printOkOrError", "api/api_interface_impl.go:DisableBlocking"]}
{"id": "C121", "title": "The commands talk to the server started with the same flags", "statement": "If the server starts with some flags and environment and its configuration listens for HTTP first at host:port, the commands blocking, query, lists and cache started the same way use http://host:port/api; without such a port the flags --apiHost and --apiPort count. (Refuted: IPv6 addresses get doubled brackets, `blocky refresh` ignores the configuration, the flags are overridden by the configuration.)", "quantifier": "all configurations, file systems, flags and environments", "why_tests_cant": "tests start one command with one configuration; agreement of two programs over all configurations is not observable in a unit test", "anchors": ["cmd/root.go:initConfig", "cmd/root.go:apiURL", "cmd/lists.go:newRefreshCommand"]}
{"id": "C122", "title": "A configuration is called valid if and only if the server starts with it", "statement": "`blocky validate` reports success exactly if loading the configuration and ports in `blocky serve` with the same flags succeeds, provided the path is not taken from the environment. (Refuted with BLOCKY_CONFIG_FILE: both directions fail.)", "quantifier": "all file systems, configurations, decoders and flags", "why_tests_cant": "tests run validate on single files and never compare with serve", "anchors": ["cmd/validate.go:validateConfiguration", "cmd/root.go:initConfig", "cmd/serve.go:startServer"]}
{"id": "C123", "title": "The metric blocky_blocking_enabled tells the status of blocking", "statement": "After any sequence of enabling, disabling (all groups or some), failed calls and timers, the gauge is 1 exactly when the status says enabled (and then no group is disabled), and 0 exactly when it says disabled (and then some group is disabled).", "quantifier": "all configurations and all interleavings of calls, timers and callbacks", "why_tests_cant": "The gauge is set from events; a missed event in one order of calls and timers shows only there.", "anchors": ["metrics/metrics_event_publisher.go:registerBlockingEventListeners", "resolver/blocking_resolver.go:BlockingResolver.internalEnableBlocking", "resolver/blocking_resolver.go:BlockingResolver.internalDisableBlocking", "evt/events.go:Bus"]}
{"id": "C124", "title": "The metric of list entries tells how many entries each group has", "statement": "Once no refresh of a group is under way, the gauge of the group equals the number of entries its cache holds (or was never set, if no refresh of the group ended without failure); that number is made up of the different names, whatever their letter case, the wildcards and the regular expressions which can be used.", "quantifier": "all lists, all sequences of loads of any groups, all interleavings of the goroutines", "why_tests_cant": "Groups are loaded by concurrent goroutines which first count and then publish; tests see one order.", "anchors": ["lists/list_cache.go:ListCache.createCacheForGroup", "metrics/metrics_event_publisher.go:registerBlockingEventListeners", "cache/stringcache/chained_grouped_cache.go:ChainedGroupedCache.ElementCount"]}
{"id": "C125", "title": "The cache metrics tell the size of the cache, its hits and its misses", "statement": "The gauge of entries equals the number of elements of the cache and never exceeds its size; hits and misses together are the lookups, a hit exactly when the key is held.", "quantifier": "all sizes and all sequences of puts, lookups, flushes and steps of the clean-up", "why_tests_cant": "The gauge is set only after a put; removals, flushes and concurrent puts leave it stale, which a test that puts and reads does not show.", "anchors": ["cache/expirationcache/expiration_cache.go:ExpiringLRUCache.Put", "cache/expirationcache/expiration_cache.go:ExpiringLRUCache.Get", "resolver/caching_resolver.go:configureCaches", "resolver/bootstrap.go:newBootstrap", "metrics/metrics_event_publisher.go:registerCachingEventListeners"]}
{"id": "C126", "title": "Every query is counted once, under its client, type and outcome", "statement": "With metrics enabled, in any interleaving of queries, the counters of queries, responses, errors and durations show exactly the number of queries with those labels; each query is counted once as a query and once as a response or an error, with the reason, code and type of the answer which the client gets.", "quantifier": "all label texts, all finite sets of concurrent queries and all interleavings; all configurations and states of the chain", "why_tests_cant": "The counters are read and written by concurrent queries and the metrics resolver sits behind resolvers which answer themselves.", "anchors": ["resolver/metrics_resolver.go:MetricsResolver.Resolve", "server/server.go:createQueryResolver"]}
{"id": "C127", "title": "Collecting metrics does not change answers", "statement": "A query gets the same result whether metrics are enabled or not.", "quantifier": "all configurations, states, upstream behaviours and requests with a question", "why_tests_cant": "Two configurations must be compared on all inputs; a panic in the metrics library appears only for odd client identifiers.", "anchors": ["resolver/metrics_resolver.go:MetricsResolver.Resolve", "server/server.go:Server.resolve"]}
{"id": "C128", "title": "A query over the REST interface shows what a DNS client is answered", "statement": "For every name, known type, HTTP client and behaviour of the resolvers: a query over the REST interface (and the command query) gives the records and the code of the message a DNS client with the same address and client id would be answered over TCP for that name and type, with reason and kind of the resolvers' response; status 500 iff that client is answered SERVFAIL for an error; 400 iff the type is unknown, without resolving; the command asks once and writes exactly these texts.", "quantifier": "all names, types, HTTP requests, chains of resolvers, message ids", "why_tests_cant": "The equality relates two entry points of the server for every input and every behaviour of the resolvers; tests mock the querier or the REST interface.", "anchors": ["api/api_interface_impl.go:OpenAPIInterfaceImpl.Query", "server/server_endpoints.go:Server.Query", "server/server.go:Server.resolve", "cmd/query.go:query"]}
{"id": "C129", "title": "Which packets are resolved, and how every packet is answered", "statement": "Responses are neither answered nor resolved; every other packet is answered by exactly one message, with the id of the packet unless the resolvers made it; only messages with exactly one question are resolved; names in the zone healthcheck.blocky (in any case, with escapes considered, and not for type DS) are answered NOERROR without resolving, all other plain queries are resolved once for the client's address; the command healthcheck succeeds against every running server.", "quantifier": "all packets, names, types, connections, chains of resolvers", "why_tests_cant": "Names have unboundedly many labels, cases and escapes; tests use the name itself only.", "anchors": ["server/server.go:Server.registerDNSHandlers", "server/server.go:Server.OnRequest", "server/server.go:Server.OnHealthCheck", "cmd/healthcheck.go:healthcheck"]}
{"id": "C130", "title": "The REST interface controls the resolvers that serve the queries", "statement": "Refreshing refreshes denylists and allowlists, each once, also if one fails; 200 iff both succeed, else 500 with a text of one line.  In every chain the first resolver of the wanted type is found; in the chain of the server these are the only blocking resolver and the only cache.", "quantifier": "all states of the lists, all outcomes of a refresh, all chains", "why_tests_cant": "The claim ranges over every chain and every combination of outcomes.", "anchors": ["api/api_interface_impl.go:OpenAPIInterfaceImpl.ListRefresh", "resolver/blocking_resolver.go:BlockingResolver.RefreshLists", "resolver/resolver.go:GetFromChainWithType", "server/server_endpoints.go:Server.createOpenAPIInterfaceImpl"]}
{"id": "C131", "title": "A server that starts listens on exactly the configured addresses", "statement": "UDP and TCP on each DNS address, TLS on each TLS address, HTTP on each HTTP address and HTTP with TLS on each HTTPS address, nothing else; everything encrypted uses the configured certificate, a self-signed one iff neither file is configured; the server starts iff a certificate is there where one is needed, all HTTP addresses can be opened and the resolvers can be made; without encrypted addresses the files do not matter.", "quantifier": "all lists of addresses, certificate files and outcomes of opening sockets", "why_tests_cant": "Any number of addresses in any combination; tests start one server per kind.", "anchors": ["server/server.go:NewServer", "server/server.go:createServers", "server/server.go:createHTTPListeners", "server/server.go:retrieveCertificate"]}
{"id": "C132", "title": "The process ends only by a signal or a failed listener, and never ignores one", "statement": "In every interleaving of the servers' goroutines, signals and failures: it ends with an error only if a server failed and without one only after a signal; a server that fails while the process waits can always be noticed and ends it with an error; without failure and signal it keeps waiting; once a signal is taken, stopping ends after at most one step per DNS server and one more; if all DNS servers serve then, each is shut down.", "quantifier": "all numbers of servers and all interleavings of starts, failures, signals and steps of the control goroutine", "why_tests_cant": "The property is about every schedule of goroutines.", "anchors": ["cmd/serve.go:startServer", "server/server.go:Server.Start", "server/server.go:Server.Stop"]}
{"id": "C133", "title": "After a refresh the lists hold exactly what is written in the configured sources", "statement": "For all configured groups whose sources (inline text, link or file, by their text) can all be read with not too many errors, whatever was loaded before and in whatever order the groups end: after the refresh a lookup for a name returns, in order and without repetition, exactly those of the groups asked for of which a source has an entry (a domain, a line of a hosts file, a wildcard, a regular expression or an address) that matches the name.", "quantifier": "all groups, sources, files, answers of the network, earlier loads and orders of loading", "why_tests_cant": "The claim composes downloading, parsing, loading and looking up for every content of every source; tests check each part with small files.", "anchors": ["lists/list_cache.go:ListCache.refresh", "lists/list_cache.go:ListCache.createCacheForGroup", "lists/list_cache.go:ListCache.Match", "config/bytes_source.go:BytesSource.UnmarshalText"]}
{"id": "C134", "title": "What is written on a deny list is blocked at the server, what is written on an allow list is not", "statement": "For the whole server as configured: a query (one question, not a reverse lookup) for a name without custom record and hosts entry, which is written on a deny list of a group that applies to the client and on no allow list of its groups, is answered with exactly the configured block answer, with the id of the query, the reason as explanation, and without asking caches or upstreams.  A name on an allow list of an applying group is always passed on and its answer never replaced.  A name on no deny list is passed on, for clients that are not restricted to allow lists, and blocked only because of what its answer refers to.", "quantifier": "all configurations, contents of lists, clients, names and behaviours of upstreams", "why_tests_cant": "The chain of fourteen resolvers, the lists and the server interact; tests exercise the blocking resolver with a mocked next resolver.", "anchors": ["server/server.go:createQueryResolver", "server/server.go:Server.resolve", "resolver/blocking_resolver.go:BlockingResolver.Resolve", "resolver/ede_resolver.go:EDEResolver.Resolve", "lists/list_cache.go:ListCache.Match"]}
{"id": "C135", "title": "The client is answered with the configured custom records", "statement": "For every query that passes the filters, with a custom domain (the longest that covers the name) with address, TXT or SRV records and no rewriting rule about the name: the message sent has exactly the configured records for the type asked for, with the name asked, their TTLs and the id of the query, cut off only with the TC bit, and neither hosts files, lists, caches nor upstreams are consulted.", "quantifier": "all configurations of records, all names, types and clients", "why_tests_cant": "Relates the configuration to the message on the wire through the whole chain, for every configuration.", "anchors": ["server/server.go:createQueryResolver", "server/server.go:Server.resolve", "resolver/custom_dns_resolver.go:CustomDNSResolver.Resolve"]}
{"id": "C136", "title": "The client is answered with the address in the hosts files", "statement": "For every address query that passes the filters, for a name without custom record, for which the hosts files have an address of that family: the message sent has exactly one record, with the name asked for, the address (of the last matching line, names before aliases) and the configured TTL, and neither lists, caches nor upstreams are consulted.", "quantifier": "all hosts files, names and clients", "why_tests_cant": "Relates the files to the message on the wire through the whole chain, for every content.", "anchors": ["server/server.go:createQueryResolver", "server/server.go:Server.resolve", "resolver/hosts_file_resolver.go:HostsFileResolver.Resolve"]}
{"id": "C137", "title": "All other queries are asked upstream once, and the answer is passed on", "statement": "For every query that no earlier source answers (custom records, hosts files, lists, cache, zones with their own upstreams, special-use names), if the client's upstreams answer with a message that refers to nothing denied (or the name is allowed): the upstreams are asked exactly once, with the query as prepared for them, and the client gets that message: same code, question and sections, cut off only with the TC bit, and TTLs changed only as caching demands.", "quantifier": "all configurations, clients, names, types and answers of upstreams", "why_tests_cant": "A refinement statement for the whole chain over all answers; tests check the resolvers one by one.", "anchors": ["server/server.go:createQueryResolver", "server/server.go:Server.resolve", "resolver/caching_resolver.go:CachingResolver.Resolve", "resolver/upstream_tree_resolver.go:UpstreamTreeResolver.Resolve"]}
{"id": "C138", "title": "Names of zones with their own upstream are answered by it and never get to the other upstreams", "statement": "For every configuration without rewriting rules for conditional upstreams and a name in a configured zone: the general upstreams are not asked, whatever the lists, caches and zone upstreams do.  If the name is not blocked, not cached and the upstream of the longest zone answers, the client gets its code and records, with the question normalised, TTLs changed only as caching demands.", "quantifier": "all zone mappings, names, clients, states of the cache and answers", "why_tests_cant": "Privacy of the zone is a statement about all executions of the chain; tests check that one resolver does not call the next.", "anchors": ["server/server.go:createQueryResolver", "resolver/conditional_upstream_resolver.go:ConditionalUpstreamResolver.Resolve", "resolver/conditional_upstream_resolver.go:ConditionalUpstreamResolver.processRequest"]}
{"id": "C139", "title": "The bootstrap DNS configuration means what is written", "statement": "The value of bootstrapDns is read as one item or as a list of items, each a text for an upstream or a mapping with the keys upstream and ips and no others, and is refused in every other case. A configuration is accepted exactly when each item names an upstream and either its host is an address or it is encrypted and lists addresses; otherwise exactly the wrong items are reported by their numbers, in order. Refuted in one respect: an empty text among the addresses is accepted and becomes the address of the upstream.", "quantifier": "all YAML nodes, all lists of items", "why_tests_cant": "Unit tests read a few documents; the equivalence is over all nestings, all orders and repetitions of keys and all combinations of items.", "anchors": ["config/config.go:185-221 UnmarshalYAML", "config/config.go:297-302 bootstrappedUpstream", "resolver/bootstrap.go:264-315 newBootstrapedResolvers"]}
{"id": "C140", "title": "Lookups through the bootstrap DNS end and use the configured addresses", "statement": "Looking up the addresses of an upstream ends for every configuration, state of the cache and behaviour of the upstreams: the bootstrap upstreams never need a lookup of their own, their addresses come from the configuration alone. A host that is an address needs no lookup; without a bootstrap DNS the resolver of the system is asked; otherwise the host gets exactly the addresses that the types in use bring, from the cache or from upstreams asked at their configured addresses, and nothing for filtered types. Refuted in one respect: addresses listed for an upstream whose host is an address are accepted and never used.", "quantifier": "all configurations, cache states, upstream behaviours, hosts", "why_tests_cant": "Termination of a mutual recursion between bootstrap and upstreams cannot be shown by running it on some hosts.", "anchors": ["resolver/bootstrap.go:58-155 NewBootstrap, UpstreamIPs, resolveUpstream", "resolver/bootstrap.go:210-262 resolve, resolveType"]}
{"id": "C141", "title": "The bootstrap cache always reloads, and keeps names for at least an hour", "statement": "Whatever is configured for caching, the cache of the bootstrap DNS is enabled and reloads every expired name. If the user set no smallest time, answers are kept for at least an hour (partial: unless a largest time below an hour is set, for which it is refuted); a smallest time set by the user is used as it is.", "quantifier": "all cache configurations and answers", "why_tests_cant": "Tests use one or two settings; the interplay of minimum, maximum and disabled cache is over all values.", "anchors": ["config/caching.go:45-55 EnablePrefetch", "resolver/bootstrap.go:88-98 NewBootstrap", "resolver/caching_resolver.go:304-332 adjustTTLs"]}
{"id": "C142", "title": "Names of configured values are read exactly as documented, and unsafe values are replaced", "statement": "Every enumerated option (IP version, start strategy, protocol, kind of query log, TLS version, upstream strategy, log format) accepts exactly its documented names, case-sensitively, and prints values with the name that reads back to the same value; the query log has all fields unless configured otherwise, and then the configured ones in order. Whatever minimal TLS version is configured, no connection is served below TLS 1.2, with 1.3 configured none below 1.3; the upstream timeout in use is always positive.", "quantifier": "all texts, all values, all lists of fields, all sets of versions offered by clients", "why_tests_cant": "Tests try some names; the names are slices of one text and a table of numbers, and only a proof over all texts excludes that another text (such as a slice across two names) is accepted or that two values share a name.", "anchors": ["config/config_enum.go:28-101", "config/config.go:92-102", "config/upstreams.go:21-28", "server/server.go:83-99", "config/query_log.go:28-32"]}
{"id": "C143", "title": "Configured query types are filtered, and no others", "statement": "A list of query types is accepted exactly if every entry is the name of a known type, as written; then a query is answered with an empty message and passed to nobody exactly if the name of its type is in the list, and all other queries are passed on unchanged.", "quantifier": "all tables of types, all lists, all queries", "why_tests_cant": "Tests filter one type; the statement is about every table of names, list and query.", "anchors": ["config/qtype_set.go:38-76", "resolver/filtering_resolver.go:26-36"]}
{"id": "C144", "title": "A resolver printed as disabled leaves queries alone", "statement": "The printed configuration lists every resolver of the chain once, in order; a resolver printed as disabled passes every query on unchanged and returns the answer unchanged (the one for client names sets only the client's address as its name), rewriting rules around a resolver without configuration change nothing, and if all are disabled a query gets the upstreams' answer. Not so for custom DNS: with only a zone it is printed as disabled, yet it answers from the zone.", "quantifier": "all configurations and states, all queries with a question, all behaviours of the following resolvers", "why_tests_cant": "IsEnabled and Resolve are separate functions per resolver; tests check each on a few configurations, not that one implies the other for all configurations.", "anchors": ["resolver/resolver.go:142-171", "server/server.go:347-357", "config/custom_dns.go:92-94", "resolver/custom_dns_resolver.go:33-77"]}
{"id": "C145", "title": "The printed configuration is complete, laid out and free of passwords", "statement": "When the configuration is printed, every message that the log level lets through is written once and in order. As text it has the blanks of all surrounding levels of indentation before it; as JSON it is unchanged. Afterwards the logger is as it was. The lines that start with an arrow are the headings of the stages in the order of the chain, disabled ones only at the level debug. Single options such as masks, times and intervals stand in the line which belongs to them. All groups of lists with their sources, all upstreams below their group and all entries of mappings can be read; the printed totals are the sums and a warning appears beyond 500 regular expressions. The passwords of Redis and its sentinels change nothing that is written, and the password of a query log target written as a URL is not shown. Passwords in the addresses of lists should not be shown either, and messages of other parts of the program should be unaffected.", "quantifier": "all configurations, log levels, formats and texts of durations; all points at which another message comes in between", "why_tests_cant": "Tests compare a few log lines of single parts with fixed configurations; they cannot show that nothing of a secret reaches any line, or how nested indentation and other goroutines interact.", "anchors": ["log/logger.go:145-190", "server/server.go:347-361", "resolver/resolver.go:158-171", "config/redis.go:27-50", "config/blocking.go:58-93", "config/query_log.go:40-57", "config/config.go:341-354", "config/upstreams.go:36-91", "lists/list_cache.go:50-69", "resolver/rewriter_resolver.go:53-57"]}
{"id": "C146", "title": "The query log on the console shows exactly the non-empty configured fields", "statement": "A line of the console's query log has exactly the fields of the entry that are not empty (or zero), each once. Question, reason, answer and duration appear only if they are configured; without the client fields the placeholders 0.0.0.0 and none are shown. The instance is the trimmed content of /etc/hostname or else the host's name. Each configured type creates its own kind of writer. Every answered query should be seen on the console, but lines are written at the level info and so are lost when the log level is warn or higher.", "quantifier": "all entries, requests, responses, field configurations and log levels", "why_tests_cant": "Tests write single entries; they cannot cover every combination of fields, empty values and log levels.", "anchors": ["querylog/logger_writer.go:23-55", "resolver/query_logging_resolver.go:36-62", "resolver/query_logging_resolver.go:180-217", "resolver/query_logging_resolver.go:243-258"]}
{"id": "C147", "title": "Every HTTP request is served by the handler of its method and path", "statement": "The HTTP server decides by the method and the path alone. GET and POST of /dns-query, also with a client's ID behind it, go to DNS over HTTPS; six paths below /api go to the REST interface with their one method; the documentation, the start page, the profiler, the static files and the metrics have theirs. A path which only other methods use is answered with 405, one that nobody uses with 404. Only the routes for DNS resolve queries, and the client's ID is the part of the path. The server can be started exactly if the configured path of the metrics starts with a slash; otherwise it panics at the start (refuted that every accepted configuration starts). The path of the metrics may silently take the place of another route (refuted).", "quantifier": "all configurations of metrics, methods, paths, queries and resolver chains", "why_tests_cant": "Tests request a handful of fixed URLs; they cannot show that no other method or path reaches a handler, or what an unusual path of the metrics does.", "anchors": ["server/server_endpoints.go:56-65", "server/server_endpoints.go:175-210", "server/server_endpoints.go:270-272", "metrics/metrics.go:22-29", "api/api_server.gen.go:306-323", "server/server.go:486-496"]}
{"id": "C148", "title": "Headers of answers, and what pages of other origins may do", "statement": "Every answer over TLS has the four security headers with their values, also errors and answers to preflights; without TLS none has one. A page of any origin may read the answers to its GET and POST requests. With credentials it never may, although the server says so in the headers (the option has no effect). A preflight is answered without calling a handler, and allows exactly the methods GET, POST and OPTIONS and the headers accept, authorization, content-type, x-csrf-token and origin; so a page can send DNS queries by POST. Refuted: that a page of another origin cannot control the server; with a plain request it can disable blocking, flush the cache or reload the lists.", "quantifier": "all requests, origins, methods, lists of header names and routes", "why_tests_cant": "Tests check the headers of single requests; what any page in any browser can read or send follows from all combinations of origin, method and headers.", "anchors": ["server/http.go:52-93", "api/api_server.gen.go:306-323"]}
{"id": "C149", "title": "Links of the start page lead somewhere; time limits of downloads belong to the server", "statement": "Every link on the start page leads to a handler for every configuration that starts, and the link to the metrics is there exactly if they are enabled and leads to them, unless their path is one of DNS over HTTPS. Refuted: the documented time limits for reading and writing of downloads have no effect on downloads; they are the limits of the HTTP server for its own requests.", "quantifier": "all configurations of metrics and of downloads", "why_tests_cant": "Tests look at one start page with default settings; that an option has no effect at all cannot be seen in a test of another part.", "anchors": ["server/server_endpoints.go:220-260", "server/http.go:20-37", "lists/downloader.go:45-54", "lists/downloader.go:86-88", "docs/configuration.md:932-939"]}
{"id": "C150", "title": "The metrics of prefetching count what prefetching does", "statement": "The counter of prefetches is the number of times an entry was fetched again with a usable answer; the counter of hits is the number of questions answered from an entry that the last prefetch wrote; the gauge of names equals the number of names in the table of asked names after each lookup, is never below it and never above the configured maximum; without prefetching or events all stay 0.", "quantifier": "all configurations and all interleavings of queries, answers, clean-ups, flushes and messages of other nodes", "why_tests_cant": "Whether an entry stems from a prefetch depends on the whole history of the cache; the gauge is only set on lookups.", "anchors": ["cache/expirationcache/prefetching_cache.go:PrefetchingExpiringLRUCache.Get", "resolver/caching_resolver.go:CachingResolver.reloadCacheEntry", "metrics/metrics_event_publisher.go:registerCachingEventListeners"]}
{"id": "C151", "title": "What a clean-up makes of an expired answer", "statement": "When the clean-up finds an expired answer, it is removed if the name was not asked often enough or could not be fetched again, and replaced if a new answer came; in no case is an expired answer served for ever.", "quantifier": "all configurations and all histories of the cache", "why_tests_cant": "Clean-up, prefetch and lookups interleave over many expiry periods; a test waits for one.", "anchors": ["cache/expirationcache/expiration_cache.go:ExpiringLRUCache.cleanUp", "resolver/caching_resolver.go:CachingResolver.reloadCacheEntry"]}
{"id": "C152", "title": "A question to an encrypted upstream reaches only who holds its certificate", "statement": "With tcp-tls or https the question goes to the address of the upstream and the port configured, only after a handshake with TLS 1.2 or newer and a certificate for the common name (the host if there is none), and only the answer of that peer is taken; over https the request has the path, host, content type and agent configured; with tcp+udp the question goes out once over each, and only answers with its id are taken.", "quantifier": "all upstreams which the configuration accepts, all addresses, questions, networks and peers", "why_tests_cant": "Tests run against a friendly server on the loopback address with one certificate; who else could get or answer the question is not observable.", "anchors": ["resolver/upstream_resolver.go:createUpstreamClient", "resolver/upstream_resolver.go:httpUpstreamClient.callExternal", "resolver/upstream_resolver.go:dnsUpstreamClient.callExternal", "resolver/upstream_resolver.go:httpUpstreamClient.fmtURL"]}
{"id": "C153", "title": "With encrypted upstreams no question leaves in the clear", "statement": "If all upstreams of a group are encrypted, then for a question of a client everything that is sent - over all attempts, addresses, strategies and retries - goes to peers that hold a certificate for one of these upstreams, and the answer comes from such a peer, whatever addresses the lookup of the upstreams gives; plain upstreams of other groups are asked at their own addresses only; the number of packets for one question is bounded.", "quantifier": "all groups, strategies, networks (another at each attempt), addresses, random numbers and orders of arrival", "why_tests_cant": "It is about everything that is not sent, to all others, with forged lookups; tests see one exchange with one server.", "anchors": ["resolver/upstream_resolver.go:UpstreamResolver.Resolve", "resolver/strict_resolver.go:StrictResolver.Resolve", "resolver/parallel_best_resolver.go:ParallelBestResolver.Resolve", "resolver/resolver.go:initGroupResolvers"]}
{"id": "C154", "title": "Every line of a list that is not understood is named with its number", "statement": "For every source the warnings are exactly its lines which are not understood, in order and with their numbers (comments and empty lines counted): all of them if the configured number of errors allows it, otherwise those up to the first that is too many, which is the line named in the error. The number of entries in each message is that of the lines above. A context that is done only cuts this short.", "quantifier": "all texts, meanings of lines, limits of errors, read errors and times of cancellation", "why_tests_cant": "Tests check one short text with one bad line; skipped lines, limits and the end of a file shift numbers in ways that only all texts show.", "anchors": ["lists/parsers/lines.go:lines.Next", "lists/parsers/filtererrors.go:errorFilter.Next", "lists/parsers/parser.go:ForEach", "lists/list_cache.go:ListCache.parseFile"]}
{"id": "C155", "title": "The reason given for a line is the reason", "statement": "A line of a hosts file is refused with the first thing that is wrong with it: its address, its first name that is none (and whether it is too long), or that it has no name. A line of a list either has entries or is refused with three reasons, one for each way to read it, which are the right ones.", "quantifier": "all lines, with any functions for addresses, IDNA and regular expressions", "why_tests_cant": "A test checks the message of a chosen line; that no other line has that message, and no accepted line any, is about all lines.", "anchors": ["lists/parsers/hosts.go:HostsFileEntry.UnmarshalText", "lists/parsers/hosts.go:HostListEntry.UnmarshalText", "lists/parsers/hosts.go:WildcardEntry.UnmarshalText", "lists/parsers/hosts.go:HostsIterator.UnmarshalText"]}
{"id": "C156", "title": "The query log keeps entries for the configured days over all restarts and deletes them afterwards", "statement": "Whatever starts, stops, clean-ups and queries happen, an entry stays in the query log for its days of retention (up to an hour where clocks change); without a retention nothing is ever deleted; and when the process has run for half a day nothing is left that is older than the retention plus a day and a half (files) or half a day and an hour (tables). False for a Timescale log without retention (the default gets a policy that drops what is older than 0 days) and for a process that restarts more often than every 12 hours (nothing is ever deleted).", "quantifier": "for all histories of starts, ends, queries, passing time and applied policies, all clocks and retentions", "why_tests_cant": "The clean-up runs on a 12 hour ticker; tests call CleanUp directly and never let the process restart or time pass.", "anchors": ["resolver/query_logging_resolver.go:NewQueryLoggingResolver", "resolver/query_logging_resolver.go:QueryLoggingResolver.periodicCleanUp", "querylog/database_writer.go:DatabaseWriter.CleanUp", "querylog/file_writer.go:FileWriter.CleanUp", "querylog/database_writer.go:databaseMigration"]}
{"id": "C157", "title": "The database of the query log is set up completely, also by a second start and after failed attempts", "statement": "When a writer for a database is created the table is there, has its primary key (MySQL, PostgreSQL) or is a hypertable with a retention policy (Timescale); creating it again works and changes nothing; failed attempts leave nothing behind. False for PostgreSQL (the migration tests for \"postgres\" but the type is \"postgresql\", the key is never added), for errors of MySQL whose text happens to contain 1060, and for a changed retention of Timescale (the first policy stays).", "quantifier": "for all sequences of attempts with any errors, all schemas found, all retentions", "why_tests_cant": "The tests pass the type \"postgres\" directly to the inner constructor, a value production never passes; they do not migrate a database twice with other settings.", "anchors": ["querylog/database_writer.go:databaseMigration", "querylog/database_writer.go:NewDatabaseWriter", "resolver/query_logging_resolver.go:GetQueryLoggingWriter"]}
{"id": "C158", "title": "The metrics about loading lists count every failed try and tell when a group was last replaced", "statement": "blocky_failed_downloads_total grows by exactly one for every failed try of a download of a list, and by nothing else; when all downloads have ended it is the number of all failed tries, whatever the interleaving. blocky_last_list_group_refresh_timestamp_seconds is the time at which a group of deny or allow lists was last replaced by a refresh; a failed refresh of a group never renews it, and no refresh that replaced a group ends without renewing it.", "quantifier": "all histories of downloads (any number of attempts, any answers) and of refreshes of groups of both types, in every interleaving of their steps", "why_tests_cant": "Tests publish single events or look at one download; that no event is lost, doubled or attributed to a failed refresh over all interleavings needs an invariant over histories.", "anchors": ["metrics/metrics_event_publisher.go:registerBlockingEventListeners", "metrics/metrics_event_publisher.go:registerCachingEventListeners", "lists/downloader.go:httpDownloader.DownloadFile", "lists/list_cache.go:ListCache.refresh"]}
{"id": "C159", "title": "Encrypted listeners accept exactly the clients that speak strongly enough, and show the configured certificate", "statement": "On the listeners for DNS over TLS and HTTPS a connection is made if and only if client and server have in common a TLS version which is at least 1.2 and at least the configured one and, for the highest such version, a strong cipher suite that fits the certificate; every connection has an ephemeral key exchange and an authenticated cipher. The certificate shown is the configured one; one made by the program is used only if neither certificate nor key is configured, and files that cannot be used prevent the start.", "quantifier": "all configurations, contents of the certificate files, times of start and all client hellos", "why_tests_cant": "Tests make a few handshakes with one client library; that no combination of offered versions and suites leads to a weak connection or to another certificate is a statement about all client hellos.", "anchors": ["server/server.go:tlsCipherSuites", "server/server.go:retrieveCertificate", "server/server.go:newTLSConfig", "util/tls.go:TLSGenerateSelfSignedCert"]}
{"id": "C160", "title": "With log privacy on the log of the program does not tell what was asked or answered", "statement": "With log.privacy on, every line which answering a query leaves in the program's log is put together from texts which say nothing about the question and the answer (ids, the address and names of the client, names of groups and upstreams, errors of libraries, types, numbers), texts of the code, and texts without letters and digits. A query which is answered without trouble writes nothing at level info but the line of the query log on the console. False at level debug for seven kinds of lines (the blocking resolver, the lists and the custom DNS resolver write names and answers in plain), and at level error for a query ending in a CNAME loop of the custom DNS records and for a prefetch which fails.", "quantifier": "all configurations, states of caches and lists, requests, and everything that may happen outside (events at the upstreams, errors, entries found), for every set of public texts", "why_tests_cant": "Tests check the obfuscation function and single fields; that no line of any resolver, in any combination of configuration and outcome, shows a name is a statement about all runs.", "anchors": ["log/context.go:CtxWithFields", "server/server.go:newRequest", "server/server.go:Server.handleReq", "util/common.go:Obfuscate", "util/common.go:AnswerToString", "resolver/blocking_resolver.go:BlockingResolver.handleDenylist", "resolver/custom_dns_resolver.go:CustomDNSResolver.processRequest", "resolver/caching_resolver.go:CachingResolver.reloadCacheEntry", "cache/stringcache/string_caches.go:stringMap.contains"]}
{"id": "C161", "title": "What the cache holds for a question is what the client gets, and no upstream is asked", "statement": "If caching is on, the query is cacheable and the cache holds an entry for its question, and neither custom DNS, hosts files nor the lists decide the query, the client gets exactly one reply: with the number and the question of its own query, the code and the records that were stored, and TTLs lowered together so that the smallest is the time which remains. Nothing after the cache is consulted.", "quantifier": "all configurations, contents of lists, cache entries, remaining times and queries with one question in a plain name", "why_tests_cant": "Tests call the caching resolver alone with a mocked chain; that the whole chain and the server deliver the stored answer unchanged for every configuration is a statement about the composition.", "anchors": ["resolver/caching_resolver.go:CachingResolver.Resolve", "resolver/caching_resolver.go:setTTLInCachedResponse", "server/server.go:Server.OnRequest", "server/server.go:createQueryResolver"]}
{"id": "C162", "title": "Special-use names are answered by the program itself, seen at the server", "statement": "A query for a special-use name in lower case, for which nothing is configured (custom DNS, hosts files, conditional upstreams), which the cache does not hold and the lists let pass, gets exactly one reply, which is the answer the RFCs demand (TTLs within the limits of caching), explained as filtered if EDE is on; no upstream is asked.", "quantifier": "all configurations with the special-use resolver on, all contents of lists, all such names and types", "why_tests_cant": "Tests call the resolver alone; that no configuration of the other resolvers lets such a query out to an upstream needs the composition of the chain.", "anchors": ["resolver/sudn_resolver.go:SpecialUseDomainNamesResolver.Resolve", "server/server.go:createQueryResolver", "server/server.go:Server.OnRequest"]}
{"id": "C163", "title": "Queries of filtered types and for short names are refused at once", "statement": "A query whose type is filtered is answered with the code for success and no records, with its own number and question; with fqdnOnly on, a query for a name without a dot is answered with NXDOMAIN and no records. In both cases no later resolver is consulted: nothing is logged, counted, looked up or sent. The reply to a short name does not have the number of the query and is not marked as a reply, so clients drop it.", "quantifier": "all configurations and all queries", "why_tests_cant": "Tests look at the two resolvers alone; that nothing else happens for such queries in any configuration, and what reaches the client, is a statement about chain and server.", "anchors": ["resolver/filtering_resolver.go:FilteringResolver.Resolve", "resolver/fqdn_only_resolver.go:FQDNOnlyResolver.Resolve", "server/server.go:createQueryResolver", "server/server.go:Server.OnRequest"]}
{"id": "C164", "title": "With EDE on every answer of the program itself says why", "statement": "With EDE on, every response whose kind has an extended error code carries this code with the reason as its only extended error; responses of other kinds, and all responses with EDE off, are those of the resolvers behind. False for queries refused at once: the resolver which adds the codes comes after the type filter and the FQDN check, so their codes never reach a client.", "quantifier": "all configurations, states and queries", "why_tests_cant": "Tests call the EDE resolver with mocked responses of each kind, also of kinds which never reach it; which responses pass it is decided by the order of the chain.", "anchors": ["resolver/ede_resolver.go:EDEResolver.Resolve", "resolver/ede_resolver.go:EDEResolver.addExtraReasoning", "model/models.go:ResponseType.ToExtendedErrorCode", "server/server.go:createQueryResolver"]}
{"id": "C165", "title": "An answer which refers to a denied name or address is replaced, wherever it comes from", "statement": "If a name is on no list which counts for the client, and the answer for it - of an upstream or out of the cache - has a record with an address or an alias which is denied to the client and not allowed, the client gets exactly one reply: the block answer with its own number and question and the kind of record and the groups as explanation. Lists changed since the answer was stored count.", "quantifier": "all configurations, contents of lists, upstream answers, cache entries and queries with one question in a plain name", "why_tests_cant": "Tests of the blocking resolver use one alias and a mocked chain; that no path through cache, zones and upstreams gets around the lists is a statement about the composition for all answers.", "anchors": ["resolver/blocking_resolver.go:BlockingResolver.Resolve", "server/server.go:createQueryResolver", "server/server.go:Server.handleReq"]}
{"id": "C166", "title": "Clients are told when the upstreams fail", "statement": "If no upstream (or none of the zone's own upstreams) answers a query which nothing else decides, the client gets exactly one reply with the number and the question of its query and the code SERVFAIL; if the failure is a SERVFAIL message of an upstream, the code is SERVFAIL too. The client is never left without a reply and never gets an empty success.", "quantifier": "all configurations, contents of lists, errors and queries with one question in a plain name", "why_tests_cant": "Tests make one mocked resolver return an error; that the error gets through all resolvers of the chain and becomes a reply is a statement about all of them.", "anchors": ["server/server.go:Server.handleReq", "server/server.go:Server.resolve", "resolver/upstream_resolver.go:UpstreamServerError.Error"]}
{"id": "C167", "title": "Reverse lookups of own addresses are answered with the own names, and are not sent out", "statement": "A reverse lookup of an address which custom records give to names is answered with exactly these names, and nothing but the custom records is consulted. If no custom record has the address and an entry of the hosts files in force has it, its name and aliases are the answer and nothing behind the hosts files is consulted. Other reverse lookups go on to the lists.", "quantifier": "all configurations, hosts files, orders of the maps, IPv4 and IPv6 addresses", "why_tests_cant": "Tests ask for one or two addresses in one resolver; the claim is about all addresses, map orders and the whole chain up to the reply of the server.", "anchors": ["resolver/custom_dns_resolver.go:CustomDNSResolver.handleReverseDNS", "resolver/hosts_file_resolver.go:HostsFileResolver.handleReverseDNS", "server/server.go:createQueryResolver"]}
{"id": "C168", "title": "A rewritten name is asked for at the upstreams of its zone, and the client sees its own name only", "statement": "If a rewriting rule of the conditional upstreams makes another name of the name of a query, the upstreams responsible for the other name are asked for the other name, the deny and allow lists are asked for the client's name, and the client gets the answer with its own question and its own name on the records. If no zone covers the other name, or with fallbackUpstream the zone fails or has no records, the query goes once to the upstream servers under the client's own name and the client gets that answer.", "quantifier": "all configurations, contents of lists and answers; names to which exactly one rule applies", "why_tests_cant": "Tests rewrite one name in front of a mocked resolver; the claim is about all names and about the lists, the cache and the server around the rewriter.", "anchors": ["resolver/rewriter_resolver.go:RewriterResolver.Resolve", "resolver/rewriter_resolver.go:RewriterResolver.rewriteRequest", "resolver/conditional_upstream_resolver.go:ConditionalUpstreamResolver.Resolve", "server/server.go:createQueryResolver"]}
{"id": "C169", "title": "Custom records reached by rewriting answer as if configured for the asked name", "statement": "If a rewriting rule of the custom records makes another name of the name of a query and custom records decide the other name, the client gets exactly one reply, with its own question and exactly the records of the wanted type which it would get if they were configured for its own name; nothing but the custom records is consulted. (If there are no records of this type, this holds with filterUnmappedTypes and without fallbackUpstream.)", "quantifier": "all configurations, orders of the maps and queries; names to which exactly one rule applies, records other than CNAME", "why_tests_cant": "Tests rewrite one name to one record; the claim is about all records, rules and orders of iteration, up to the reply of the server.", "anchors": ["resolver/rewriter_resolver.go:RewriterResolver.Resolve", "resolver/custom_dns_resolver.go:CustomDNSResolver.processRequest", "server/server.go:createQueryResolver"]}
{"id": "C170", "title": "Custom CNAMEs lead to nothing the lists deny", "statement": "If a custom record makes a name an alias (CNAME) of a name without custom records, the lists of the client count for the target too: if a list in force for the client denies the target, the client gets the alias and the block answer and nothing later than the lists is consulted; if the target is on no list, the upstream servers are asked for it exactly once and the client gets the alias and their records. (Refuted for clients known by name: the request for the target is made without the names of the client, so a client which is restricted by its name gets the address of a denied target through the alias.)", "quantifier": "all configurations, contents of lists, clients and targets", "why_tests_cant": "Tests follow CNAMEs in the custom resolver alone, without lists behind it; that every list of every client counts for every target is a statement about the whole chain.", "anchors": ["resolver/custom_dns_resolver.go:CustomDNSResolver.processCNAME", "resolver/resolver.go:newRequestWithClientID", "resolver/blocking_resolver.go:BlockingResolver.Resolve"]}
{"id": "C171", "title": "Upstream groups are kept apart", "statement": "What a client is told comes from the upstreams of its own group: behind the resolver that finds the client's names every resolver works for the client the query came from (same address, same names), whatever is done to the question on the way, so the group that is asked is one that is right for that client (its address, else its names, else its network, else the default). False in two ways: the target of a custom CNAME is asked for without the client's names, and the cache is looked up by type and name only, so that a client gets what another group answered.", "quantifier": "all configurations, cache contents, upstream answers and queries (any number of questions), all iteration orders over the groups", "why_tests_cant": "Unit tests of the upstream tree hand it requests that have a client already; which client a request still carries after thirteen resolvers, two rewriters and a shared cache is a property of all paths through the chain.", "anchors": ["resolver/upstream_tree_resolver.go:UpstreamTreeResolver.upstreamGroupByClient", "resolver/client_names_resolver.go:ClientNamesResolver.Resolve", "resolver/custom_dns_resolver.go:CustomDNSResolver.processCNAME", "resolver/caching_resolver.go:CachingResolver.Resolve", "server/server.go:createQueryResolver"]}
{"id": "C172", "title": "Upstreams learn of the client subnet only what is configured", "statement": "On every way a query takes through the chain (upstream groups, upstreams of zones, rewritten names, targets of custom CNAMEs, several questions) no resolver adds to what the client-subnet resolver lets through: with forwarding off the upstreams get at most the configured network of the client; with client-subnet handling off nothing that the client did not send itself; and questions asked to renew the cache tell of no client at all. (What C43 lets through gets to the upstreams too.)", "quantifier": "all configurations, cache contents, upstream answers, custom CNAME chains and queries; all states of the cache and all its events", "why_tests_cant": "Which options a request still has after all resolvers, and whether one of the paths puts back what was taken off, is a property of all paths through the chain; the unit tests of the client-subnet resolver look at that resolver only.", "anchors": ["resolver/ecs_resolver.go:ECSResolver.Resolve", "resolver/custom_dns_resolver.go:CustomDNSResolver.processCNAME", "resolver/rewriter_resolver.go:RewriterResolver.Resolve", "resolver/conditional_upstream_resolver.go:ConditionalUpstreamResolver.Resolve", "resolver/caching_resolver.go:CachingResolver.reloadCacheEntry", "server/server.go:createQueryResolver"]}
{"id": "C173", "title": "One query does not become many at the upstreams", "statement": "For one query the upstream groups are asked at most once, so that nobody can use the server to flood an upstream. Proved: at most as often as the query has questions (once, for the usual query with one question), whatever rewriting rules, zones, caches and upstream answers. False as it stands for queries with several questions, as can be sent over HTTPS: the cache sends the whole query once for each question.", "quantifier": "all configurations without custom CNAMEs to follow for the query, all cache contents, upstream answers and queries with any number of questions", "why_tests_cant": "The number of calls at the end of the chain depends on all resolvers before it and on what is in the cache; unit tests count calls of single resolvers for queries with one question.", "anchors": ["resolver/caching_resolver.go:CachingResolver.Resolve", "resolver/rewriter_resolver.go:RewriterResolver.Resolve", "resolver/blocking_resolver.go:BlockingResolver.Resolve", "server/server.go:createQueryResolver"]}
{"id": "C174", "title": "More entries only block more, or only block less", "statement": "When entries are added to deny lists, every query that was blocked stays blocked; when entries are added to allow lists, everyone who got an answer gets the very same answer. This holds for names, aliases and addresses in answers alike. For whole lists it is false: the first deny list of a group restricted to its allow lists (even one without entries) opens everything to it, and the first allow list of a group without deny lists blocks everything else.", "quantifier": "all contents of lists and their extensions, groups, clients, queries with any number of questions and answers from behind", "why_tests_cant": "The order of the checks decides it, for all combinations of groups, questions and answer records; unit tests look at one set of lists at a time and never compare two.", "anchors": ["resolver/blocking_resolver.go:BlockingResolver.Resolve", "resolver/blocking_resolver.go:handleDenylist", "resolver/blocking_resolver.go:determineAllowlistOnlyGroups", "resolver/blocking_resolver.go:matches"]}
{"id": "C175", "title": "Only the lists of a client's own groups count for it", "statement": "Take two servers that differ in any way in their lists, list configuration, assignment of clients, disabled groups and order of going through maps, but for one client apply the same groups, and these have the same entries and are restricted to allow lists alike: this client gets the same answer with the same reason for every query, and the same is asked for on its behalf. So changing lists for the children never changes anything for the others, and answers never depend on map orders.", "quantifier": "all pairs of list contents and configurations, all clients, queries and answers from behind", "why_tests_cant": "It compares two arbitrary servers that agree only where the client looks; tests compare one server with expected values.", "anchors": ["resolver/blocking_resolver.go:BlockingResolver.Resolve", "resolver/blocking_resolver.go:groupsToCheckForClient", "resolver/blocking_resolver.go:handleDenylist", "resolver/blocking_resolver.go:determineAllowlistOnlyGroups"]}
{"id": "C176", "title": "Disabling groups never blocks what was answered before", "statement": "While some groups are disabled (by command line, REST interface or for a time), everyone who got an answer before gets the same answer. Proved where none of the client's groups that are disabled has entries on allow lists. False in general: with a disabled group its allow list stops counting too, so a name that it allowed is then blocked by another group of the client.", "quantifier": "all list contents, configurations, sets of disabled groups (any and any larger one), clients, queries with any number of questions and answers from behind", "why_tests_cant": "It compares the verdicts under two sets of disabled groups for all lists and answers; unit tests disable the one group that blocks and look at names on its deny list.", "anchors": ["resolver/blocking_resolver.go:groupsToCheckForClient", "resolver/blocking_resolver.go:BlockingResolver.DisableBlocking", "resolver/blocking_resolver.go:handleDenylist", "resolver/blocking_resolver.go:BlockingResolver.Resolve"]}
{"id": "C177", "title": "Spelling a name differently does not evade the lists", "statement": "Two queries of one client that ask for the same names but for letter case and a final dot (and differ in anything else: type, id, flags), with answers from behind that say the same, are treated alike: either both are blocked for the same reason, or both get their answers; and one of them leaves the server exactly if the other does. Aliases in the answers may be spelled differently too. With zones that have their own upstreams, all spellings go to the same upstream, which sees one and the same name, or none does.", "quantifier": "all lists, groups, clients, names in all spellings, numbers of questions and answers", "why_tests_cant": "It compares any two spellings for all lists and all answers; unit tests check one spelling of one name.", "anchors": ["resolver/blocking_resolver.go:handleDenylist", "resolver/blocking_resolver.go:extractEntryToCheckFromResponse", "resolver/conditional_upstream_resolver.go:processRequest", "util/common.go:ExtractDomain", "util/common.go:ExtractDomainOnly"]}
