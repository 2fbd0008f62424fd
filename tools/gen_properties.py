#!/usr/bin/env python3
"""Writes properties.jsonl from the table below (run from /verif)."""
import json
P = []
def p(id, title, statement, quantifier, why, *anchors):
    P.append(dict(id=id, title=title, statement=statement, quantifier=quantifier,
                  why_tests_cant=why, anchors=list(anchors)))

p("C01","Wildcard list entries match exactly the domain and its sub-domains",
  "After loading any sequence of wildcard entries '*.d', a lookup of a host name reports a match iff the name equals some loaded d or ends with '.'+d; the order of loading and duplicate or overlapping entries do not matter.",
  "all finite sequences of entries, all looked-up names",
  "The lookup structure is compressed while it is being filled, so the outcome depends on the insertion history; tests cover a handful of orders.",
  "trie/trie.go:Trie.Insert", "trie/trie.go:Trie.HasParentOf", "trie/split.go:SplitTLD", "cache/stringcache/string_caches.go:wildcardCache")
p("C02","Plain list entries match exactly, ignoring case",
  "After loading any sequence of plain entries, a lookup reports a match iff the lower-cased name is one of the lower-cased non-empty entries, whatever the insertion order and number of duplicates.",
  "all finite sequences of entries, all looked-up strings",
  "Lookup is a binary search in a concatenated bucket kept sorted by incremental insertion; only a proof covers every order and every alignment.",
  "cache/stringcache/string_caches.go:stringMap.contains", "cache/stringcache/string_caches.go:stringCacheFactory")
p("C03","Every list entry is interpreted as exactly one kind",
  "An entry enclosed in slashes is a regular expression, an entry containing '*' is a wildcard (ignored unless it is '*.' plus a name without '*'), anything else is matched literally; no entry is stored in two matchers and none raises a crash.",
  "all entries accepted by the list parser",
  "Routing depends on byte-level shape of arbitrary third-party list content.",
  "cache/stringcache/chained_grouped_cache.go:chainedGroupFactory.AddEntry", "cache/stringcache/string_caches.go:regexCacheFactory.addEntry", "cache/stringcache/string_caches.go:wildcardCacheFactory.addEntry")
p("C04","Group matching reports exactly the matching requested groups",
  "For any state of the list cache and any requested groups, the reported groups are precisely those requested groups whose content matches the name in some matcher; the report is sorted and free of duplicates.",
  "all cache contents, all group lists, all names",
  "Union over several matchers and groups; the number of combinations is unbounded.",
  "cache/stringcache/chained_grouped_cache.go:ChainedGroupedCache.Contains", "cache/stringcache/in_memory_grouped_cache.go:InMemoryGroupedCache.Contains")
p("C05","Refreshing one group never changes another",
  "A refresh of group g replaces exactly the content of g by the newly added entries; every other group answers all lookups as before.",
  "all cache states, all sequences of refreshes",
  "Must hold for every history of refreshes.",
  "cache/stringcache/in_memory_grouped_cache.go:InMemoryGroupedCache.Refresh", "cache/stringcache/chained_grouped_cache.go:ChainedGroupedCache.Refresh")
p("C06","A failed list refresh keeps the previous content",
  "If a group's sources fail with a transient error, or fail without yielding any entry, all lookups in this group answer as before the refresh; otherwise the group contains exactly the entries delivered in this refresh.",
  "all source outcomes, all entry sequences, all earlier contents",
  "Depends on combinations of failures over several sources in any completion order.",
  "lists/list_cache.go:ListCache.createCacheForGroup", "lists/list_cache.go:ListCache.refresh")
p("C07","A lookup during a refresh sees the old or the new list",
  "A name which is matched by a group both before and after a refresh is matched at every moment during the refresh.",
  "all interleavings of a lookup with the steps of a refresh",
  "It is about every interleaving; unit tests do not control the scheduler.",
  "cache/stringcache/chained_grouped_cache.go:chainedGroupFactory.Finish")
p("C08","The parse error budget is respected exactly",
  "With a limit of n errors a source is processed to the end iff it has at most n malformed lines; every well-formed line before the abort is delivered, in order, exactly once; with a limit of -1 all well-formed lines are delivered.",
  "all files (finite line sequences), all limits",
  "Off-by-one in the budget only shows at exact counts; must hold for every placement of the bad lines.",
  "lists/parsers/filtererrors.go:errorFilter.Next", "lists/parsers/parser.go:ForEach", "lists/parsers/lines.go:linesParser.Next")
p("C09","Comments and blank lines are neutral",
  "Lines that are empty, blank or start with '#' yield nothing, and a trailing '#...' comment or surrounding white space never changes what a line yields.",
  "all lines and all comment texts",
  "Arbitrary text content.",
  "lists/parsers/lines.go:linesParser.Next")
p("C10","A hosts-file line yields all of its names",
  "For a line 'IP name alias...' the delivered names are exactly the names and aliases in order, and the line is rejected iff the IP is malformed, there is no name, or some name is invalid.",
  "all lines",
  "Arbitrary number of aliases and arbitrary white space.",
  "lists/parsers/hosts.go:HostsFileEntry.UnmarshalText")
p("C11","Accepted domain names are well-formed",
  "A plain list entry is accepted iff its length is at most 255 and it is a dot-separated sequence of labels of 1 to 63 letters, digits, '-' or '_', optionally followed by one '.' or '_'.",
  "all strings",
  "Infinite input space.",
  "lists/parsers/hosts.go:validateDomainName")
p("C12","The cache never exceeds its configured size",
  "After any sequence of operations the number of stored entries is at most the configured maximum (10000 when unset), and one entry is evicted only when a new key arrives at a full cache, the evicted one being the least recently used.",
  "all operation sequences",
  "Needs an invariant over every history.",
  "cache/expirationcache/expiration_cache.go:ExpiringLRUCache.Put")
p("C13","A cache lookup returns the last stored value or nothing",
  "Get(k) returns either nothing or the value of the most recent effective Put(k), never a value put under a different key; after Clear nothing is returned until the next Put.",
  "all operation sequences with arbitrary times",
  "Needs an invariant over every history.",
  "cache/expirationcache/expiration_cache.go:ExpiringLRUCache.Get", "cache/expirationcache/expiration_cache.go:ExpiringLRUCache.Clear")
p("C14","Clean-up removes exactly the expired entries",
  "A clean-up run removes every entry whose time has passed (unless its expiration handler supplies a new value, which is then stored) and never removes or changes an entry that is still valid.",
  "all cache contents, clock values and handler outcomes",
  "All contents and clock values.",
  "cache/expirationcache/expiration_cache.go:ExpiringLRUCache.cleanUp")
p("C15","A cached value is not served past its expiry",
  "A lookup at a time later than the expiry of the entry does not return its value.",
  "all operation sequences with arbitrary times",
  "Depends on the race between the periodic clean-up and lookups at arbitrary moments.",
  "cache/expirationcache/expiration_cache.go:ExpiringLRUCache.Get")
p("C16","Prefetching happens exactly for frequently queried names",
  "On expiry the entry is re-fetched iff the number of lookups of its key counted in the still open window exceeds the threshold (always, if the threshold is 0); otherwise it is dropped.",
  "all histories of lookups, expiries and clean-ups",
  "Sliding window over histories.",
  "cache/expirationcache/prefetching_cache.go:PrefetchingExpiringLRUCache")
p("C17","Cache keys separate all questions",
  "Two questions share a cache key iff they have the same type and the same name up to ASCII case, and the key decodes back to this type and lower-cased name.",
  "all pairs (type, name)",
  "Injectivity over an infinite domain.",
  "util/common.go:GenerateCacheKey", "util/common.go:ExtractCacheKey")
p("C18","TTLs in cached answers only count down",
  "A record served from the cache carries its stored TTL reduced by the age of the entry: the record with the smallest TTL gets exactly the remaining time, differences between records are preserved, and no arithmetic wrap-around occurs.",
  "all answers, all ages",
  "uint32 arithmetic over all values.",
  "resolver/caching_resolver.go:setTTLInCachedResponse", "resolver/caching_resolver.go:CachingResolver.getFromCache")
p("C19","TTLs are clamped to the configured range",
  "Before caching and delivery each answer TTL is raised to the configured minimum and then lowered to the configured maximum (when set); the cache lifetime is the smallest resulting TTL, or the negative-cache time for an empty answer.",
  "all answers, all configurations",
  "All values of two clamps.",
  "resolver/caching_resolver.go:CachingResolver.adjustTTLs")
p("C20","Only cacheable responses are stored",
  "A response to a client query is stored iff it is NOERROR, neither truncated nor flagged checking-disabled, with a positive cache time, or NXDOMAIN with a positive negative-cache time; queries carrying a client subnet that is not a single host bypass the cache.",
  "all requests and responses",
  "Combination of all header flags, codes and options.",
  "resolver/caching_resolver.go:CachingResolver.putInCache", "resolver/caching_resolver.go:isResponseCacheable", "resolver/caching_resolver.go:isRequestCacheable")
p("C21","A cached reply belongs to the question asked",
  "A reply from the cache carries the id of the current request and the question of the current request, and its answer names and data are those stored for that question.",
  "all requests, all cache states",
  "Every combination of stored and asked question.",
  "resolver/caching_resolver.go:CachingResolver.Resolve")
p("C22","Every cached reply was once an upstream reply to the same question",
  "For every history of queries, prefetches, remote cache updates, clean-ups and flushes, whatever is answered from the cache was received earlier (after the last flush) from the next resolver or from a peer for a question with the same type and same lower-cased name.",
  "all histories",
  "Invariant over unbounded histories.",
  "resolver/caching_resolver.go:CachingResolver", "cache/expirationcache/prefetching_cache.go")
p("C23","Flushing empties the cache",
  "After a flush the next query for any name is resolved by the next resolver.",
  "all histories before the flush, all queries",
  "Histories.",
  "resolver/caching_resolver.go:CachingResolver.FlushCaches")
p("C24","Allow beats deny",
  "A query is blocked iff blocking is in force for some of the client's groups and the question is denied: it is not on an allow list of these groups and it is on a deny list of these groups or these groups are allow-list-only; names on the client's allow lists are never blocked on account of the question.",
  "all list contents, configurations, clients and questions",
  "Combinatorial interaction of groups, lists and clients.",
  "resolver/blocking_resolver.go:BlockingResolver.handleDenylist", "resolver/blocking_resolver.go:BlockingResolver.Resolve")
p("C25","Group assignment follows the documented precedence",
  "The groups applied to a client are those configured for its names (with wildcards), its IP, its networks, and FQDN identifiers currently resolving to its IP; the groups of 'default' apply iff none of these yields a group; currently disabled groups are dropped.",
  "all configurations, clients, disabled sets",
  "Combinatorial.",
  "resolver/blocking_resolver.go:BlockingResolver.groupsToCheckForClient")
p("C26","Allow-list-only groups block everything else",
  "A client one of whose groups has only allow lists is answered 'blocked' for each name that is not on an allow list of its groups.",
  "all configurations and names",
  "Combinatorial.",
  "resolver/blocking_resolver.go:determineAllowlistOnlyGroups", "resolver/blocking_resolver.go:BlockingResolver.hasAllowlistOnlyAllowed")
p("C27","Answers are screened too",
  "For a request whose question is neither allow-listed nor blocked, the answer of the following resolvers is passed unchanged iff no A/AAAA address or CNAME target in it is on a deny list without being on an allow list of the client's groups; otherwise the client gets the block answer.",
  "all answers, all list contents",
  "All record lists.",
  "resolver/blocking_resolver.go:BlockingResolver.Resolve", "resolver/blocking_resolver.go:extractEntryToCheck")
p("C28","Block answers have the configured shape",
  "A blocked query is answered with the request's id and question and: NXDOMAIN mode: NXDOMAIN without records; zero-IP mode: one all-zero address for A and AAAA and NXDOMAIN for every other type; custom-IP mode: the configured addresses of the asked family, and the zero-IP behaviour if there is none. All records carry the block TTL.",
  "all requests, all configurations",
  "All types and address lists.",
  "resolver/blocking_resolver.go:zeroIPBlockHandler", "resolver/blocking_resolver.go:ipBlockHandler", "resolver/blocking_resolver.go:nxDomainBlockHandler")
p("C29","Blocked questions never leave the host",
  "If the question is blocked, no request is sent to the following resolvers (cache, conditional, upstream).",
  "all requests, list contents and chains",
  "Absence of an effect in every execution.",
  "resolver/blocking_resolver.go:BlockingResolver.Resolve", "server/server.go:createQueryResolver")
p("C30","Temporary disabling is followed by re-enabling",
  "After 'disable for duration d' and no further command, blocking is off until d has passed and on afterwards; the reported remaining time is the time until then.",
  "all command/timer schedules",
  "Timers and commands interleave arbitrarily.",
  "resolver/blocking_resolver.go:BlockingResolver.internalDisableBlocking", "resolver/blocking_resolver.go:BlockingResolver.BlockingStatus")
p("C31","A rejected disable command changes nothing",
  "A disable command naming an unknown group is rejected and leaves the observable blocking behaviour, now and in the future, as it was.",
  "all states and commands",
  "Depends on the state at the time of the command.",
  "resolver/blocking_resolver.go:BlockingResolver.internalDisableBlocking")
p("C32","The last enable/disable command wins",
  "The blocking state is always determined by the last accepted command and the time since it: timers started by earlier commands have no effect.",
  "all schedules of commands and timer callbacks",
  "A race between timer goroutine and commands.",
  "resolver/blocking_resolver.go:BlockingResolver.internalEnableBlocking", "resolver/blocking_resolver.go:BlockingResolver.internalDisableBlocking")
p("C33","The most specific custom DNS mapping wins",
  "For a query the mapping used is the one of the longest configured domain that equals the name or is a parent of it; names without such a mapping are passed on unchanged.",
  "all mappings, all names",
  "All suffix relations.",
  "resolver/custom_dns_resolver.go:CustomDNSResolver.processRequest")
p("C34","Custom CNAME chains terminate",
  "Resolving through configured CNAMEs always terminates, whatever cycles the configuration contains; a cycle yields an error and not an answer.",
  "all mappings, all queries",
  "Termination for every cyclic configuration.",
  "resolver/custom_dns_resolver.go:CustomDNSResolver.processCNAME")
p("C35","Custom answers have the right type, owner and TTL",
  "Every record produced from a mapping without CNAMEs has the question's name and type and the TTL of the mapping; types without mapping are answered empty (or passed on, if so configured).",
  "all mappings and questions",
  "All combinations.",
  "resolver/custom_dns_resolver.go:CustomDNSResolver.processDNSEntry", "util/common.go:CreateAnswerFromQuestion")
p("C36","Reverse lookups mirror the forward mapping",
  "A PTR query for an address is answered by the custom mapping with exactly the domains mapped to this address.",
  "all mappings and addresses",
  "All addresses.",
  "resolver/custom_dns_resolver.go:NewCustomDNSResolver", "resolver/custom_dns_resolver.go:CustomDNSResolver.handleReverseDNS")
p("C37","Conditional forwarding picks the most specific zone",
  "A dotted name is sent to the upstreams of the longest configured zone which is the name or a parent of it, a single-label name only to those of '.', and everything else to the next resolver; such a query is never sent to any other upstream.",
  "all mappings and names",
  "All suffix relations.",
  "resolver/conditional_upstream_resolver.go:ConditionalUpstreamResolver.processRequest")
p("C38","Rewriting is invisible to the client",
  "With a rewrite rule the inner resolver is asked the rewritten name, and in the response the question and records owned by the rewritten name carry the original name; the request seen by later resolvers is the original one.",
  "all rules, requests and inner responses",
  "All messages.",
  "resolver/rewriter_resolver.go:RewriterResolver.Resolve")
p("C39","Rewriter fallback happens exactly when configured and needed",
  "The next resolver is consulted iff the inner resolver has no response, or fallback is configured and the inner resolver fails or has no answer records.",
  "all inner outcomes and configurations",
  "All outcomes.",
  "resolver/rewriter_resolver.go:RewriterResolver.Resolve")
p("C40","Special-use names never reach the upstreams",
  "With special-use handling enabled a query for a special-use name (or a sub-domain of it) is answered locally as the table of RFC 6761 and friends demands and not forwarded; all other names are forwarded.",
  "all names and types",
  "All names, in any letter case.",
  "resolver/sudn_resolver.go:SpecialUseDomainNamesResolver.Resolve")
p("C41","Filtered query types get an empty answer",
  "A query whose type is configured as filtered is answered NOERROR without records and not forwarded; all others are forwarded unchanged.",
  "all types and configurations", "All types.",
  "resolver/filtering_resolver.go:FilteringResolver.Resolve")
p("C42","FQDN-only mode rejects exactly single-label names",
  "With the mode on, a name without inner dot gets NXDOMAIN and is not forwarded, others are forwarded; the response matches the request (id and question).",
  "all names", "All names.",
  "resolver/fqdn_only_resolver.go:FQDNOnlyResolver.Resolve")
p("C43","The client subnet is only disclosed as configured",
  "With forwarding off no client-subnet option with an address received from the client or derived from it beyond the configured mask is sent upstream.",
  "all requests and configurations",
  "A privacy property over all messages.",
  "resolver/ecs_resolver.go:ECSResolver.Resolve")
p("C44","EDNS0 options are set, read and removed independently",
  "Setting an option and reading it gives the option set; removing it makes it absent; other options and records are unaffected by both.",
  "all messages and options", "All messages.",
  "util/edns0.go:SetEdns0Option", "util/edns0.go:GetEdns0Option", "util/edns0.go:RemoveEdns0Option", "util/edns0.go:RemoveEdns0Record")
p("C45","Extended DNS errors reflect the response kind",
  "With EDE enabled each response whose kind has an extended error code carries exactly one EDE option holding that code and its reason, all others are unchanged; everything but that option is unchanged.",
  "all responses", "All messages.",
  "resolver/ede_resolver.go:EDEResolver.Resolve", "model/models.go:ResponseType.ToExtendedErrorCode")
p("C46","Hosts-file answers follow the last matching entry and loading is all-or-nothing",
  "A host name is answered with the address of the last loaded entry for it in the asked family; if any source fails the previous table stays complete.",
  "all sources, all orders of arrival",
  "Orders and failures.",
  "resolver/hosts_file_resolver.go:HostsFileResolver.loadSources", "resolver/hosts_file_resolver.go:hostsFileData.add")
p("C47","Client names follow the documented precedence",
  "A client id in the request wins, then a cached result, then the IP mapping, then the reverse lookup with the preferred name order, then the IP itself.",
  "all configurations, requests and lookup results", "All combinations.",
  "resolver/client_names_resolver.go:ClientNamesResolver.getClientNames")
p("C48","Upstream group selection follows the documented precedence",
  "The upstream group is the one configured for the client's exact IP, else for one of its names, else for a network containing its IP, else 'default'.",
  "all configurations and clients", "All combinations.",
  "resolver/upstream_tree_resolver.go:UpstreamTreeResolver.upstreamGroupByClient")
p("C49","Strict strategy takes the first healthy upstream in order",
  "The answer is that of the first upstream in configuration order that answers without error or timeout, no later upstream is contacted, and an error results iff all fail.",
  "all outcomes of all upstreams", "All outcome vectors.",
  "resolver/strict_resolver.go:StrictResolver.Resolve")
p("C50","Parallel strategy answers iff some contacted upstream answers",
  "With two upstreams racing, the reply is a successful reply of one of them whenever at least one succeeds, in every completion order; with 'random' a second, different upstream is tried when the first fails.",
  "all completion orders and outcomes, all random choices",
  "Scheduling and randomness.",
  "resolver/parallel_best_resolver.go:ParallelBestResolver.Resolve")
p("C51","Upstream retries are bounded and only on timeout",
  "At most 3 attempts are made; a further attempt is made iff the previous one timed out; the result is the first non-timeout outcome.",
  "all outcome sequences", "All sequences.",
  "resolver/upstream_resolver.go:UpstreamResolver.Resolve")
p("C52","Every upstream address is tried in turn",
  "Successive retries use the addresses of a host in rotation, so that n retries reach each of n addresses, for any concurrent use.",
  "all address lists and interleavings", "Wrap-around and concurrency.",
  "resolver/bootstrap.go:IPSet")
p("C53","Every query gets exactly one matching response",
  "Each DNS message received is answered exactly once; the response has the id of the query; without question it is FORMERR; if resolving fails or crashes it is SERVFAIL, unless the upstream supplied an error message.",
  "all messages and resolver behaviours, including panics", "All behaviours of the chain.",
  "server/server.go:Server.handleReq", "server/server.go:Server.resolve")
p("C54","Responses fit the client's buffer",
  "The response is truncated to the size announced by the client (512 without EDNS0 over UDP, 65535 over TCP).",
  "all requests", "All sizes.",
  "server/server.go:getMaxResponseSize")
p("C55","DoH requests are decoded exactly and bounded",
  "A DoH GET/POST request is accepted iff it carries one well-formed message of at most 512 bytes with the right content type; otherwise the documented HTTP error is returned and nothing is resolved.",
  "all HTTP requests", "All inputs.",
  "server/server_endpoints.go:Server.dohGetRequestHandler", "server/server_endpoints.go:Server.dohPostRequestHandler")
p("C56","DoH max-age never exceeds a record's TTL",
  "The cache-control max-age of a DoH response is the smallest TTL of the answer records.",
  "all answers", "All TTL lists.",
  "server/server_endpoints.go:getSmallestTTLFromAnswer")
p("C57","The client id is taken from the host name only as documented",
  "The client id is x iff the TLS server name or HTTP host is 'id-x.<rest>' with no dot in x; every other host name gives no client id.",
  "all host names", "All strings.",
  "server/server.go:extractClientIDFromHost")
p("C58","Query log entries are complete, ordered and at most once",
  "Every answered query is logged at most once, in order, with only the configured fields; entries are dropped only while the queue is full and logging never delays the answer.",
  "all schedules of producers and the writer", "Scheduling.",
  "resolver/query_logging_resolver.go:QueryLoggingResolver.Resolve")
p("C59","Database log batches keep every entry once",
  "Entries handed to the database writer are written exactly once in order, in batches of at most 100.",
  "all numbers of entries and flush schedules, all database outcomes", "Counts and failures.",
  "querylog/database_writer.go:DatabaseWriter.doDBWrite")
p("C60","Log file names stay inside the log directory",
  "For every client name the log file name contains no path separator.",
  "all client names", "All strings.",
  "querylog/file_writer.go:escape", "querylog/file_writer.go:FileWriter.Write")
p("C61","Log retention deletes exactly the files older than the limit",
  "Cleaning up removes exactly those log files whose date is more than the configured number of days ago, and never files of today, foreign files, or anything if no limit is configured.",
  "all file names, dates and limits", "All dates.",
  "querylog/file_writer.go:FileWriter.CleanUp")
p("C62","Log obfuscation hides every letter and digit",
  "With privacy mode on no letter or digit of a name appears in logs; length and structure are preserved.",
  "all strings", "All strings.",
  "util/common.go:Obfuscate")
p("C63","Reverse-address parsing inverts reverse-address printing",
  "Parsing the reverse-lookup name of any IPv4 or IPv6 address gives this address, and only well-formed reverse names are parsed.",
  "all addresses, all strings", "2^128 addresses.",
  "util/arpa.go:ParseIPFromArpaAddr")
p("C64","Redis synchronisation neither echoes nor mixes keys",
  "A node never processes its own messages; a peer's cache message is delivered with exactly the key and response published.",
  "all messages and node ids", "All interleavings.",
  "redis/redis.go:Client.processReceivedMessage", "redis/redis.go:prefixKey")
p("C65","Deprecated options never override new ones",
  "When migrating configuration a deprecated option is moved to its new place iff the new option still has its default value, and its presence is reported in any case.",
  "all configurations", "All values.",
  "config/migration/migration.go:Migrate")
p("C66","Start-up strategies behave as documented",
  "'failOnError' returns the initialisation error, 'blocking' initialises before returning but never fails, 'fast' returns at once and initialises in background; the initialiser runs exactly once in each.",
  "all outcomes", "Scheduling.",
  "config/config.go:InitStrategy.Do")
p("C67","Durations without unit are minutes",
  "A duration option consisting of digits only is that many minutes, otherwise it is parsed with its unit.",
  "all strings", "Overflow and all numbers.",
  "config/duration.go:Duration.UnmarshalText")
p("C68","Upstream definitions parse unambiguously",
  "Parsing 'net:host:port/path#cn' yields exactly these parts, with documented defaults for omitted ones; printing a parsed upstream and parsing it again gives the same upstream up to the common name.",
  "all strings", "All strings.",
  "config/upstream.go:ParseUpstream", "config/upstream.go:Upstream.String")
p("C69","Ports are accepted iff between 1 and 65535",
  "A port text is accepted iff it is a decimal number from 1 to 65535 and then denotes this number.",
  "all strings", "All strings.",
  "config/config.go:ConvertPort")
p("C70","Local data beats blocking beats cache beats upstream",
  "For every query the answer comes from the first of: type filter, FQDN check, custom DNS, hosts file, blocking, cache, conditional upstream, special-use table, upstream; no later stage is consulted once an earlier one has answered.",
  "all configurations, states and queries", "Whole-chain property over all states.",
  "server/server.go:createQueryResolver", "resolver/resolver.go:Chain")
p("C71","A list source means exactly what its lines say",
  "After loading a source all of whose lines are well-formed, a lookup matches iff some line of the source (comments and white space stripped, addresses in canonical form) denotes an entry that matches the name.",
  "all sources, all looked-up names", "All files and all names; parsing and matching together.",
  "lists/list_cache.go:parseFile", "lists/list_cache.go:createCacheForGroup", "lists/parsers/hosts.go:HostsIterator.UnmarshalText")
p("C72","A cached value stays available until it expires or is displaced",
  "After a value is stored with a positive lifetime, a lookup of the key finds this value, with the exact remaining time, as long as the cache is not cleared, the key is not stored again, no clean-up looks at the entry after its expiry, and fewer other keys than the cache has room for have been used since.",
  "all histories before and after the store, all interleavings with a clean-up",
  "Depends on recency order, on pending clean-up work and on every interleaving; tests only use short fixed scripts.",
  "cache/expirationcache/expiration_cache.go:ExpiringLRUCache.Put", "cache/expirationcache/expiration_cache.go:ExpiringLRUCache.Get", "cache/expirationcache/expiration_cache.go:ExpiringLRUCache.cleanUp")
p("C73","Queries and enable/disable commands never deadlock",
  "Whatever queries, enable commands and disable commands run concurrently, some of them can always make progress on the status lock.",
  "all numbers of concurrent queries and commands, all interleavings",
  "A deadlock needs a writer to arrive between two read locks of the same goroutine; tests practically never hit this window.",
  "resolver/blocking_resolver.go:BlockingResolver.groupsToCheckForClient", "resolver/blocking_resolver.go:BlockingResolver.isGroupDisabled", "resolver/blocking_resolver.go:BlockingResolver.internalDisableBlocking")
p("C74","Disabling blocking disables it for everyone",
  "After a 'disable' command without group names no request is blocked until blocking is enabled again.",
  "all configurations, clients and names",
  "Depends on which kinds of lists each group has.",
  "resolver/blocking_resolver.go:BlockingResolver.retrieveAllBlockingGroups", "resolver/blocking_resolver.go:BlockingResolver.internalDisableBlocking")
p("C75","Clients named by domain name are recognised",
  "A client identifier that is a domain name stands for exactly the addresses of the successful A and AAAA answers for this name, and is looked up again after a failure.",
  "all answers and failures, all numbers of clean-ups",
  "Failure at start followed by recovery.",
  "resolver/blocking_resolver.go:BlockingResolver.queryForFQIdentifierIPs", "resolver/blocking_resolver.go:BlockingResolver.initFQDNIPCache")
p("C76","Unsupported zone records do not disturb the others",
  "A configured name with records of supported types is answered for these types, whatever other records the zone has for it.",
  "all zones and questions",
  "Combinations of record types at one name.",
  "resolver/custom_dns_resolver.go:CustomDNSResolver.processDNSEntry")
p("C77","A conditional answer echoes the client's question",
  "The question section of an answer from a conditional upstream is the client's question, provided the upstream echoes the question it was asked.",
  "all mappings, requests and upstream answers",
  "All spellings of a name: clients that randomise letter case compare the echoed question byte by byte.",
  "resolver/conditional_upstream_resolver.go:ConditionalUpstreamResolver.internalResolve")
p("C78","Custom CNAMEs work together with rewriting",
  "A custom CNAME to a name outside the custom zones is answered with the CNAME and what the rest of the chain knows about the target, also when rewrite rules are configured for custom DNS.",
  "all configurations and requests",
  "Combination of two features, each tested alone.",
  "resolver/custom_dns_resolver.go:CustomDNSResolver.processCNAME", "resolver/noop_resolver.go:NoOpResolver.Resolve", "resolver/rewriter_resolver.go:NewRewriterResolver")
p("C79","Rewriting is deterministic",
  "Which name the inner resolver is asked depends only on the configured rules and the query.",
  "all rules, requests and orders of map iteration",
  "Map iteration order is random; a test sees one order per run.",
  "resolver/rewriter_resolver.go:RewriterResolver.rewriteDomain")
p("C80","Client-subnet handling never makes a query fail",
  "With masks accepted by the configuration, every query is passed on to the next resolver exactly once and its result returned, whatever the client's address family.",
  "all configurations and requests",
  "Depends on the combination of address family and configured masks.",
  "resolver/ecs_resolver.go:ECSResolver.setSubnet", "resolver/ecs_resolver.go:maskIP", "config/ecs.go:ECSv4Mask.UnmarshalText")
p("C81","A client without EDNS gets no OPT record",
  "If neither the request nor the response of the next resolver has an OPT record, the response has none (RFC 6891, 6.1.1), also with extended errors enabled.",
  "all requests and responses", "All messages.",
  "resolver/ede_resolver.go:EDEResolver.addExtraReasoning")
p("C82","The client address comes from the subnet option only as configured",
  "The address the following resolvers see as the client's is that of the request's client-subnet option if this is configured and the option carries a complete address, and the address of the connection in all other cases.",
  "all requests and configurations",
  "A trust property: all messages and configurations.",
  "resolver/ecs_resolver.go:ECSResolver.Resolve")
p("C83","Reloading hosts files is atomic for queries",
  "A query running concurrently with a reload is answered as the table before or the table after the reload says.",
  "all tables, all interleavings of the reader with the assignment",
  "A data race: depends on the interleaving.",
  "resolver/hosts_file_resolver.go:HostsFileResolver.loadSources", "resolver/hosts_file_resolver.go:HostsFileResolver.resolve")
p("C84","Host names match regardless of letter case",
  "A name in a hosts file is found for every spelling of the query and of the file that differs in letter case or final dot only.",
  "all names", "All names.",
  "resolver/hosts_file_resolver.go:hostsFileData.add", "resolver/hosts_file_resolver.go:hostsFileData.getIP")
p("C85","Reverse lookups return the names of the address",
  "A PTR query for an address in the hosts files is answered with the names and aliases the files give for it, deterministically; for other addresses it is passed on.",
  "all tables, addresses and map iteration orders",
  "Depends on Go's random map iteration order.",
  "resolver/hosts_file_resolver.go:HostsFileResolver.handleReverseDNS")
p("C86","Only entries meant to be served are served",
  "Every address answered comes from a line of a loaded source for that name; never from a line bound to an interface, and with loopback filtering never a loopback address or an entry named localhost.",
  "all histories of loads, sources, orders of arrival",
  "All histories.",
  "resolver/hosts_file_resolver.go:HostsFileResolver.parseFile")
p("C87","A failed reverse lookup does not decide a client's name later",
  "After a reverse lookup of a client failed, the next request of the client tries again instead of treating the client as nameless.",
  "all histories of requests, lookups, flushes and clean-ups",
  "Needs a failing lookup followed by requests over an hour of wall-clock time.",
  "resolver/client_names_resolver.go:ClientNamesResolver.getClientNames", "resolver/client_names_resolver.go:ClientNamesResolver.resolveClientNames")
p("C88","A client always uses the same upstream group",
  "With the same configuration, address and names, every request of a client goes to the same upstream group.",
  "all configurations, clients and iteration orders",
  "Map iteration order is random; a test sees a few of the orders.",
  "resolver/upstream_tree_resolver.go:UpstreamTreeResolver.upstreamGroupByClient")
p("C89","A failing upstream is used less, never banned, and recovers",
  "The share of an upstream in the random choice is its weight: 60 if it had no error in the last hour, else the full minutes since the last error, at least 1; the weight never falls as time passes without errors, and cancelled calls do not count as errors.",
  "all times, upstream lists, excluded upstreams and random numbers",
  "The choice is random; a test can only sample it.",
  "resolver/parallel_best_resolver.go:weightedRandom", "resolver/parallel_best_resolver.go:upstreamResolverStatus.resolve")
p("C90","The UDP/TCP race returns a complete answer if there is one",
  "When an upstream is asked over UDP and TCP at once, the result is the first complete answer; a truncated answer is returned only if no transport gives a complete one; an error, that of the client's own transport, only if both fail.",
  "all outcomes of both transports in both orders of arrival",
  "Orders of arrival and combinations of outcomes.",
  "resolver/upstream_resolver.go:dnsUpstreamClient.raceClients")
p("C91","SERVFAIL from an upstream makes blocky try another upstream",
  "An answer with code SERVFAIL counts as a failure of the upstream, whatever the transport, so that the strategies turn to the other upstreams.",
  "all transports, outcomes and strategies",
  "Needs every transport combined with every strategy.",
  "resolver/upstream_resolver.go:createUpstreamClient", "resolver/upstream_resolver.go:dnsUpstreamClient.raceClients")
p("C92","An upstream host is usable when any of its addresses can be looked up",
  "The addresses of an upstream host are those found by the lookups for the configured IP version(s); the host is usable iff some address is found; an empty list is never used (no crash); with a fixed IP version only such addresses are used.",
  "all results of the lookups",
  "Partial failures of the lookups and index computations.",
  "resolver/bootstrap.go:Bootstrap.resolve", "resolver/bootstrap.go:Bootstrap.dialContext")
p("C93","Start-up verification of upstream groups",
  "With failOnError start-up fails iff no upstream of the group passes its test, and only upstreams that pass are used; with the other strategies all configured upstreams are used, and the bootstrap resolver for an empty group.",
  "all groups and test outcomes",
  "All combinations of outcomes.",
  "resolver/resolver.go:initGroupResolvers", "resolver/resolver.go:createGroupResolvers", "config/config.go:InitStrategy.Do")
p("C94","DoH upstream answers are checked",
  "An answer over HTTPS is used only if the status is 200, the content type is application/dns-message and the body is a DNS message answering the query (same id and question).",
  "all HTTP responses",
  "All responses of the server.",
  "resolver/upstream_resolver.go:httpUpstreamClient.callExternal")
p("C95","HTTP clients are identified by their address",
  "A client using DoH or the API has the address of the connection; behind proxies (X-Forwarded-For) the first address of the header, for every spelling with or without port.",
  "all header values and peer addresses",
  "All spellings of addresses and lists of proxies.",
  "util/http.go:HTTPClientIP")
p("C96","CSV query logs read back exactly",
  "Every CSV log file consists of exactly the records of the entries written to it, in order; reading it as tab separated text gives back every field, whatever characters names and answers contain, so no client can forge or split a record.",
  "all entries, all sequences of writes including files that can't be opened",
  "All contents of names and answers, including quotes, tabs and line breaks.",
  "querylog/file_writer.go:FileWriter.Write","querylog/file_writer.go:createQueryLogRow")
p("C97","Per-client query logs keep clients and days apart",
  "With type csv-client entries of different clients or of different days are never written to the same file.",
  "all client names and dates",
  "All pairs of names.",
  "querylog/file_writer.go:FileWriter.Write","querylog/file_writer.go:escape")
p("C98","A broken query log target never prevents the start",
  "The query log writer is tried at most the configured number of times, stopping with the first success; if every attempt fails, queries are logged to the console instead.",
  "all outcomes of the attempts, all numbers of attempts",
  "All sequences of outcomes.",
  "resolver/query_logging_resolver.go:NewQueryLoggingResolver")
p("C99","A stalled Redis does not hold up answers",
"Queries are answered even if the Redis server stops answering: handing a reply over for synchronisation never waits for Redis.",
"every history of replies handed over, messages sent and received, on any number of instances",
"Needs a Redis that stops answering and more than a thousand replies meanwhile; a unit test uses a working in-memory Redis.",
"redis/redis.go:Client.PublishCache","resolver/caching_resolver.go:CachingResolver.putInCache")
p("C100","Replies loaded from Redis are not older than their time to live",
"When an instance starts and loads the replies stored in Redis, each comes back under the key it was stored with and with the time that is left of it, so that no reply is used longer than its time to live (or the negative caching time) allows.",
"every reply, key, time of storing and time of loading",
"The result depends on the moments at which the store is read relative to the expiry; a test reads at one moment.",
"redis/redis.go:Client.getResponse","redis/redis.go:Client.getTTL","redis/redis.go:Client.GetRedisCache")
p("C101","Addresses are read and written unambiguously",
"Wherever an address is given as text (configuration, lists, hosts files), it is accepted exactly if it is one of the documented forms of IPv4 or IPv6 text and then denotes one address; the text written for an address is a form of that address, so reading it gives the address back, and different clients never have the same text.",
"all texts, all addresses",
"All texts and all 2^128 addresses; tables keyed by address texts rely on the absence of collisions.",
"config/custom_dns.go","config/upstream.go:ParseUpstream","lists/parsers/hosts.go","resolver/client_names_resolver.go:ClientNamesResolver.getClientNames")
p("C105","Listen addresses are the comma separated parts","A listen option 'a,b,c' yields exactly the parts between the commas in order, each with ':' in front when it is only a port number.","all lists of comma-free parts","unit tests try a handful of texts; white space around a comma and mixed forms are not covered","config/config.go:ListenConfig.UnmarshalText")
p("C102","A new option given in the configuration wins over its deprecated form",
  "If the configuration gives a new option explicitly, its value is used, whatever the deprecated option says.",
  "all configurations, all options with a deprecated form", "All values, also those equal to defaults.",
  "config/migration/migration.go:Migrate", "config/config.go:unmarshalConfig")
p("C106","A loaded configuration has usable limits",
  "After loading, the time limit for upstreams is positive and the minimum TLS version is at least 1.2, whatever the configuration says and also if it says so by deprecated options; values that are fine already are kept.",
  "all configurations", "All values and combinations with deprecated options.",
  "config/config.go:validate", "config/upstreams.go:validate")
p("C107","Periodic refreshes go on until shutdown, and only then stop",
  "Lists and hosts files are refreshed at every tick of the refresh period if one is set and the start did not fail; a failing or panicking refresh is logged and does not end the refreshes; refreshes never run at the same time; none is started after the context is done.",
  "all strategies, periods, outcomes and schedules", "Goroutine interleavings and the random choice of select.",
  "config/config.go:SourceLoading.StartPeriodicRefresh", "config/config.go:SourceLoading.periodically", "config/config.go:recoverToError")
p("C103","Database passwords are not logged",
  "The password in the target of the query log never occurs in the logged configuration; the rest of the target is shown unchanged.",
  "all targets, all types of query log", "All passwords and forms of targets; the tests use two.",
  "config/query_log.go:censoredTarget")
p("C104","Sources of lists are understood and shown as meant",
  "A source with a line end is an inline list, one that is a URL is downloaded and all others are files; the shown form of a source that is not inline is understood as the same source; of an inline list at most twelve characters of the first line are shown, with dots when something is left out.",
  "all texts", "All texts.",
  "config/bytes_source.go:UnmarshalText", "config/bytes_source.go:String")
p("C108","No query crashes the resolver chain","Whatever the configuration, the state of caches and lists and the answers of upstreams, a query with a question gets a response with a message or an error; no resolver of the chain dereferences a missing message or indexes a missing element.","all configurations, states, upstream behaviours and requests with a question","Panics hide in combinations of features and odd answers; tests visit few combinations, and the server's recover hides them as SERVFAIL.","server/server.go:createQueryResolver","resolver/resolver.go:Chain","resolver/ecs_resolver.go:maskIP","resolver/custom_dns_resolver.go:CustomDNSResolver.processCNAME")
p("C109","Client name patterns match exactly what their syntax says",
  "A client identifier with *, ?, character classes and escapes matches a client name exactly if the name is accepted by the pattern, regardless of case; an identifier without such characters matches only itself.",
  "all patterns and names", "Unbounded patterns and names; the backtracking of the matcher has many paths.",
  "util/common.go:ClientNameMatchesGroupName")
p("C110","Network identifiers name exactly the addresses in the network, and clients get exactly their groups",
  "An identifier that is a network in CIDR notation names exactly the addresses sharing its first bits; the groups checked and the upstream group used for a client are exactly those of the identifiers that name it.",
  "all identifiers, addresses, names and map iteration orders", "All addresses and prefixes; map iteration order.",
  "util/common.go:CidrContainsIP", "resolver/blocking_resolver.go:BlockingResolver.groupsToCheckForClient", "resolver/upstream_tree_resolver.go:UpstreamTreeResolver.upstreamGroupByClient")
p("C111","The REST interface carries out blocking commands as asked and reports the status truthfully",
  "A well-formed disable request disables exactly the groups asked for until the end of the duration asked for; a malformed one is refused with one line of text and changes nothing; the status shows what is disabled and when blocking comes back.",
  "all parameters, states and times", "All texts of durations and groups; depends on the state and the clock.",
  "api/api_interface_impl.go:OpenAPIInterfaceImpl.DisableBlocking", "api/api_interface_impl.go:OpenAPIInterfaceImpl.BlockingStatus", "log/logger.go:EscapeInput")
p("C112","Synchronised instances agree about blocking",
  "Instances synchronised through Redis that have received all messages are in the same blocking state.",
  "any number of instances, all histories of commands, deliveries and timers", "Interleavings of several instances, message delays and timers.",
  "resolver/blocking_resolver.go:BlockingResolver.redisSubscriber", "resolver/blocking_resolver.go:BlockingResolver.EnableBlocking", "resolver/blocking_resolver.go:BlockingResolver.DisableBlocking")
p("C113","A download tries exactly as often as configured and hands over the first success","A download of a list returns the body of the first successful request within the configured number of attempts; each failure is counted and followed by the cooldown; otherwise it fails after exactly that many tries with the error of the last, no body stays open, and the end of the context ends it.","all numbers of attempts, all sequences of answers of the network","All sequences of failures and the interplay with the context.","lists/downloader.go:httpDownloader.DownloadFile","lists/downloader.go:onDownloadError")
p("C114","After a refresh a group holds exactly the entries of its sources","When a group is refreshed, it blocks exactly what is written in its text, file and HTTP sources; if sources cannot be read, the domains they block stay blocked.","all sources, contents, failures, histories and orders in which entries arrive","All contents of sources, concurrent producers, failures in between.","lists/list_cache.go:ListCache.createCacheForGroup","lists/list_cache.go:ListCache.parseFile","lists/sourcereader.go:NewSourceOpener")
p("C115","A custom DNS mapping answers with exactly the addresses written in it","The text of a customDNS mapping is accepted exactly if all its comma-separated parts are IP addresses; a query for the name is answered with exactly the written addresses of the asked family, in order, with the custom TTL.","all texts, mappings, queries and map iteration orders","All texts of addresses; map iteration order.","config/custom_dns.go:CustomDNSEntries.UnmarshalYAML","config/custom_dns.go:configToRR","resolver/custom_dns_resolver.go:NewCustomDNSResolver")
p("C116","All records of a configured zone are served","Every record of a configured zone is answered for its name, and names of the mapping are not affected by the zone.","all zones, mappings and map iteration orders","All combinations of records and spellings; map iteration order.","config/custom_dns.go:ZoneFileDNS.UnmarshalYAML","resolver/custom_dns_resolver.go:NewCustomDNSResolver")
p("C117","Conditional upstreams are exactly those written for the most specific zone","The text of a conditional mapping is accepted exactly if all its comma-separated parts are upstreams; if no two zones differ only in case, a query goes to exactly the upstreams written for the most specific zone of its name, and to the next resolver if there is none.","all texts, mappings without zones equal up to case, and queries","All texts of upstreams and all zones.","config/conditional_upstream.go:ConditionalUpstreamMapping.UnmarshalYAML","resolver/conditional_upstream_resolver.go:ConditionalUpstreamResolver.processRequest")
p("C118","A directory of configuration files is read completely, in order, or refused",
 "If the configured path is a directory, the text that is decoded consists of the contents of all files ending in .yml or .yaml below it, each after a newline, in the order of their paths; if one of them or a directory cannot be read, loading fails. (Refuted variants: a configured path that is a link to a directory gives an empty configuration without error; the layout of a mounted ConfigMap is decoded twice.)",
 "all directory trees with distinct names per directory, including links, unreadable files and unreadable directories",
 "tests create one or two directories on the file system of the machine; order, nesting and failures over all trees cannot be enumerated",
 "config/config.go:readFromDir","config/config.go:isRegularFile","config/config.go:loadConfig")
p("C119","Loading a configuration either takes effect or leaves everything as it was",
 "Loading fails without touching the privacy flag, or yields a configuration and sets the flag to what that configuration says; a missing path gives the default values if and only if the configuration is not mandatory, and the whole text is decoded. (Refuted without the hypothesis: a second file starting with --- is ignored silently.)",
 "all paths, file contents and decoders",
 "tests cover a handful of files; that no path through the function drops text or sets the flag on errors is a statement about all of them",
 "config/config.go:loadConfig","config/config.go:LoadConfig","config/config.go:unmarshalConfig")
p("C120","The command line disables exactly the groups named, for exactly the duration given",
 "`blocky blocking disable -d D -g G...` on a reachable server: the text of the duration that is sent means D, the groups named (all known ones if none is named) are disabled, nothing else, and blocking is enabled again after D (never for 0); with an unknown group the command fails and answers stay as they were; `status` then names these groups and the whole seconds left. (Refuted without the hypothesis: an empty name disables everything.)",
 "all 64 bit durations, all lists of group names without commas, all states of the server",
 "the path goes through the printing of durations, the parameters of the interface and the parsing on the other side; tests check single values like 5m",
 "cmd/blocking.go:disableBlocking","cmd/blocking.go:statusBlocking","cmd/root.go:printOkOrError","api/api_interface_impl.go:DisableBlocking")
p("C121","The commands talk to the server started with the same flags",
 "If the server starts with some flags and environment and its configuration listens for HTTP first at host:port, the commands blocking, query, lists and cache started the same way use http://host:port/api; without such a port the flags --apiHost and --apiPort count. (Refuted: IPv6 addresses get doubled brackets, `blocky refresh` ignores the configuration, the flags are overridden by the configuration.)",
 "all configurations, file systems, flags and environments",
 "tests start one command with one configuration; agreement of two programs over all configurations is not observable in a unit test",
 "cmd/root.go:initConfig","cmd/root.go:apiURL","cmd/lists.go:newRefreshCommand")
p("C122","A configuration is called valid if and only if the server starts with it",
 "`blocky validate` reports success exactly if loading the configuration and ports in `blocky serve` with the same flags succeeds, provided the path is not taken from the environment. (Refuted with BLOCKY_CONFIG_FILE: both directions fail.)",
 "all file systems, configurations, decoders and flags",
 "tests run validate on single files and never compare with serve",
 "cmd/validate.go:validateConfiguration","cmd/root.go:initConfig","cmd/serve.go:startServer")
p("C123","The metric blocky_blocking_enabled tells the status of blocking",
"After any sequence of enabling, disabling (all groups or some), failed calls and timers, the gauge is 1 exactly when the status says enabled (and then no group is disabled), and 0 exactly when it says disabled (and then some group is disabled).",
"all configurations and all interleavings of calls, timers and callbacks",
"The gauge is set from events; a missed event in one order of calls and timers shows only there.",
"metrics/metrics_event_publisher.go:registerBlockingEventListeners","resolver/blocking_resolver.go:BlockingResolver.internalEnableBlocking","resolver/blocking_resolver.go:BlockingResolver.internalDisableBlocking","evt/events.go:Bus")
p("C124","The metric of list entries tells how many entries each group has",
"Once no refresh of a group is under way, the gauge of the group equals the number of entries its cache holds (or was never set, if no refresh of the group ended without failure); that number is made up of the different names, whatever their letter case, the wildcards and the regular expressions which can be used.",
"all lists, all sequences of loads of any groups, all interleavings of the goroutines",
"Groups are loaded by concurrent goroutines which first count and then publish; tests see one order.",
"lists/list_cache.go:ListCache.createCacheForGroup","metrics/metrics_event_publisher.go:registerBlockingEventListeners","cache/stringcache/chained_grouped_cache.go:ChainedGroupedCache.ElementCount")
p("C125","The cache metrics tell the size of the cache, its hits and its misses",
"The gauge of entries equals the number of elements of the cache and never exceeds its size; hits and misses together are the lookups, a hit exactly when the key is held.",
"all sizes and all sequences of puts, lookups, flushes and steps of the clean-up",
"The gauge is set only after a put; removals, flushes and concurrent puts leave it stale, which a test that puts and reads does not show.",
"cache/expirationcache/expiration_cache.go:ExpiringLRUCache.Put","cache/expirationcache/expiration_cache.go:ExpiringLRUCache.Get","resolver/caching_resolver.go:configureCaches","resolver/bootstrap.go:newBootstrap","metrics/metrics_event_publisher.go:registerCachingEventListeners")
p("C126","Every query is counted once, under its client, type and outcome",
"With metrics enabled, in any interleaving of queries, the counters of queries, responses, errors and durations show exactly the number of queries with those labels; each query is counted once as a query and once as a response or an error, with the reason, code and type of the answer which the client gets.",
"all label texts, all finite sets of concurrent queries and all interleavings; all configurations and states of the chain",
"The counters are read and written by concurrent queries and the metrics resolver sits behind resolvers which answer themselves.",
"resolver/metrics_resolver.go:MetricsResolver.Resolve","server/server.go:createQueryResolver")
p("C127","Collecting metrics does not change answers",
"A query gets the same result whether metrics are enabled or not.",
"all configurations, states, upstream behaviours and requests with a question",
"Two configurations must be compared on all inputs; a panic in the metrics library appears only for odd client identifiers.",
"resolver/metrics_resolver.go:MetricsResolver.Resolve","server/server.go:Server.resolve")
p("C128","A query over the REST interface shows what a DNS client is answered",
  "For every name, known type, HTTP client and behaviour of the resolvers: a query over the REST interface (and the command query) gives the records and the code of the message a DNS client with the same address and client id would be answered over TCP for that name and type, with reason and kind of the resolvers' response; status 500 iff that client is answered SERVFAIL for an error; 400 iff the type is unknown, without resolving; the command asks once and writes exactly these texts.",
  "all names, types, HTTP requests, chains of resolvers, message ids",
  "The equality relates two entry points of the server for every input and every behaviour of the resolvers; tests mock the querier or the REST interface.",
  "api/api_interface_impl.go:OpenAPIInterfaceImpl.Query","server/server_endpoints.go:Server.Query","server/server.go:Server.resolve","cmd/query.go:query")
p("C129","Which packets are resolved, and how every packet is answered",
  "Responses are neither answered nor resolved; every other packet is answered by exactly one message, with the id of the packet unless the resolvers made it; only messages with exactly one question are resolved; names in the zone healthcheck.blocky (in any case, with escapes considered, and not for type DS) are answered NOERROR without resolving, all other plain queries are resolved once for the client's address; the command healthcheck succeeds against every running server.",
  "all packets, names, types, connections, chains of resolvers",
  "Names have unboundedly many labels, cases and escapes; tests use the name itself only.",
  "server/server.go:Server.registerDNSHandlers","server/server.go:Server.OnRequest","server/server.go:Server.OnHealthCheck","cmd/healthcheck.go:healthcheck")
p("C130","The REST interface controls the resolvers that serve the queries",
  "Refreshing refreshes denylists and allowlists, each once, also if one fails; 200 iff both succeed, else 500 with a text of one line.  In every chain the first resolver of the wanted type is found; in the chain of the server these are the only blocking resolver and the only cache.",
  "all states of the lists, all outcomes of a refresh, all chains",
  "The claim ranges over every chain and every combination of outcomes.",
  "api/api_interface_impl.go:OpenAPIInterfaceImpl.ListRefresh","resolver/blocking_resolver.go:BlockingResolver.RefreshLists","resolver/resolver.go:GetFromChainWithType","server/server_endpoints.go:Server.createOpenAPIInterfaceImpl")
p("C131","A server that starts listens on exactly the configured addresses",
  "UDP and TCP on each DNS address, TLS on each TLS address, HTTP on each HTTP address and HTTP with TLS on each HTTPS address, nothing else; everything encrypted uses the configured certificate, a self-signed one iff neither file is configured; the server starts iff a certificate is there where one is needed, all HTTP addresses can be opened and the resolvers can be made; without encrypted addresses the files do not matter.",
  "all lists of addresses, certificate files and outcomes of opening sockets",
  "Any number of addresses in any combination; tests start one server per kind.",
  "server/server.go:NewServer","server/server.go:createServers","server/server.go:createHTTPListeners","server/server.go:retrieveCertificate")
p("C132","The process ends only by a signal or a failed listener, and never ignores one",
  "In every interleaving of the servers' goroutines, signals and failures: it ends with an error only if a server failed and without one only after a signal; a server that fails while the process waits can always be noticed and ends it with an error; without failure and signal it keeps waiting; once a signal is taken, stopping ends after at most one step per DNS server and one more; if all DNS servers serve then, each is shut down.",
  "all numbers of servers and all interleavings of starts, failures, signals and steps of the control goroutine",
  "The property is about every schedule of goroutines.",
  "cmd/serve.go:startServer","server/server.go:Server.Start","server/server.go:Server.Stop")
p("C133","After a refresh the lists hold exactly what is written in the configured sources",
  "For all configured groups whose sources (inline text, link or file, by their text) can all be read with not too many errors, whatever was loaded before and in whatever order the groups end: after the refresh a lookup for a name returns, in order and without repetition, exactly those of the groups asked for of which a source has an entry (a domain, a line of a hosts file, a wildcard, a regular expression or an address) that matches the name.",
  "all groups, sources, files, answers of the network, earlier loads and orders of loading",
  "The claim composes downloading, parsing, loading and looking up for every content of every source; tests check each part with small files.",
  "lists/list_cache.go:ListCache.refresh","lists/list_cache.go:ListCache.createCacheForGroup","lists/list_cache.go:ListCache.Match","config/bytes_source.go:BytesSource.UnmarshalText")
p("C134","What is written on a deny list is blocked at the server, what is written on an allow list is not",
  "For the whole server as configured: a query (one question, not a reverse lookup) for a name without custom record and hosts entry, which is written on a deny list of a group that applies to the client and on no allow list of its groups, is answered with exactly the configured block answer, with the id of the query, the reason as explanation, and without asking caches or upstreams.  A name on an allow list of an applying group is always passed on and its answer never replaced.  A name on no deny list is passed on, for clients that are not restricted to allow lists, and blocked only because of what its answer refers to.",
  "all configurations, contents of lists, clients, names and behaviours of upstreams",
  "The chain of fourteen resolvers, the lists and the server interact; tests exercise the blocking resolver with a mocked next resolver.",
  "server/server.go:createQueryResolver","server/server.go:Server.resolve","resolver/blocking_resolver.go:BlockingResolver.Resolve","resolver/ede_resolver.go:EDEResolver.Resolve","lists/list_cache.go:ListCache.Match")
p("C135","The client is answered with the configured custom records",
  "For every query that passes the filters, with a custom domain (the longest that covers the name) with address, TXT or SRV records and no rewriting rule about the name: the message sent has exactly the configured records for the type asked for, with the name asked, their TTLs and the id of the query, cut off only with the TC bit, and neither hosts files, lists, caches nor upstreams are consulted.",
  "all configurations of records, all names, types and clients",
  "Relates the configuration to the message on the wire through the whole chain, for every configuration.",
  "server/server.go:createQueryResolver","server/server.go:Server.resolve","resolver/custom_dns_resolver.go:CustomDNSResolver.Resolve")
p("C136","The client is answered with the address in the hosts files",
  "For every address query that passes the filters, for a name without custom record, for which the hosts files have an address of that family: the message sent has exactly one record, with the name asked for, the address (of the last matching line, names before aliases) and the configured TTL, and neither lists, caches nor upstreams are consulted.",
  "all hosts files, names and clients",
  "Relates the files to the message on the wire through the whole chain, for every content.",
  "server/server.go:createQueryResolver","server/server.go:Server.resolve","resolver/hosts_file_resolver.go:HostsFileResolver.Resolve")
p("C137","All other queries are asked upstream once, and the answer is passed on",
  "For every query that no earlier source answers (custom records, hosts files, lists, cache, zones with their own upstreams, special-use names), if the client's upstreams answer with a message that refers to nothing denied (or the name is allowed): the upstreams are asked exactly once, with the query as prepared for them, and the client gets that message: same code, question and sections, cut off only with the TC bit, and TTLs changed only as caching demands.",
  "all configurations, clients, names, types and answers of upstreams",
  "A refinement statement for the whole chain over all answers; tests check the resolvers one by one.",
  "server/server.go:createQueryResolver","server/server.go:Server.resolve","resolver/caching_resolver.go:CachingResolver.Resolve","resolver/upstream_tree_resolver.go:UpstreamTreeResolver.Resolve")
p("C138","Names of zones with their own upstream are answered by it and never get to the other upstreams",
  "For every configuration without rewriting rules for conditional upstreams and a name in a configured zone: the general upstreams are not asked, whatever the lists, caches and zone upstreams do.  If the name is not blocked, not cached and the upstream of the longest zone answers, the client gets its code and records, with the question normalised, TTLs changed only as caching demands.",
  "all zone mappings, names, clients, states of the cache and answers",
  "Privacy of the zone is a statement about all executions of the chain; tests check that one resolver does not call the next.",
  "server/server.go:createQueryResolver","resolver/conditional_upstream_resolver.go:ConditionalUpstreamResolver.Resolve","resolver/conditional_upstream_resolver.go:ConditionalUpstreamResolver.processRequest")
p("C139","The bootstrap DNS configuration means what is written",
"The value of bootstrapDns is read as one item or as a list of items, each a text for an upstream or a mapping with the keys upstream and ips and no others, and is refused in every other case. A configuration is accepted exactly when each item names an upstream and either its host is an address or it is encrypted and lists addresses; otherwise exactly the wrong items are reported by their numbers, in order. Refuted in one respect: an empty text among the addresses is accepted and becomes the address of the upstream.",
"all YAML nodes, all lists of items",
"Unit tests read a few documents; the equivalence is over all nestings, all orders and repetitions of keys and all combinations of items.",
"config/config.go:185-221 UnmarshalYAML","config/config.go:297-302 bootstrappedUpstream","resolver/bootstrap.go:264-315 newBootstrapedResolvers")
p("C140","Lookups through the bootstrap DNS end and use the configured addresses",
"Looking up the addresses of an upstream ends for every configuration, state of the cache and behaviour of the upstreams: the bootstrap upstreams never need a lookup of their own, their addresses come from the configuration alone. A host that is an address needs no lookup; without a bootstrap DNS the resolver of the system is asked; otherwise the host gets exactly the addresses that the types in use bring, from the cache or from upstreams asked at their configured addresses, and nothing for filtered types. Refuted in one respect: addresses listed for an upstream whose host is an address are accepted and never used.",
"all configurations, cache states, upstream behaviours, hosts",
"Termination of a mutual recursion between bootstrap and upstreams cannot be shown by running it on some hosts.",
"resolver/bootstrap.go:58-155 NewBootstrap, UpstreamIPs, resolveUpstream","resolver/bootstrap.go:210-262 resolve, resolveType")
p("C141","The bootstrap cache always reloads, and keeps names for at least an hour",
"Whatever is configured for caching, the cache of the bootstrap DNS is enabled and reloads every expired name. If the user set no smallest time, answers are kept for at least an hour (partial: unless a largest time below an hour is set, for which it is refuted); a smallest time set by the user is used as it is.",
"all cache configurations and answers",
"Tests use one or two settings; the interplay of minimum, maximum and disabled cache is over all values.",
"config/caching.go:45-55 EnablePrefetch","resolver/bootstrap.go:88-98 NewBootstrap","resolver/caching_resolver.go:304-332 adjustTTLs")
p("C142","Names of configured values are read exactly as documented, and unsafe values are replaced",
 "Every enumerated option (IP version, start strategy, protocol, kind of query log, TLS version, upstream strategy, log format) accepts exactly its documented names, case-sensitively, and prints values with the name that reads back to the same value; the query log has all fields unless configured otherwise, and then the configured ones in order. Whatever minimal TLS version is configured, no connection is served below TLS 1.2, with 1.3 configured none below 1.3; the upstream timeout in use is always positive.",
 "all texts, all values, all lists of fields, all sets of versions offered by clients",
 "Tests try some names; the names are slices of one text and a table of numbers, and only a proof over all texts excludes that another text (such as a slice across two names) is accepted or that two values share a name.",
 "config/config_enum.go:28-101","config/config.go:92-102","config/upstreams.go:21-28","server/server.go:83-99","config/query_log.go:28-32")
p("C143","Configured query types are filtered, and no others",
 "A list of query types is accepted exactly if every entry is the name of a known type, as written; then a query is answered with an empty message and passed to nobody exactly if the name of its type is in the list, and all other queries are passed on unchanged.",
 "all tables of types, all lists, all queries",
 "Tests filter one type; the statement is about every table of names, list and query.",
 "config/qtype_set.go:38-76","resolver/filtering_resolver.go:26-36")
p("C144","A resolver printed as disabled leaves queries alone",
 "The printed configuration lists every resolver of the chain once, in order; a resolver printed as disabled passes every query on unchanged and returns the answer unchanged (the one for client names sets only the client's address as its name), rewriting rules around a resolver without configuration change nothing, and if all are disabled a query gets the upstreams' answer. Not so for custom DNS: with only a zone it is printed as disabled, yet it answers from the zone.",
 "all configurations and states, all queries with a question, all behaviours of the following resolvers",
 "IsEnabled and Resolve are separate functions per resolver; tests check each on a few configurations, not that one implies the other for all configurations.",
 "resolver/resolver.go:142-171","server/server.go:347-357","config/custom_dns.go:92-94","resolver/custom_dns_resolver.go:33-77")
p("C145","The printed configuration is complete, laid out and free of passwords",
 "When the configuration is printed, every message that the log level lets through is written once and in order. As text it has the blanks of all surrounding levels of indentation before it; as JSON it is unchanged. Afterwards the logger is as it was. The lines that start with an arrow are the headings of the stages in the order of the chain, disabled ones only at the level debug. Single options such as masks, times and intervals stand in the line which belongs to them. All groups of lists with their sources, all upstreams below their group and all entries of mappings can be read; the printed totals are the sums and a warning appears beyond 500 regular expressions. The passwords of Redis and its sentinels change nothing that is written, and the password of a query log target written as a URL is not shown. Passwords in the addresses of lists should not be shown either, and messages of other parts of the program should be unaffected.",
 "all configurations, log levels, formats and texts of durations; all points at which another message comes in between",
 "Tests compare a few log lines of single parts with fixed configurations; they cannot show that nothing of a secret reaches any line, or how nested indentation and other goroutines interact.",
 "log/logger.go:145-190","server/server.go:347-361","resolver/resolver.go:158-171","config/redis.go:27-50","config/blocking.go:58-93","config/query_log.go:40-57","config/config.go:341-354","config/upstreams.go:36-91","lists/list_cache.go:50-69","resolver/rewriter_resolver.go:53-57")
p("C146","The query log on the console shows exactly the non-empty configured fields",
 "A line of the console's query log has exactly the fields of the entry that are not empty (or zero), each once. Question, reason, answer and duration appear only if they are configured; without the client fields the placeholders 0.0.0.0 and none are shown. The instance is the trimmed content of /etc/hostname or else the host's name. Each configured type creates its own kind of writer. Every answered query should be seen on the console, but lines are written at the level info and so are lost when the log level is warn or higher.",
 "all entries, requests, responses, field configurations and log levels",
 "Tests write single entries; they cannot cover every combination of fields, empty values and log levels.",
 "querylog/logger_writer.go:23-55","resolver/query_logging_resolver.go:36-62","resolver/query_logging_resolver.go:180-217","resolver/query_logging_resolver.go:243-258")
p("C147","Every HTTP request is served by the handler of its method and path",
"The HTTP server decides by the method and the path alone. GET and POST of /dns-query, also with a client's ID behind it, go to DNS over HTTPS; six paths below /api go to the REST interface with their one method; the documentation, the start page, the profiler, the static files and the metrics have theirs. A path which only other methods use is answered with 405, one that nobody uses with 404. Only the routes for DNS resolve queries, and the client's ID is the part of the path. The server can be started exactly if the configured path of the metrics starts with a slash; otherwise it panics at the start (refuted that every accepted configuration starts). The path of the metrics may silently take the place of another route (refuted).",
"all configurations of metrics, methods, paths, queries and resolver chains",
"Tests request a handful of fixed URLs; they cannot show that no other method or path reaches a handler, or what an unusual path of the metrics does.",
"server/server_endpoints.go:56-65","server/server_endpoints.go:175-210","server/server_endpoints.go:270-272","metrics/metrics.go:22-29","api/api_server.gen.go:306-323","server/server.go:486-496")
p("C148","Headers of answers, and what pages of other origins may do",
"Every answer over TLS has the four security headers with their values, also errors and answers to preflights; without TLS none has one. A page of any origin may read the answers to its GET and POST requests. With credentials it never may, although the server says so in the headers (the option has no effect). A preflight is answered without calling a handler, and allows exactly the methods GET, POST and OPTIONS and the headers accept, authorization, content-type, x-csrf-token and origin; so a page can send DNS queries by POST. Refuted: that a page of another origin cannot control the server; with a plain request it can disable blocking, flush the cache or reload the lists.",
"all requests, origins, methods, lists of header names and routes",
"Tests check the headers of single requests; what any page in any browser can read or send follows from all combinations of origin, method and headers.",
"server/http.go:52-93","api/api_server.gen.go:306-323")
p("C149","Links of the start page lead somewhere; time limits of downloads belong to the server",
"Every link on the start page leads to a handler for every configuration that starts, and the link to the metrics is there exactly if they are enabled and leads to them, unless their path is one of DNS over HTTPS. Refuted: the documented time limits for reading and writing of downloads have no effect on downloads; they are the limits of the HTTP server for its own requests.",
"all configurations of metrics and of downloads",
"Tests look at one start page with default settings; that an option has no effect at all cannot be seen in a test of another part.",
"server/server_endpoints.go:220-260","server/http.go:20-37","lists/downloader.go:45-54","lists/downloader.go:86-88","docs/configuration.md:932-939")
p("C150","The metrics of prefetching count what prefetching does",
"The counter of prefetches is the number of times an entry was fetched again with a usable answer; the counter of hits is the number of questions answered from an entry that the last prefetch wrote; the gauge of names equals the number of names in the table of asked names after each lookup, is never below it and never above the configured maximum; without prefetching or events all stay 0.",
"all configurations and all interleavings of queries, answers, clean-ups, flushes and messages of other nodes",
"Whether an entry stems from a prefetch depends on the whole history of the cache; the gauge is only set on lookups.",
"cache/expirationcache/prefetching_cache.go:PrefetchingExpiringLRUCache.Get","resolver/caching_resolver.go:CachingResolver.reloadCacheEntry","metrics/metrics_event_publisher.go:registerCachingEventListeners")
p("C151","What a clean-up makes of an expired answer",
"When the clean-up finds an expired answer, it is removed if the name was not asked often enough or could not be fetched again, and replaced if a new answer came; in no case is an expired answer served for ever.",
"all configurations and all histories of the cache",
"Clean-up, prefetch and lookups interleave over many expiry periods; a test waits for one.",
"cache/expirationcache/expiration_cache.go:ExpiringLRUCache.cleanUp","resolver/caching_resolver.go:CachingResolver.reloadCacheEntry")
p("C152","A question to an encrypted upstream reaches only who holds its certificate",
"With tcp-tls or https the question goes to the address of the upstream and the port configured, only after a handshake with TLS 1.2 or newer and a certificate for the common name (the host if there is none), and only the answer of that peer is taken; over https the request has the path, host, content type and agent configured; with tcp+udp the question goes out once over each, and only answers with its id are taken.",
"all upstreams which the configuration accepts, all addresses, questions, networks and peers",
"Tests run against a friendly server on the loopback address with one certificate; who else could get or answer the question is not observable.",
"resolver/upstream_resolver.go:createUpstreamClient","resolver/upstream_resolver.go:httpUpstreamClient.callExternal","resolver/upstream_resolver.go:dnsUpstreamClient.callExternal","resolver/upstream_resolver.go:httpUpstreamClient.fmtURL")
p("C153","With encrypted upstreams no question leaves in the clear",
"If all upstreams of a group are encrypted, then for a question of a client everything that is sent - over all attempts, addresses, strategies and retries - goes to peers that hold a certificate for one of these upstreams, and the answer comes from such a peer, whatever addresses the lookup of the upstreams gives; plain upstreams of other groups are asked at their own addresses only; the number of packets for one question is bounded.",
"all groups, strategies, networks (another at each attempt), addresses, random numbers and orders of arrival",
"It is about everything that is not sent, to all others, with forged lookups; tests see one exchange with one server.",
"resolver/upstream_resolver.go:UpstreamResolver.Resolve","resolver/strict_resolver.go:StrictResolver.Resolve","resolver/parallel_best_resolver.go:ParallelBestResolver.Resolve","resolver/resolver.go:initGroupResolvers")
p("C154","Every line of a list that is not understood is named with its number",
"For every source the warnings are exactly its lines which are not understood, in order and with their numbers (comments and empty lines counted): all of them if the configured number of errors allows it, otherwise those up to the first that is too many, which is the line named in the error. The number of entries in each message is that of the lines above. A context that is done only cuts this short.",
"all texts, meanings of lines, limits of errors, read errors and times of cancellation",
"Tests check one short text with one bad line; skipped lines, limits and the end of a file shift numbers in ways that only all texts show.",
"lists/parsers/lines.go:lines.Next","lists/parsers/filtererrors.go:errorFilter.Next","lists/parsers/parser.go:ForEach","lists/list_cache.go:ListCache.parseFile")
p("C155","The reason given for a line is the reason",
"A line of a hosts file is refused with the first thing that is wrong with it: its address, its first name that is none (and whether it is too long), or that it has no name. A line of a list either has entries or is refused with three reasons, one for each way to read it, which are the right ones.",
"all lines, with any functions for addresses, IDNA and regular expressions",
"A test checks the message of a chosen line; that no other line has that message, and no accepted line any, is about all lines.",
"lists/parsers/hosts.go:HostsFileEntry.UnmarshalText","lists/parsers/hosts.go:HostListEntry.UnmarshalText","lists/parsers/hosts.go:WildcardEntry.UnmarshalText","lists/parsers/hosts.go:HostsIterator.UnmarshalText")
p("C156","The query log keeps entries for the configured days over all restarts and deletes them afterwards",
"Whatever starts, stops, clean-ups and queries happen, an entry stays in the query log for its days of retention (up to an hour where clocks change); without a retention nothing is ever deleted; and when the process has run for half a day nothing is left that is older than the retention plus a day and a half (files) or half a day and an hour (tables). False for a Timescale log without retention (the default gets a policy that drops what is older than 0 days) and for a process that restarts more often than every 12 hours (nothing is ever deleted).",
"for all histories of starts, ends, queries, passing time and applied policies, all clocks and retentions",
"The clean-up runs on a 12 hour ticker; tests call CleanUp directly and never let the process restart or time pass.",
"resolver/query_logging_resolver.go:NewQueryLoggingResolver","resolver/query_logging_resolver.go:QueryLoggingResolver.periodicCleanUp","querylog/database_writer.go:DatabaseWriter.CleanUp","querylog/file_writer.go:FileWriter.CleanUp","querylog/database_writer.go:databaseMigration")
p("C157","The database of the query log is set up completely, also by a second start and after failed attempts",
"When a writer for a database is created the table is there, has its primary key (MySQL, PostgreSQL) or is a hypertable with a retention policy (Timescale); creating it again works and changes nothing; failed attempts leave nothing behind. False for PostgreSQL (the migration tests for \"postgres\" but the type is \"postgresql\", the key is never added), for errors of MySQL whose text happens to contain 1060, and for a changed retention of Timescale (the first policy stays).",
"for all sequences of attempts with any errors, all schemas found, all retentions",
"The tests pass the type \"postgres\" directly to the inner constructor, a value production never passes; they do not migrate a database twice with other settings.",
"querylog/database_writer.go:databaseMigration","querylog/database_writer.go:NewDatabaseWriter","resolver/query_logging_resolver.go:GetQueryLoggingWriter")
p("C158","The metrics about loading lists count every failed try and tell when a group was last replaced",
"blocky_failed_downloads_total grows by exactly one for every failed try of a download of a list, and by nothing else; when all downloads have ended it is the number of all failed tries, whatever the interleaving. blocky_last_list_group_refresh_timestamp_seconds is the time at which a group of deny or allow lists was last replaced by a refresh; a failed refresh of a group never renews it, and no refresh that replaced a group ends without renewing it.",
"all histories of downloads (any number of attempts, any answers) and of refreshes of groups of both types, in every interleaving of their steps",
"Tests publish single events or look at one download; that no event is lost, doubled or attributed to a failed refresh over all interleavings needs an invariant over histories.",
"metrics/metrics_event_publisher.go:registerBlockingEventListeners","metrics/metrics_event_publisher.go:registerCachingEventListeners","lists/downloader.go:httpDownloader.DownloadFile","lists/list_cache.go:ListCache.refresh")
p("C159","Encrypted listeners accept exactly the clients that speak strongly enough, and show the configured certificate",
"On the listeners for DNS over TLS and HTTPS a connection is made if and only if client and server have in common a TLS version which is at least 1.2 and at least the configured one and, for the highest such version, a strong cipher suite that fits the certificate; every connection has an ephemeral key exchange and an authenticated cipher. The certificate shown is the configured one; one made by the program is used only if neither certificate nor key is configured, and files that cannot be used prevent the start.",
"all configurations, contents of the certificate files, times of start and all client hellos",
"Tests make a few handshakes with one client library; that no combination of offered versions and suites leads to a weak connection or to another certificate is a statement about all client hellos.",
"server/server.go:tlsCipherSuites","server/server.go:retrieveCertificate","server/server.go:newTLSConfig","util/tls.go:TLSGenerateSelfSignedCert")
p("C160","With log privacy on the log of the program does not tell what was asked or answered",
"With log.privacy on, every line which answering a query leaves in the program's log is put together from texts which say nothing about the question and the answer (ids, the address and names of the client, names of groups and upstreams, errors of libraries, types, numbers), texts of the code, and texts without letters and digits. A query which is answered without trouble writes nothing at level info but the line of the query log on the console. False at level debug for seven kinds of lines (the blocking resolver, the lists and the custom DNS resolver write names and answers in plain), and at level error for a query ending in a CNAME loop of the custom DNS records and for a prefetch which fails.",
"all configurations, states of caches and lists, requests, and everything that may happen outside (events at the upstreams, errors, entries found), for every set of public texts",
"Tests check the obfuscation function and single fields; that no line of any resolver, in any combination of configuration and outcome, shows a name is a statement about all runs.",
"log/context.go:CtxWithFields","server/server.go:newRequest","server/server.go:Server.handleReq","util/common.go:Obfuscate","util/common.go:AnswerToString","resolver/blocking_resolver.go:BlockingResolver.handleDenylist","resolver/custom_dns_resolver.go:CustomDNSResolver.processRequest","resolver/caching_resolver.go:CachingResolver.reloadCacheEntry","cache/stringcache/string_caches.go:stringMap.contains")
p("C161","What the cache holds for a question is what the client gets, and no upstream is asked",
"If caching is on, the query is cacheable and the cache holds an entry for its question, and neither custom DNS, hosts files nor the lists decide the query, the client gets exactly one reply: with the number and the question of its own query, the code and the records that were stored, and TTLs lowered together so that the smallest is the time which remains. Nothing after the cache is consulted.",
"all configurations, contents of lists, cache entries, remaining times and queries with one question in a plain name",
"Tests call the caching resolver alone with a mocked chain; that the whole chain and the server deliver the stored answer unchanged for every configuration is a statement about the composition.",
"resolver/caching_resolver.go:CachingResolver.Resolve","resolver/caching_resolver.go:setTTLInCachedResponse","server/server.go:Server.OnRequest","server/server.go:createQueryResolver")
p("C162","Special-use names are answered by the program itself, seen at the server",
"A query for a special-use name in lower case, for which nothing is configured (custom DNS, hosts files, conditional upstreams), which the cache does not hold and the lists let pass, gets exactly one reply, which is the answer the RFCs demand (TTLs within the limits of caching), explained as filtered if EDE is on; no upstream is asked.",
"all configurations with the special-use resolver on, all contents of lists, all such names and types",
"Tests call the resolver alone; that no configuration of the other resolvers lets such a query out to an upstream needs the composition of the chain.",
"resolver/sudn_resolver.go:SpecialUseDomainNamesResolver.Resolve","server/server.go:createQueryResolver","server/server.go:Server.OnRequest")
p("C163","Queries of filtered types and for short names are refused at once",
"A query whose type is filtered is answered with the code for success and no records, with its own number and question; with fqdnOnly on, a query for a name without a dot is answered with NXDOMAIN and no records. In both cases no later resolver is consulted: nothing is logged, counted, looked up or sent. The reply to a short name does not have the number of the query and is not marked as a reply, so clients drop it.",
"all configurations and all queries",
"Tests look at the two resolvers alone; that nothing else happens for such queries in any configuration, and what reaches the client, is a statement about chain and server.",
"resolver/filtering_resolver.go:FilteringResolver.Resolve","resolver/fqdn_only_resolver.go:FQDNOnlyResolver.Resolve","server/server.go:createQueryResolver","server/server.go:Server.OnRequest")
p("C164","With EDE on every answer of the program itself says why",
"With EDE on, every response whose kind has an extended error code carries this code with the reason as its only extended error; responses of other kinds, and all responses with EDE off, are those of the resolvers behind. False for queries refused at once: the resolver which adds the codes comes after the type filter and the FQDN check, so their codes never reach a client.",
"all configurations, states and queries",
"Tests call the EDE resolver with mocked responses of each kind, also of kinds which never reach it; which responses pass it is decided by the order of the chain.",
"resolver/ede_resolver.go:EDEResolver.Resolve","resolver/ede_resolver.go:EDEResolver.addExtraReasoning","model/models.go:ResponseType.ToExtendedErrorCode","server/server.go:createQueryResolver")
p("C165","An answer which refers to a denied name or address is replaced, wherever it comes from",
"If a name is on no list which counts for the client, and the answer for it - of an upstream or out of the cache - has a record with an address or an alias which is denied to the client and not allowed, the client gets exactly one reply: the block answer with its own number and question and the kind of record and the groups as explanation. Lists changed since the answer was stored count.",
"all configurations, contents of lists, upstream answers, cache entries and queries with one question in a plain name",
"Tests of the blocking resolver use one alias and a mocked chain; that no path through cache, zones and upstreams gets around the lists is a statement about the composition for all answers.",
"resolver/blocking_resolver.go:BlockingResolver.Resolve","server/server.go:createQueryResolver","server/server.go:Server.handleReq")
p("C166","Clients are told when the upstreams fail",
"If no upstream (or none of the zone's own upstreams) answers a query which nothing else decides, the client gets exactly one reply with the number and the question of its query and the code SERVFAIL; if the failure is a SERVFAIL message of an upstream, the code is SERVFAIL too. The client is never left without a reply and never gets an empty success.",
"all configurations, contents of lists, errors and queries with one question in a plain name",
"Tests make one mocked resolver return an error; that the error gets through all resolvers of the chain and becomes a reply is a statement about all of them.",
"server/server.go:Server.handleReq","server/server.go:Server.resolve","resolver/upstream_resolver.go:UpstreamServerError.Error")
p("C167","Reverse lookups of own addresses are answered with the own names, and are not sent out",
"A reverse lookup of an address which custom records give to names is answered with exactly these names, and nothing but the custom records is consulted. If no custom record has the address and an entry of the hosts files in force has it, its name and aliases are the answer and nothing behind the hosts files is consulted. Other reverse lookups go on to the lists.",
"all configurations, hosts files, orders of the maps, IPv4 and IPv6 addresses",
"Tests ask for one or two addresses in one resolver; the claim is about all addresses, map orders and the whole chain up to the reply of the server.",
"resolver/custom_dns_resolver.go:CustomDNSResolver.handleReverseDNS","resolver/hosts_file_resolver.go:HostsFileResolver.handleReverseDNS","server/server.go:createQueryResolver")
p("C168","A rewritten name is asked for at the upstreams of its zone, and the client sees its own name only",
"If a rewriting rule of the conditional upstreams makes another name of the name of a query, the upstreams responsible for the other name are asked for the other name, the deny and allow lists are asked for the client's name, and the client gets the answer with its own question and its own name on the records. If no zone covers the other name, or with fallbackUpstream the zone fails or has no records, the query goes once to the upstream servers under the client's own name and the client gets that answer.",
"all configurations, contents of lists and answers; names to which exactly one rule applies",
"Tests rewrite one name in front of a mocked resolver; the claim is about all names and about the lists, the cache and the server around the rewriter.",
"resolver/rewriter_resolver.go:RewriterResolver.Resolve","resolver/rewriter_resolver.go:RewriterResolver.rewriteRequest","resolver/conditional_upstream_resolver.go:ConditionalUpstreamResolver.Resolve","server/server.go:createQueryResolver")
p("C169","Custom records reached by rewriting answer as if configured for the asked name",
"If a rewriting rule of the custom records makes another name of the name of a query and custom records decide the other name, the client gets exactly one reply, with its own question and exactly the records of the wanted type which it would get if they were configured for its own name; nothing but the custom records is consulted. (If there are no records of this type, this holds with filterUnmappedTypes and without fallbackUpstream.)",
"all configurations, orders of the maps and queries; names to which exactly one rule applies, records other than CNAME",
"Tests rewrite one name to one record; the claim is about all records, rules and orders of iteration, up to the reply of the server.",
"resolver/rewriter_resolver.go:RewriterResolver.Resolve","resolver/custom_dns_resolver.go:CustomDNSResolver.processRequest","server/server.go:createQueryResolver")
p("C170","Custom CNAMEs lead to nothing the lists deny",
"If a custom record makes a name an alias (CNAME) of a name without custom records, the lists of the client count for the target too: if a list in force for the client denies the target, the client gets the alias and the block answer and nothing later than the lists is consulted; if the target is on no list, the upstream servers are asked for it exactly once and the client gets the alias and their records. (Refuted for clients known by name: the request for the target is made without the names of the client, so a client which is restricted by its name gets the address of a denied target through the alias.)",
"all configurations, contents of lists, clients and targets",
"Tests follow CNAMEs in the custom resolver alone, without lists behind it; that every list of every client counts for every target is a statement about the whole chain.",
"resolver/custom_dns_resolver.go:CustomDNSResolver.processCNAME","resolver/resolver.go:newRequestWithClientID","resolver/blocking_resolver.go:BlockingResolver.Resolve")
p("C171","Upstream groups are kept apart","What a client is told comes from the upstreams of its own group: behind the resolver that finds the client's names every resolver works for the client the query came from (same address, same names), whatever is done to the question on the way, so the group that is asked is one that is right for that client (its address, else its names, else its network, else the default). False in two ways: the target of a custom CNAME is asked for without the client's names, and the cache is looked up by type and name only, so that a client gets what another group answered.","all configurations, cache contents, upstream answers and queries (any number of questions), all iteration orders over the groups","Unit tests of the upstream tree hand it requests that have a client already; which client a request still carries after thirteen resolvers, two rewriters and a shared cache is a property of all paths through the chain.","resolver/upstream_tree_resolver.go:UpstreamTreeResolver.upstreamGroupByClient","resolver/client_names_resolver.go:ClientNamesResolver.Resolve","resolver/custom_dns_resolver.go:CustomDNSResolver.processCNAME","resolver/caching_resolver.go:CachingResolver.Resolve","server/server.go:createQueryResolver")
p("C172","Upstreams learn of the client subnet only what is configured","On every way a query takes through the chain (upstream groups, upstreams of zones, rewritten names, targets of custom CNAMEs, several questions) no resolver adds to what the client-subnet resolver lets through: with forwarding off the upstreams get at most the configured network of the client; with client-subnet handling off nothing that the client did not send itself; and questions asked to renew the cache tell of no client at all. (What C43 lets through gets to the upstreams too.)","all configurations, cache contents, upstream answers, custom CNAME chains and queries; all states of the cache and all its events","Which options a request still has after all resolvers, and whether one of the paths puts back what was taken off, is a property of all paths through the chain; the unit tests of the client-subnet resolver look at that resolver only.","resolver/ecs_resolver.go:ECSResolver.Resolve","resolver/custom_dns_resolver.go:CustomDNSResolver.processCNAME","resolver/rewriter_resolver.go:RewriterResolver.Resolve","resolver/conditional_upstream_resolver.go:ConditionalUpstreamResolver.Resolve","resolver/caching_resolver.go:CachingResolver.reloadCacheEntry","server/server.go:createQueryResolver")
p("C173","One query does not become many at the upstreams","For one query the upstream groups are asked at most once, so that nobody can use the server to flood an upstream. Proved: at most as often as the query has questions (once, for the usual query with one question), whatever rewriting rules, zones, caches and upstream answers. False as it stands for queries with several questions, as can be sent over HTTPS: the cache sends the whole query once for each question.","all configurations without custom CNAMEs to follow for the query, all cache contents, upstream answers and queries with any number of questions","The number of calls at the end of the chain depends on all resolvers before it and on what is in the cache; unit tests count calls of single resolvers for queries with one question.","resolver/caching_resolver.go:CachingResolver.Resolve","resolver/rewriter_resolver.go:RewriterResolver.Resolve","resolver/blocking_resolver.go:BlockingResolver.Resolve","server/server.go:createQueryResolver")
p("C174","More entries only block more, or only block less","When entries are added to deny lists, every query that was blocked stays blocked; when entries are added to allow lists, everyone who got an answer gets the very same answer. This holds for names, aliases and addresses in answers alike. For whole lists it is false: the first deny list of a group restricted to its allow lists (even one without entries) opens everything to it, and the first allow list of a group without deny lists blocks everything else.","all contents of lists and their extensions, groups, clients, queries with any number of questions and answers from behind","The order of the checks decides it, for all combinations of groups, questions and answer records; unit tests look at one set of lists at a time and never compare two.","resolver/blocking_resolver.go:BlockingResolver.Resolve","resolver/blocking_resolver.go:handleDenylist","resolver/blocking_resolver.go:determineAllowlistOnlyGroups","resolver/blocking_resolver.go:matches")
p("C175","Only the lists of a client's own groups count for it","Take two servers that differ in any way in their lists, list configuration, assignment of clients, disabled groups and order of going through maps, but for one client apply the same groups, and these have the same entries and are restricted to allow lists alike: this client gets the same answer with the same reason for every query, and the same is asked for on its behalf. So changing lists for the children never changes anything for the others, and answers never depend on map orders.","all pairs of list contents and configurations, all clients, queries and answers from behind","It compares two arbitrary servers that agree only where the client looks; tests compare one server with expected values.","resolver/blocking_resolver.go:BlockingResolver.Resolve","resolver/blocking_resolver.go:groupsToCheckForClient","resolver/blocking_resolver.go:handleDenylist","resolver/blocking_resolver.go:determineAllowlistOnlyGroups")
p("C176","Disabling groups never blocks what was answered before","While some groups are disabled (by command line, REST interface or for a time), everyone who got an answer before gets the same answer. Proved where none of the client's groups that are disabled has entries on allow lists. False in general: with a disabled group its allow list stops counting too, so a name that it allowed is then blocked by another group of the client.","all list contents, configurations, sets of disabled groups (any and any larger one), clients, queries with any number of questions and answers from behind","It compares the verdicts under two sets of disabled groups for all lists and answers; unit tests disable the one group that blocks and look at names on its deny list.","resolver/blocking_resolver.go:groupsToCheckForClient","resolver/blocking_resolver.go:BlockingResolver.DisableBlocking","resolver/blocking_resolver.go:handleDenylist","resolver/blocking_resolver.go:BlockingResolver.Resolve")
p("C177","Spelling a name differently does not evade the lists","Two queries of one client that ask for the same names but for letter case and a final dot (and differ in anything else: type, id, flags), with answers from behind that say the same, are treated alike: either both are blocked for the same reason, or both get their answers; and one of them leaves the server exactly if the other does. Aliases in the answers may be spelled differently too. With zones that have their own upstreams, all spellings go to the same upstream, which sees one and the same name, or none does.","all lists, groups, clients, names in all spellings, numbers of questions and answers","It compares any two spellings for all lists and all answers; unit tests check one spelling of one name.","resolver/blocking_resolver.go:handleDenylist","resolver/blocking_resolver.go:extractEntryToCheckFromResponse","resolver/conditional_upstream_resolver.go:processRequest","util/common.go:ExtractDomain","util/common.go:ExtractDomainOnly")

with open("/verif/properties.jsonl","w") as f:
    for x in P: f.write(json.dumps(x)+"\n")
print(len(P))
