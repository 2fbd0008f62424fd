# Formal model of blocky — design

The model is written in Rocq/Coq 8.16.1 under `rocq/theories`.  It is a
hand-written, function-by-function transcription of the Go code in `/repo`
(0xERR0R/blocky at the pinned commit).  Nothing is extracted or generated from
the Go source; the correspondence is by reading, and every model definition
carries a comment with the file and lines it models.

## Conventions

* Go strings are `list ascii` (bytes).  `strings.ToLower` is modelled on ASCII.
* Go maps are association lists with functional update; code whose result
  depends on map iteration order takes the order as an explicit argument (any
  permutation), and the theorems quantify over it.
* `error` is a value; `nil` is an explicit case; a Go run-time panic is an
  explicit outcome.
* DNS messages are records (`Dns.v`) with the fields the code reads or writes.
* A resolver is a *program* (`Resolver.v`): a finite tree which either finishes
  with an outcome or sends a request to the next resolver and continues with
  its outcome.  "Nothing is forwarded" is then a statement about the tree, for
  every possible behaviour of the rest of the chain.
* Stateful components are `step : state -> op -> state * output` and the
  theorems are about all lists of operations; time is an explicit argument.
* Goroutines and timers are interleaving steps.

Files: `X.v` model, `XSpec.v` specification (does not use the model's
helpers), `XProofs.v` lemmas, `XProps.v` the property theorems with `Print
Assumptions` and concrete examples.

## Plan per property

| id | modelled | how proved |
|----|----------|-----------|
| C01 | trie insertion/search, SplitTLD, wildcard cache | invariant: a trie denotes the set of label lists it accepts; induction over insertions |
| C02 | bucketed, concatenated sorted string map, sort.Search | sortedness invariant; correctness of binary search with a monotone predicate |
| C03 | addEntry of the three factories, chain order | case analysis; crash on "/" as refutation |
| C04 | Contains of grouped and chained caches | membership + sortedness |
| C05 | Refresh of grouped caches | frame lemma, induction over refresh histories |
| C06 | createCacheForGroup over arbitrary arrival order of entries | case analysis on outcomes |
| C07 | Finish as one step per sub-cache | refutation with witness; partial theorem: per sub-cache atomicity |
| C08 | linesParser, errorFilter, ForEach | induction over lines |
| C09 | line trimming and comment stripping | string lemmas |
| C10 | HostsFileEntry.UnmarshalText (IP parsing as oracle) | induction over fields |
| C11 | regular expression as a matcher | derivation-style proof of equivalence with a label grammar |
| C12–C15 | expiring LRU with explicit clock and clean-up steps | invariants over op lists; C15 refuted, weaker bound proved |
| C16 | prefetching wrapper | counter invariant |
| C17 | key encoder/decoder (2-byte type + lower-cased name) | round trip, injectivity |
| C18, C19 | TTL arithmetic with explicit uint32 wrap | arithmetic |
| C20–C23 | caching resolver as a state machine with the next resolver as an oracle | invariant over histories |
| C24–C29 | blocking resolver as a program over abstract list matchers | case analysis against a declarative specification |
| C30–C32, C74 | enable/disable/timer transition system (a fired timer's callback is a separate step) | invariants; refutations for C31, C32, C74 |
| C73 | Go's writer-preferring RWMutex, lock operations per query/command | counting invariant; refutation by a schedule |
| C75 | FQDN identifiers over the expiring cache | list lemmas; refutation |
| C33–C36, C76 | custom DNS resolver incl. tables, CNAME recursion with explicit bound | suffix lemmas; refinement to an inductive meaning of the configuration; bound shown irrelevant by counting visited targets; refutations for C36 (letter case), C76 |
| C37, C77 | conditional resolver; the upstream group is an arbitrary function | suffix lemmas; refutation for letter case in C77 |
| C38, C39, C78, C79 | rewriter over an arbitrary inner resolver, with what it leaves in the message object; orders of map iteration arbitrary | invariant of the constructor's loop; induction on the questions; refutations for C38 (last clause), C78, C79 |
| C40–C42 | SUDN, filtering, FQDN-only | table compared with zones listed from the RFCs (suffix-free by computation over the table); refutations for letter case and missing reply header |
| C43–C45, C80–C82 | ECS, EDNS0 helpers, EDE | list lemmas about the OPT record in force, bitwise specification of masks; refutations for C43, C44 (repeated option), C80, C81 |
| C46, C83–C86 | hosts resolver: sources, arrival order, table, torn reads of the four references, map iteration order | last-match characterisation by induction over the entries; induction over histories of loads; refutations for C46 (name and alias), C83, C84, C85 |
| C47, C87 | client names: one step for the cache access, one for the lookup and store, flush and clean-up steps (ClientNames.v) | translation of histories to histories of the expiring cache, then C13 and C72; refutations: no name with out-of-range singleNameOrder, failed lookups cached |
| C48, C88 | creation of the upstream tree and choice of the branch for all map iteration orders | case analysis against the relation `right_group`; refutations: other spelling of an IP, several matching groups |
| C49–C52, C89–C94 | strict, parallel-best with weighted choice, upstream retry, UDP/TCP race, IPSet steps, bootstrap lookups, start-up of groups (Upstream.v); outcomes of calls and random numbers are arbitrary functions | induction over outcome lists, attempts and interleavings; intervals of random numbers; refutations for C52 (fourth address, refused connection), C91 (SERVFAIL over TLS/HTTPS), C92 (one address family fails), C94 |
| C53, C54 | server.resolve/handleReq over an arbitrary chain (with the request as the chain leaves it), Msg.Truncate over an arbitrary length measure (Server.v) | case analysis incl. panic outcome; invariant of the truncation loops; refutations for C53 (fqdnOnly), C54 (TCP with EDNS0, long OPT record, ECS) |
| C55–C57, C95 | DoH handlers, base64url, max-age, client id, client address | bit-string specification of base64; string and list lemmas; C56, C95 refuted |
| C58–C61, C96–C98 | query log channel (all schedules), batches, file names, CSV records, retention, creation of the writer (QueryLog.v) | invariants over schedules; reader for CSV as specification; calendar arithmetic; refutations for failed batches, future and foreign files, names in one file |
| C62 | Obfuscate, its uses in query log entries | pointwise; refuted for the debug lines of the blocking resolver |
| C63 | arpa parsing and printing, strconv.ParseUint | decimal/hex round trip; refutation for over-long IPv6 labels |
| C64, C99, C100 | redis clients of any number of instances, the channel and the store as a transition system; DNS codec as oracle; effect of JSON on strings (Redis.v) | invariant relating everything delivered to one order of what was said; refutations: keys that are not UTF-8, full send buffer, last half second, replies without records |
| C101 | net.ParseIP and net.IP.String as used by the configuration, lists and client tables (Ip.v) | soundness and completeness of the two readers against a grammar of the texts, writer produces a text of the grammar |
| C67 | durations: strconv.Atoi, time.ParseDuration with 64-bit arithmetic, fraction as oracle (Duration.v) | soundness and completeness against a grammar of amounts; refutation: silent overflow of minutes |
| C68, C69, C105 | texts of upstreams, ports and listen addresses (ConfUpstream.v) | soundness and completeness against a grammar; round trip without common name; refutations: port 0, common name |
| C65, C102, C106 | `Migration`: migration of deprecated options (25 options, table of the code compared with the documented one), validation of the loaded configuration | induction over the table, first-wins per destination |
| C103, C104 | `Target`: target of the query log in the log (with the parts of Go's net/url that decide about it), texts of sources | induction over texts |
| C66, C107 | `Startup`: start-up strategies and periodic refreshes, goroutines as interleaved steps | invariant over all schedules |
| C70 | `Chain`: the whole chain as createQueryResolver assembles it, with a trace of the calls | contract of each stage (answers with its own kind or sends on one request with the same question), induction over the chain; decision by the separate specifications of the sources; the caching and conditional stages are related to their models; refutations: screened answers, custom CNAMEs to other names, several questions |
| C108 | the chain again, with panics as outcomes: which configurations make every query safe | contract of each stage, induction over the chain; refutations for unsound configurations |
| C109, C110 | `Match`: filepath.Match on Unix for ASCII texts, net.ParseCIDR and IPNet.Contains, used by the client groups of blocking and of upstreams | soundness and completeness against a grammar of patterns (leftmost matches of chunks suffice without slash), prefixes as equality of bits; refutations: slash, address text |
| C111, C112 | `Api`: blocking commands of the REST interface; several instances with first-in first-out inboxes | C67 and C30–C32 lifted to the interface; invariant "state after receiving all = state of the writer"; refutations: last second, announced timer, negative duration, two writers, late timer |
| C113, C114 | `Download`: retries of a download, opening of sources, lines of a text, all producers of a group | induction over the tries; C08 and C06 lifted to whole groups of sources; refutations: cancelled context, zero attempts, one missing source, truncated source |
| C115–C117 | `ConfMapping`: texts of custom and conditional mappings, records of a zone by name | C101, C68, C35 and C37 lifted to the texts of the configuration; refutations: names differing in case (mapping, zone), zone record hiding a mapping |
| C118–C119 | `LoadConf`: reading the configuration from a file or a directory | induction over directory trees; order of paths; refutations: link to a directory, ConfigMap layout read twice, second document ignored |
| C120–C122 | `Cli`: durations as text, blocking commands end to end, address and configuration used by the commands | round trip of durations through C67 and C111; agreement of two commands over C119; refutations: IPv6 address, `refresh`, flags, environment, empty group |
| C123–C127 | `Metrics`: the gauges of blocking, lists and cache entries as written by event listeners, the counters of the metrics resolver | invariants over interleavings (gauge against state, pending publications), sums over concurrent counting goroutines, calls of the chain; refutations: partly disabled groups, overlapping refreshes and puts, flush, bootstrap lookups, filtered queries, client identifiers that are not UTF-8 |
| C128–C132 | `Query.v`, `Dispatch.v`, `Serve.v` (`QuerySpec.v`, `DispatchSpec.v`) | queries over the REST interface against DNS, dispatch of packets by miekg/dns (accept function, ServeMux, NextLabel), the health check, refresh over REST, listeners and certificates, the life of the process as interleaving steps; JSON, HTTP routing, sockets and certificate contents are parameters |
| C133–C138 | `EndToEnd.v` (`EndToEndSpec.v`, `EndToEndLists.v`, `EndToEndProofs.v`) | the whole way from the configured sources of lists, custom records, hosts files and zones through the chain of createQueryResolver to the message the server sends; composes the models above, adds only the refresh of all groups; lengths of messages, files, network and upstreams are parameters |
| C139–C141 | `Bootstrap.v` (`BootstrapSpec.v`, `BootstrapProps.v`) | bootstrap DNS: reading of `bootstrapDns` from YAML nodes, checking of items, construction, lookups with recursion through the bootstrap upstreams, cache settings | YAML nodes are texts, lists and mappings (no null, no numbers); how yaml.v2 reads a mapping with the struct's own field names is a parameter; cache state, best resolver and system resolver are parameters |
| C142–C143 | `ConfValues.v` (`ConfValuesSpec.v`, `ConfValuesProps.v`) | config/config_enum.go, log/logger_enum.go, TLSVersion.validate, Upstreams.validate, newTLSConfig (versions), QTypeSet | the TLS handshake picks the highest common version from 1.x up to 1.3 (crypto/tls); dns.StringToType is a parameter; YAML values as in `Bootstrap.v` |
| C144 | `Disabled.v` (`DisabledProps.v`) | IsEnabled of all resolvers, ForEach, LogResolverConfig, printConfiguration (resolvers) | only which resolver is printed as disabled, not the texts of LogConfig; whether hosts files have sources is `hf_enabled` |
| C145–C146 | `LogOut.v`, `LogOutSpec.v` (`LogOutProps.v`) | the log: levels, indentation hooks, all LogConfig methods up to printConfiguration; the query log on the console, kinds of writers, instance name | texts of durations, addresses and records are given; maps as lists in their order of iteration; the logger's other fields, time stamps and colours are left out; the runtime information at the end of printConfiguration is left out |
| C147–C149 | `Http.v`, `HttpSpec.v` (`HttpProps.v`) | routes of the HTTP server, security headers, CORS, the start page's links, time limits | of go-chi/chi the search among the registered patterns (text before parameter before rest, last registration counts), of go-chi/cors the options which are set; handlers behind /debug and /static are only named; paths of the metrics with braces or stars are left out; the browser is the CORS check of the Fetch standard |
| C150, C151 | `Prefetch.v` (`PrefetchProps.v`) | events and metrics of prefetching over the histories of `Caching.v`; what a clean-up makes of an expired entry | events are handled at once (the bus is synchronous); counters do not overflow |
| C152 | `Connect.v` (`ConnectProofs.v`, `ConnectProps.v`) | TLS settings, addresses and URLs of upstreams, what is sent to whom, redirections of net/http | the network is a function from addresses to peers (versions, certificate, answers); no proxy in the environment; every request has its own connection; certificates are judged by an oracle per peer |
| C153 | `Outbound.v` (`OutboundProps.v`) | all that is sent for one question: attempts, groups, start of a group; composition of `Upstream.v` and `Connect.v` | the network and the addresses are chosen anew at each attempt; what a cancelled call would send counts as sent; filter and cache of the bootstrap DNS left out (they only keep questions from being sent) |
| C75 | `FqdnProps.v` (over `Blocking.v`, `ExpCache.v`) | addresses of identifiers that are domain names, over all clean-ups | as `Blocking.v` |
| C154, C155 | `Position.v` (`PositionSpec.v`, `PositionProofs.v`, `PositionProps.v`) | messages about lines of lists and hosts files: line numbers, reasons, counts, limits of errors, cancellation | line numbers are unbounded; texts of errors of other libraries are parameters |
| C156, C157 | `Retention.v` (`RetentionProps.v`) | the query log over starts, ends and passing time; migration of the database and retries | MySQL, PostgreSQL and TimescaleDB only as far as the statements of the migration go, from their documentation ("if not exists" leaves an existing policy alone; a policy drops whole chunks); entries are in the log at once; one target over all restarts; clock as functions with at most an hour of change |
| C158 | `Loading.v` (`LoadingSpec.v`, `LoadingProps.v`) | metrics/metrics_event_publisher.go:64-65, 146-148 with lists/downloader.go and the refresh of list_cache.go: counter of failed downloads, time of the last refresh | every publication on the event bus is one step (the bus holds a lock while it calls the handlers); downloads without end (0 attempts, no success) are not begun; downloads are not tied to the refresh that needs them |
| C159 | `Tls.v` (`TlsSpec.v`, `TlsProps.v`) | server/server.go:50-99 (cipher suites, certificate, TLS configuration), util/tls.go; the handshake on encrypted listeners | crypto/tls is modelled by version, suite and application protocol; curves and signature algorithms in common are one flag; of a certificate: key kind, names, validity, serial number; time.AddDate and tls.LoadX509KeyPair are parameters |
| C160 | `Trace.v` (`TraceSpec.v`, `TraceProofs.v`, `TraceProps.v`) | the lines of the program's log for a query: server/server.go:440-570, log/context.go, the calls of the logger in the resolvers, in the lists and at the upstreams; reloadCacheEntry | a line is level, message and fields; the field "prefix" and the trace lines naming the next resolver are left out, and so is the order of lines of different calls; texts made outside (uuid, errors, %q, events at the upstreams, entries of lists found) are parameters |
| C161–C164 | `AnswersProps.v` (over `Chain.v`, `EndToEnd.v`, `Server.v`) | cached answers, special-use names, queries refused at once and explanations, from the query to the reply of the server | as `EndToEnd.v` |
| C165–C167 | `ScreenProps.v` (over `Chain.v`, `EndToEnd.v`, `Server.v`) | answers that refer to denied names or addresses, failing upstreams and reverse lookups, from the query to the reply of the server | as `EndToEnd.v`; `serves_failures` tells the SERVFAIL error of an upstream apart from other errors |
| C168, C169 | `RewriteProps.v` (over `Chain.v`, `Rewriter.v`, `EndToEnd.v`) | names rewritten for the conditional upstreams and for the custom records, from the query to the reply of the server | as `EndToEnd.v`; exactly one rule applies to the name of the query (C79 is about several), the custom records are not CNAMEs |
| C170 | `CnameProps.v` (over `Chain.v`, `Custom.v`, `EndToEnd.v`) | custom CNAMEs and the lists, from the query to the reply of the server | as `EndToEnd.v`; one CNAME as the only record of the name, no rewriting rules for custom records (C78 shows that they do not go together) |
| C171 | `GroupsProps.v` (over `Chain.v`, `ClientNames.v`, `Caching.v`) | every resolver behind the client names works for the client of the query, so that its upstream group is asked; refuted for targets of custom CNAMEs and for the shared cache | as `Chain.v`; no custom CNAME to follow |
| C172 | `DiscloseProps.v` (over `Chain.v`, `Ecs.v`, `Caching.v`) | no way through the chain adds to what the client-subnet resolver lets through, and prefetches tell of no client | as `Chain.v`; a request for a zone is any request the conditional resolver makes of the arriving one after any rewriting |
| C173 | `AmplifyProps.v` (over `Chain.v`) | how often the upstream groups are asked for one query | as `Chain.v`; no custom CNAME to follow |
| C174 | `MonotoneProps.v` (over `Blocking.v`) | what a query gets with one set of list entries against a larger one | as `Blocking.v` |
| C175 | `OwnListsProps.v` (over `Blocking.v`) | two servers compared for one client | as `Blocking.v` |
| C176 | `DisableProps.v` (over `Blocking.v`) | what a query gets with fewer against more groups disabled | as `Blocking.v` |
| C177 | `SpellingProps.v` (over `Blocking.v`, `Conditional.v`) | two spellings of one query, and of the aliases in the answers | as `Blocking.v` |
| C06, C08, C124 | `CountProps.v` (over `StringCache.v`, `Parsers.v`) | the number of entries of any list; the outcome of a refresh of all groups; the lines of a text | as there |

## Not expressible / outside

Network I/O, TLS, HTTP transport, SQL drivers, logging output, YAML
decoding, Go's regexp and IDNA packages, and the Go memory model are not
modelled; where they matter they appear as oracles quantified over in the
theorems.

## Trusted base

* Coq's kernel (8.16.1).  No kernel check is switched off, no plugin is used.
* Axioms: none.  `Print Assumptions` is run for each property theorem in the
  `*Props.v` files and says "Closed under the global context" for every one.
  The ssreflect files of the standard library, which some of its modules load,
  contain declarations that a search for axioms lists (`Coq.ssr.ssrunder.Under_rel.*`);
  no theorem here depends on them.
* The statements: `*Spec.v` (specifications) and `*Props.v` (theorems).
* The transcription of the Go code into the `X.v` files, which is by hand.  The
  comment at each definition names the file and the lines and states what is
  simplified.  `COVERAGE.md` (made by `tools/gen_coverage.py` from these
  comments) lists, for each Go file, the functions that are modelled and those
  that are not.
* The behaviour assumed of the libraries where it is part of the model:
  strings, strconv, sort, sync, time (`Str`, `Num`, `Duration`), net.ParseIP
  and net.IP.String (`Ip`), parts of net/url (`Target`), encoding/csv
  (`QueryLog`), base64url (`Server`), hashicorp/golang-lru (`ExpCache`), the
  helpers of miekg/dns used here (`Dns`, `Server`), go-multierror, retry-go,
  parcour and bufio.Scanner (`Download`), filepath.WalkDir, os.Stat and the
  splitting into documents of yaml.v2 (`LoadConf`), the counters and the UTF-8
  check of labels of prometheus, and EventBus, which calls the listeners before
  Publish returns (`Metrics`).  They are
  transcribed from their documentation, as their sources are not part of the
  repository.

Not modelled in any file: `cmd` (except what COVERAGE.md lists), `e2e`,
`helpertest`, `web`, registration with prometheus in `metrics`, `main*.go`; in the other packages the
functions in the last column of COVERAGE.md, which are mostly constructors that
only fill in fields, `LogConfig`, `String` and `Name` methods.
