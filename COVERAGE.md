# Which functions of the Go code the model cites

Generated by `tools/gen_coverage.py` from the citations in the model files. "cited" means that
lines of the body are cited by a definition of the model; the comment there states what is
simplified.

480 of 685 functions are cited.

| Go file | model | cited | not cited |
|---|---|---|---|
| api/api_interface_impl.go | Api, Cli, Http, Query | RegisterOpenAPIEndpoints, ctxWithHTTPRequestMiddleware, OpenAPIInterfaceImpl.DisableBlocking, OpenAPIInterfaceImpl.EnableBlocking, OpenAPIInterfaceImpl.BlockingStatus, OpenAPIInterfaceImpl.ListRefresh, OpenAPIInterfaceImpl.Query | NewOpenAPIInterfaceImpl, OpenAPIInterfaceImpl.CacheFlush |
| cache/expirationcache/expiration_cache.go | Blocking, Caching, ClientNames, ExpCache, Metrics, Prefetch | NewCacheWithOnExpired, periodicCleanup, ExpiringLRUCache.cleanUp, ExpiringLRUCache.Put, ExpiringLRUCache.Get, isExpired, calculateRemainTTL, ExpiringLRUCache.TotalCount, ExpiringLRUCache.Clear | NewCache |
| cache/expirationcache/prefetching_cache.go | ExpCache, Prefetch | NewPrefetchingCache, PrefetchingExpiringLRUCache.shouldPrefetch, PrefetchingExpiringLRUCache.onExpired, PrefetchingExpiringLRUCache.trackCacheKeyQueryCount, PrefetchingExpiringLRUCache.Put, PrefetchingExpiringLRUCache.Get, PrefetchingExpiringLRUCache.TotalCount, PrefetchingExpiringLRUCache.Clear | – |
| cache/stringcache/chained_grouped_cache.go | Metrics, Str, StringCache | NewChainedGroupedCache, ChainedGroupedCache.ElementCount, ChainedGroupedCache.Contains, ChainedGroupedCache.Refresh, chainedGroupFactory.AddEntry, chainedGroupFactory.Finish | chainedGroupFactory.Count |
| cache/stringcache/in_memory_grouped_cache.go | StringCache | NewInMemoryGroupedStringCache, NewInMemoryGroupedRegexCache, NewInMemoryGroupedWildcardCache, InMemoryGroupedCache.ElementCount, InMemoryGroupedCache.Contains, InMemoryGroupedCache.Refresh, inMemoryGroupFactory.Finish | inMemoryGroupFactory.AddEntry, inMemoryGroupFactory.Count |
| cache/stringcache/string_caches.go | Str, StringCache, Trace | normalizeEntry, stringMap.elementCount, stringMap.contains, newStringCacheFactory, stringCacheFactory.getBucket, stringCacheFactory.insertString, stringCacheFactory.addEntry, stringCacheFactory.create, regexCache.elementCount, regexCache.contains, regexCacheFactory.addEntry, regexCacheFactory.create, wildcardCache.elementCount, wildcardCache.contains, newWildcardCacheFactory, wildcardCacheFactory.addEntry, wildcardCacheFactory.create, normalizeWildcard | stringCacheFactory.count, regexCacheFactory.count, newRegexCacheFactory, wildcardCacheFactory.count |
| cmd/blocking.go | Cli | newBlockingCommand, enableBlocking, disableBlocking, statusBlocking | – |
| cmd/cache.go | Cli | newCacheCommand, flushCache | – |
| cmd/healthcheck.go | Dispatch | healthcheck | NewHealthcheckCommand |
| cmd/lists.go | Cli | NewListsCommand, newRefreshCommand, refreshList | – |
| cmd/query.go | Cli, Query | NewQueryCommand, query | – |
| cmd/root.go | Cli | NewRootCommand, apiURL, initConfig, printOkOrError | initConfigPreRun, Execute |
| cmd/serve.go | Cli, Serve | newServeCommand, startServer | printBanner |
| cmd/validate.go | Cli | validateConfiguration | NewValidateCommand |
| cmd/version.go | – | – | NewVersionCommand, printVersion |
| config/blocking.go | Blocking, Disabled, LogOut, Migration | Blocking.migrate, Blocking.IsEnabled, Blocking.LogConfig, Blocking.logListGroups | – |
| config/bytes_source.go | EndToEnd, Target | BytesSource.String, BytesSource.UnmarshalText, newBytesSource, TextBytesSource, inlineList | NewBytesSources |
| config/caching.go | Bootstrap, Caching, Disabled, LogOut | Caching.IsEnabled, Caching.LogConfig, Caching.EnablePrefetch | – |
| config/client_lookup.go | ClientNames, Disabled, LogOut | ClientLookup.IsEnabled, ClientLookup.LogConfig | – |
| config/conditional_upstream.go | ConfMapping, Disabled, LogOut | ConditionalUpstream.IsEnabled, ConditionalUpstream.LogConfig, ConditionalUpstreamMapping.UnmarshalYAML | – |
| config/config.go | Bootstrap, Chain, Cli, ConfUpstream, ConfValues, Disabled, Http, LoadConf, LogOut, Migration, Num, Outbound, Serve, Startup, Str, Target, Upstream | IPVersion.QTypes, TLSVersion.validate, InitStrategy.Do, ListenConfig.UnmarshalText, BootstrapDNS.UnmarshalYAML, BootstrappedUpstream.UnmarshalYAML, Ports.LogConfig, toEnable.IsEnabled, toEnable.LogConfig, Init.LogConfig, SourceLoading.LogConfig, SourceLoading.StartPeriodicRefresh, SourceLoading.periodically, recoverToError, Downloader.LogConfig, LoadConfig, loadConfig, readFromDir, isRegularFile, unmarshalConfig, Config.migrate, Config.validate, ConvertPort | IPVersion.Net, BootstrapDNS.IsEnabled, BootstrapDNS.LogConfig, WithDefaults, mustDefault |
| config/custom_dns.go | ConfMapping, Custom, Disabled, Ip, LogOut | ZoneFileDNS.UnmarshalYAML, CustomDNSEntries.UnmarshalYAML, CustomDNS.IsEnabled, CustomDNS.LogConfig, configToRR | – |
| config/duration.go | Caching, Duration, LogOut, Migration | Duration.IsAboveZero, Duration.IsAtLeastZero, Duration.SecondsU32, Duration.String, Duration.UnmarshalText | Duration.ToDuration, Duration.Seconds |
| config/ecs.go | Disabled, Ecs, LogOut, Num | ECS.IsEnabled, ECS.LogConfig, unmarshalInternal | ECSv4Mask.UnmarshalText, ECSv6Mask.UnmarshalText |
| config/filtering.go | Disabled, LogOut, Migration | Filtering.IsEnabled, Filtering.LogConfig | – |
| config/hosts_file.go | Disabled, Hosts, LogOut, Migration | HostsFile.migrate, HostsFile.IsEnabled, HostsFile.LogConfig | – |
| config/metrics.go | Disabled, Http, LogOut | Metrics.IsEnabled, Metrics.LogConfig | – |
| config/migration/migration.go | Migration | Migrate, Move, Dest.IsDefault | newMigrator, Apply, To, Dest.Name, Dest.String, fullname |
| config/qtype_set.go | ConfValues, Migration, Sudn | QTypeSet.Contains, QTypeSet.Insert, QTypeSet.UnmarshalYAML, QType.UnmarshalText | NewQTypeSet, QType.String |
| config/query_log.go | ConfValues, Disabled, LogOut, QueryLog, Target | QueryLog.SetDefaults, QueryLog.IsEnabled, QueryLog.LogConfig, QueryLog.censoredTarget | – |
| config/redis.go | LogOut | Redis.LogConfig | Redis.IsEnabled |
| config/rewriter.go | Disabled, LogOut | RewriterConfig.IsEnabled, RewriterConfig.LogConfig | – |
| config/sudn.go | Disabled, LogOut, Sudn | SUDN.IsEnabled, SUDN.LogConfig | – |
| config/upstream.go | Bootstrap, ConfUpstream, Ip, Num, Upstream | Upstream.IsDefault, Upstream.String, Upstream.UnmarshalText, ParseUpstream, extractCommonName, extractPath, extractNet | – |
| config/upstreams.go | ConfValues, LogOut, Migration | Upstreams.validate, Upstreams.LogConfig, UpstreamGroup.LogConfig | Upstreams.IsEnabled, NewUpstreamGroup, UpstreamGroup.GroupUpstreams, UpstreamGroup.IsEnabled |
| e2e/containers.go | – | – | createDNSMokkaContainer, createHTTPServerContainer, createRedisContainer, createPostgresContainer, createTimescaleContainer, createMariaDBContainer, createBlockyContainer, checkBlockyReadiness, doHTTPRequest, createTempFile |
| e2e/helper.go | – | – | getRandomNetwork, deferTerminate, startContainerWithNetwork, doDNSRequest, getContainerHostPort, getContainerLogs, withNetwork |
| evt/events.go | – | – | Bus |
| helpertest/helper.go | – | – | GetIntPort, GetStringPort, GetHostPort, TempFile, TestServer, DoGetRequest, ToAnswer, ToExtra, HaveNoAnswer, HaveReason, HaveResponseType, HaveReturnCode, HaveEdnsOption, HaveTTL, BeDNSRecord, dnsRecordMatcher.matchSingle, dnsRecordMatcher.Match, dnsRecordMatcher.FailureMessage, dnsRecordMatcher.NegatedFailureMessage |
| helpertest/http.go | – | – | TestHTTPProxy, HTTPProxy.URL, HTTPProxy.ReqURL, HTTPProxy.RequestTarget, HTTPProxy.ServeHTTP |
| helpertest/tmpdata.go | – | – | NewTmpFolder, TmpFolder.Clean, TmpFolder.CreateSubFolder, TmpFolder.CreateEmptyFile, TmpFolder.CreateStringFile, TmpFolder.JoinPath, TmpFolder.createFile |
| lists/downloader.go | Download, Http, Loading | newDownloader, httpDownloader.DownloadFile, onDownloadError | TransientError.Error, TransientError.Unwrap, NewDownloader |
| lists/list_cache.go | Download, EndToEnd, Loading, LogOut, Metrics, Parsers, Position, Query, Startup, StringCache | ListCache.LogConfig, NewListCache, ListCache.Match, ListCache.Refresh, ListCache.refresh, ListCache.createCacheForGroup, ListCache.parseFile | logger |
| lists/parsers/adapt.go | Parsers, Position | To].Position, To].Next | Adapt, TryAdapt, TryAdaptMethod, newAdapter |
| lists/parsers/filtererrors.go | Parsers, Position | AllowErrors, errorFilter.OnErr, errorFilter.Position, errorFilter.Next | FilterErrors, newErrorFilter |
| lists/parsers/hosts.go | Hosts, Ip, Parsers, Position, Str | HostsIterator.UnmarshalText, HostListEntry.UnmarshalText, HostsFileEntry.UnmarshalText, WildcardEntry.UnmarshalText, normalizeHostsListEntry, validateDomainName, isRegex, validateHostsListEntry | Hosts, HostsIterator.ForEach, HostList, HostListEntry.String, HostListEntry.forEachHost, HostsFile, HostsFileEntry.forEachHost, WildcardEntry.String, WildcardEntry.forEachHost |
| lists/parsers/lines.go | Download, Parsers, Position, Str | UnmarshalEach, newLines, lines.Position, lines.Next | Lines, LinesAs |
| lists/parsers/parser.go | Parsers, Position | ForEach, ErrWithPosition, IsNonResumableErr, NonResumableError.Error | NewNonResumableError, NonResumableError.Unwrap |
| lists/sourcereader.go | Download, Loading | NewSourceOpener, textOpener.Open, textOpener.String, httpOpener.Open, httpOpener.String, fileOpener.Open | fileOpener.String |
| log/context.go | Trace | FromCtx, entryWithCtx, WrapCtx, CtxWithFields | NewCtx |
| log/logger.go | Api, LogOut, Migration, Trace | EscapeInput, ConfigureLogger, WithIndent, indentMessages, prefixMsgHook.Fire | DefaultConfig, init, Log, PrefixedLog, WithPrefix, Configure, Silence, nopFormatter.Format, prefixMsgHook.Levels |
| main.go | – | – | main |
| main_static.go | – | – | init, setLocaltime |
| metrics/metrics.go | Http | Start | RegisterMetric |
| metrics/metrics_event_publisher.go | Loading, Metrics, Prefetch | registerBlockingEventListeners, enabledGauge, lastListGroupRefresh, registerCachingEventListeners, failedDownloadCount, domainPrefetchCount, domainPrefetchHitCount, cacheEntryCount, prefetchDomainCacheCount | RegisterEventListeners, registerApplicationEventListeners, versionNumberGauge, denylistGauge, allowlistGauge, subscribe |
| model/models.go | Dns, Sudn | ResponseType.ToExtendedErrorCode | – |
| querylog/database_writer.go | QueryLog, Retention | NewDatabaseWriter, newDatabaseWriter, databaseMigration, DatabaseWriter.periodicFlush, DatabaseWriter.Write, DatabaseWriter.CleanUp, DatabaseWriter.doDBWrite | – |
| querylog/file_writer.go | QueryLog, Retention | FileWriter.Write, FileWriter.CleanUp, createQueryLogRow, createCsvWriter, escape | NewCSVWriter |
| querylog/logger_writer.go | LogOut, Retention, Trace | LoggerWriter.Write, LoggerWriter.CleanUp, LogEntryFields, withoutZeroes | NewLoggerWriter |
| querylog/none_writer.go | Retention | NoneWriter.CleanUp | NewNoneWriter, NoneWriter.Write |
| redis/redis.go | Api, Redis | New, Client.PublishCache, Client.PublishEnabled, Client.GetRedisCache, Client.startup, Client.publishMessageFromBuffer, Client.processReceivedMessage, Client.getResponse, convertMessage, Client.getTTL, prefixKey, cleanKey | – |
| resolver/blocking_resolver.go | Api, Blocking, Dns, LogOut, Metrics, Query, QueryLog, Resolver, Str, Trace | createBlockHandler, clientGroupsBlock, NewBlockingResolver, BlockingResolver.redisSubscriber, BlockingResolver.RefreshLists, BlockingResolver.retrieveAllBlockingGroups, BlockingResolver.EnableBlocking, BlockingResolver.internalEnableBlocking, BlockingResolver.DisableBlocking, BlockingResolver.internalDisableBlocking, BlockingResolver.BlockingStatus, determineAllowlistOnlyGroups, BlockingResolver.handleBlocked, BlockingResolver.LogConfig, BlockingResolver.hasAllowlistOnlyAllowed, BlockingResolver.handleDenylist, BlockingResolver.Resolve, extractEntryToCheckFromResponse, BlockingResolver.isGroupDisabled, BlockingResolver.groupsToCheckForClient, BlockingResolver.matches, zeroIPBlockHandler.handleBlock, nxDomainBlockHandler.handleBlock, ipBlockHandler.handleBlock, BlockingResolver.queryForFQIdentifierIPs, BlockingResolver.initFQDNIPCache, isFQDN | – |
| resolver/bootstrap.go | Bootstrap, Metrics, Outbound, Prefetch, Upstream | newBootstrapConfig, NewBootstrap, Bootstrap.UpstreamIPs, Bootstrap.resolveUpstream, Bootstrap.dialContext, Bootstrap.resolve, Bootstrap.resolveType, newBootstrapedResolvers, newIPSet, IPSet.Current, IPSet.Next | Bootstrap.Resolve, Bootstrap.NewHTTPTransport, bootstrapedResolvers.Resolvers |
| resolver/caching_resolver.go | Caching, Chain, Dns, LogOut, Metrics, Prefetch, Query, QueryLog, Resolver, Trace | NewCachingResolver, newCachingResolver, configureCaches, CachingResolver.reloadCacheEntry, CachingResolver.redisSubscriber, CachingResolver.LogConfig, CachingResolver.Resolve, CachingResolver.getFromCache, setTTLInCachedResponse, isRequestCacheable, isResponseCacheable, CachingResolver.putInCache, CachingResolver.adjustTTLs, CachingResolver.publishMetricsIfEnabled, CachingResolver.FlushCaches | – |
| resolver/client_names_resolver.go | Arpa, ClientNames, Dns, Ip, LogOut, Trace | NewClientNamesResolver, ClientNamesResolver.LogConfig, ClientNamesResolver.Resolve, ClientNamesResolver.getClientNames, extractClientNamesFromAnswer, ClientNamesResolver.resolveClientNames, ClientNamesResolver.getNameFromIPMapping | ClientNamesResolver.FlushCache |
| resolver/conditional_upstream_resolver.go | Chain, Conditional, Rewriter, Trace | NewConditionalUpstreamResolver, ConditionalUpstreamResolver.processRequest, ConditionalUpstreamResolver.Resolve, ConditionalUpstreamResolver.internalResolve | – |
| resolver/custom_dns_resolver.go | Arpa, Chain, Custom, Str, Trace | NewCustomDNSResolver, isSupportedType, CustomDNSResolver.handleReverseDNS, CustomDNSResolver.processRequest, CustomDNSResolver.Resolve, CustomDNSResolver.processIP, CustomDNSResolver.processTXT, CustomDNSResolver.processSRV, CustomDNSResolver.processCNAME | CustomDNSResolver.processDNSEntry, CustomDNSResolver.CreateAnswerFromQuestion |
| resolver/ecs_resolver.go | Dns, Ecs, Trace | ECSResolver.Resolve, ECSResolver.setSubnet, maskIP, newEdnsSubnetOption | NewECSResolver |
| resolver/ede_resolver.go | Sudn | EDEResolver.Resolve, EDEResolver.addExtraReasoning | NewEDEResolver |
| resolver/filtering_resolver.go | Dns, Sudn | FilteringResolver.Resolve | NewFilteringResolver |
| resolver/fqdn_only_resolver.go | Str, Sudn | FQDNOnlyResolver.Resolve | NewFQDNOnlyResolver |
| resolver/hosts_file_resolver.go | Dns, Hosts, LogOut, Position, Startup, Trace | NewHostsFileResolver, HostsFileResolver.LogConfig, HostsFileResolver.handleReverseDNS, HostsFileResolver.Resolve, HostsFileResolver.resolve, HostsFileResolver.loadSources, HostsFileResolver.parseFile, newSplitHostsDataWithSameCapacity, splitHostsFileData.getIP, splitHostsFileData.add, newHostsDataWithSameCapacity, hostsFileData.getIP, hostsFileData.add | splitHostsFileData.isEmpty, splitHostsFileData.len, hostsFileData.len |
| resolver/metrics_resolver.go | Chain, Metrics | MetricsResolver.Resolve, NewMetricsResolver | MetricsResolver.registerMetrics, totalQueriesMetric, totalErrorMetric, durationHistogram, totalResponseMetric |
| resolver/noop_resolver.go | Rewriter | NoOpResolver.Resolve | NewNoOpResolver, NoOpResolver.Type, NoOpResolver.String, NoOpResolver.IsEnabled, NoOpResolver.LogConfig |
| resolver/parallel_best_resolver.go | Bootstrap, Outbound, Trace, Upstream | newUpstreamResolverStatuses, upstreamResolverStatus.resolve, upstreamResolverStatus.resolveToChan, NewParallelBestResolver, ParallelBestResolver.Resolve, evaluateResponses, ParallelBestResolver.retryWithDifferent, pickRandom, weightedRandom | newUpstreamResolverStatus, newParallelBestResolver, ParallelBestResolver.setResolvers, ParallelBestResolver.Name, ParallelBestResolver.String |
| resolver/query_logging_resolver.go | Ip, LogOut, QueryLog, Retention, Trace | GetQueryLoggingWriter, NewQueryLoggingResolver, QueryLoggingResolver.periodicCleanUp, QueryLoggingResolver.doCleanUp, QueryLoggingResolver.Resolve, QueryLoggingResolver.ignore, QueryLoggingResolver.createLogEntry, QueryLoggingResolver.writeLog, readInstanceID | – |
| resolver/resolver.go | Chain, ClientNames, Custom, Disabled, Dns, Ip, LogOut, Outbound, Query, Resolver, Trace, Upstream | newRequest, newRequestWithClient, newResponse, newRequestWithClientID, NextResolver.Next, NextResolver.GetNext, Chain, GetFromChainWithType, ForEach, LogResolverConfig, typed.log, typed.logWithFields, typed.logWith, configurable.IsEnabled, initGroupResolvers, createGroupResolvers | Name, withType, typed.Type, typed.String, withConfig, configurable.LogConfig |
| resolver/rewriter_resolver.go | Chain, Disabled, Dns, LogOut, Rewriter, Trace | NewRewriterResolver, RewriterResolver.Name, RewriterResolver.LogConfig, RewriterResolver.Resolve, RewriterResolver.rewriteRequest, RewriterResolver.rewriteDomain | – |
| resolver/strict_resolver.go | Outbound, Trace, Upstream | NewStrictResolver, StrictResolver.Resolve | newStrictResolver, StrictResolver.setResolvers, StrictResolver.Name, StrictResolver.String |
| resolver/sudn_resolver.go | Dns, Sudn | SpecialUseDomainNamesResolver.Resolve, SpecialUseDomainNamesResolver.handler, newSUDNResponse, sudnNXDomain, sudnLocalhost, sudnRFC6762AppendixG, sudnHomeArpa | NewSpecialUseDomainNamesResolver |
| resolver/upstream_resolver.go | Connect, Num, Outbound, Query, Trace, Upstream | UpstreamServerError.Error, createUpstreamClient, httpUpstreamClient.fmtURL, httpUpstreamClient.callExternal, dnsUpstreamClient.fmtURL, dnsUpstreamClient.callExternal, dnsUpstreamClient.raceClients, NewUpstreamResolver, UpstreamResolver.Resolve, UpstreamResolver.logResponse, isTimeout | newUpstreamConfig, upstreamConfig.String, upstreamConfig.IsEnabled, upstreamConfig.LogConfig, newUpstreamResolverUnchecked, UpstreamResolver.String, UpstreamResolver.Upstream, UpstreamResolver.log, UpstreamResolver.testResolve |
| resolver/upstream_tree_resolver.go | ClientNames, Disabled, Ip, LogOut, Trace | NewUpstreamTreeResolver, createUpstreamBranches, UpstreamTreeResolver.Resolve, UpstreamTreeResolver.upstreamGroupByClient | UpstreamTreeResolver.Name, UpstreamTreeResolver.String |
| server/http.go | Http, Serve | newHTTPServer, withCommonMiddleware, secureHeadersMiddleware, newCORSMiddleware | httpServer.String, httpServer.Serve |
| server/server.go | Chain, ConfValues, Disabled, Dispatch, Dns, EndToEnd, Http, Ip, Loading, LogOut, Metrics, Query, Serve, Server, Tls, Trace | tlsCipherSuites, retrieveCertificate, newTLSConfig, NewServer, createServers, createHTTPListeners, newTCPListeners, newTLSListeners, createTLSServer, createTCPServer, createUDPServer, createQueryResolver, Server.registerDNSHandlers, Server.printConfiguration, toMB, Server.Start, Server.Stop, extractClientIDFromHost, newRequest, newRequestFromDNS, newRequestFromHTTP, Server.OnRequest, Server.handleReq, Server.resolve, getMaxResponseSize, Server.OnHealthCheck, resolveClientIPAndProtocol | logger |
| server/server_config_trigger.go | – | – | registerPrintConfigurationTrigger |
| server/server_config_trigger_windows.go | – | – | registerPrintConfigurationTrigger |
| server/server_endpoints.go | Http, Query, Server | Server.createOpenAPIInterfaceImpl, Server.registerDoHEndpoints, Server.dohGetRequestHandler, Server.dohPostRequestHandler, Server.processDohMessage, httpMsgWriter.WriteMsg, getSmallestTTLFromAnswer, Server.Query, createHTTPRouter, configureDocsHandler, configureStaticAssetsHandler, configureRootHandler | logAndResponseWithError, configureDebugHandler |
| trie/split.go | Str, Trie | SplitTLD | – |
| trie/trie.go | Trie | NewTrie, Trie.IsEmpty, Trie.Insert, Trie.HasParentOf, parent.insert, parent.hasParentOf, terminal.hasParentOf | newParent, terminal.String |
| util/arpa.go | Arpa, Num | ParseIPFromArpaAddr, parseIPv4FromArpaAddr, parseIPv6FromArpaAddr | – |
| util/common.go | Blocking, Custom, Dns, Match, QueryLog, Str, Trace | Obfuscate, AnswerToString, QuestionToString, CreateAnswerFromQuestion, CreateHeader, ExtractDomain, ExtractDomainOnly, NewMsgWithQuestion, GenerateCacheKey, ExtractCacheKey, CidrContainsIP, ClientNameMatchesGroupName | NewMsgWithAnswer, IterateValueSorted, LogOnError, LogOnErrorWithEntry, FatalOnError |
| util/context.go | – | – | CtxSend |
| util/edns0.go | Dns | RemoveEdns0Record, GetEdns0Option, RemoveEdns0Option, SetEdns0Option | – |
| util/http.go | Ip, Server | HTTPClientIP | init, DefaultHTTPTransport |
| util/tls.go | Tls | TLSGenerateSelfSignedCert | – |
| web/index.go | – | – | Assets |
