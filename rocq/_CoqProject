-Q theories Verif
theories/Str.v
theories/StrFacts.v
theories/Trie.v
theories/TrieProofs.v
theories/StringCache.v
theories/StringCacheSpec.v
theories/StringCacheProofs.v
theories/StringCacheProps.v
theories/Parsers.v
theories/ParsersSpec.v
theories/ParsersProofs.v
theories/ParsersProps.v
theories/ExpCache.v
theories/ExpCacheSpec.v
theories/ExpCacheProofs.v
theories/ExpCacheProps.v
theories/Dns.v
theories/Resolver.v
theories/Caching.v
theories/CachingSpec.v
theories/CachingProofs.v
theories/CachingProps.v
theories/Blocking.v
theories/BlockingSpec.v
theories/BlockingProofs.v
theories/BlockingProps.v
theories/Num.v
theories/NumFacts.v
theories/Arpa.v
theories/ArpaSpec.v
theories/ArpaProofs.v
theories/ArpaProps.v
theories/ResolverFacts.v
theories/Custom.v
theories/CustomSpec.v
theories/CustomProofs.v
theories/CustomProps.v
theories/Conditional.v
theories/ConditionalSpec.v
theories/ConditionalProps.v
theories/Rewriter.v
theories/RewriterSpec.v
theories/RewriterProofs.v
theories/RewriterProps.v
theories/Sudn.v
theories/SudnSpec.v
theories/Ecs.v
theories/EdnsProofs.v
theories/EdnsProps.v
theories/EcsSpec.v
theories/EcsProps.v
theories/SudnProps.v
theories/Hosts.v
theories/HostsSpec.v
theories/HostsProofs.v
theories/HostsProps.v
theories/ClientNames.v
theories/ClientNamesSpec.v
theories/ClientNamesProps.v
theories/Upstream.v
theories/UpstreamSpec.v
theories/UpstreamProps.v
theories/Server.v
theories/ServerSpec.v
theories/ServerProps.v
theories/QueryLog.v
theories/QueryLogSpec.v
theories/QueryLogProofs.v
theories/QueryLogProps.v
theories/Redis.v
theories/RedisSpec.v
theories/RedisProps.v
theories/Ip.v
theories/IpSpec.v
theories/IpProofs.v
theories/IpProps.v
theories/ConfUpstream.v
theories/ConfUpstreamSpec.v
theories/ConfUpstreamProofs.v
theories/ConfUpstreamProps.v
theories/Duration.v
theories/DurationSpec.v
theories/DurationProps.v
theories/Migration.v
theories/MigrationSpec.v
theories/MigrationProps.v
theories/Startup.v
theories/StartupSpec.v
theories/StartupProps.v
theories/Target.v
theories/TargetSpec.v
theories/TargetProps.v
theories/Chain.v
theories/ChainSpec.v
theories/ChainProofs.v
theories/ChainProps.v
theories/SafeSpec.v
theories/SafeProps.v
theories/Match.v
theories/MatchSpec.v
theories/MatchProofs.v
theories/MatchProps.v
theories/Api.v
theories/ApiSpec.v
theories/ApiProps.v
theories/Download.v
theories/DownloadSpec.v
theories/DownloadProps.v
theories/ConfMapping.v
theories/ConfMappingSpec.v
theories/ConfMappingProps.v
theories/LoadConf.v
theories/LoadConfSpec.v
theories/LoadConfProps.v
theories/Cli.v
theories/CliSpec.v
theories/CliProps.v
theories/Utf8Facts.v
theories/Metrics.v
theories/MetricsSpec.v
theories/MetricsProps.v
theories/Query.v
theories/Dispatch.v
theories/DispatchSpec.v
theories/DispatchProps.v
theories/QuerySpec.v
theories/QueryProps.v
theories/Serve.v
theories/ServeProps.v
theories/EndToEnd.v
theories/EndToEndSpec.v
theories/EndToEndLists.v
theories/EndToEndProofs.v
theories/EndToEndProps.v
theories/Bootstrap.v
theories/BootstrapSpec.v
theories/BootstrapProps.v
theories/ConfValues.v
theories/ConfValuesSpec.v
theories/ConfValuesProps.v
theories/Disabled.v
theories/DisabledProps.v
theories/LogOut.v
theories/LogOutSpec.v
theories/LogOutProps.v
theories/Http.v
theories/HttpSpec.v
theories/HttpProps.v
theories/Prefetch.v
theories/PrefetchSpec.v
theories/PrefetchProps.v
theories/CountSpec.v
theories/CountProps.v
theories/Connect.v
theories/ConnectSpec.v
theories/ConnectProofs.v
theories/ConnectProps.v
theories/Outbound.v
theories/OutboundSpec.v
theories/OutboundProps.v
theories/FqdnSpec.v
theories/FqdnProps.v
theories/Position.v
theories/PositionSpec.v
theories/PositionProofs.v
theories/PositionProps.v
theories/Retention.v
theories/RetentionSpec.v
theories/RetentionProps.v
theories/Loading.v
theories/LoadingSpec.v
theories/LoadingProps.v
theories/Tls.v
theories/TlsSpec.v
theories/TlsProps.v
theories/Trace.v
theories/TraceSpec.v
theories/TraceProofs.v
theories/TraceProps.v
theories/AnswersProps.v
theories/ScreenProps.v
theories/RewriteProps.v
theories/CnameProps.v
theories/GroupsProps.v
theories/DiscloseProps.v
theories/AmplifyProps.v
theories/MonotoneProps.v
theories/OwnListsProps.v
theories/DisableProps.v
theories/SpellingProps.v
