(** From the configuration to the answers of the server: how the lists that the blocking resolver asks come from the configured
    sources, and what the server makes of the results of the resolver chain. *)
From Coq Require Import String Ascii List Arith Bool NArith ZArith Permutation.
From Verif Require Import Str StringCache Parsers Target Download Dns Resolver Server Chain.
Import ListNotations.
Open Scope list_scope.

Section Refresh.
Variable parse_ip to_ascii : str -> option str.
Variable compiles : str -> bool.
Variable file : str -> option (list str * scan_end).
Variable net : str -> nat -> answer.

(** lists/list_cache.go:161-216 createCacheForGroup for one configured group, whose sources are given by their texts
    (config/bytes_source.go:63-82); [cuts]: see Download.v; [fuel]: the downloads end *)
Definition group_load (attempts : N) (limit : Z) (cuts : nat -> option nat) (g : str * list str)
    (load : str * (list str * load_err)) : Prop :=
  fst load = fst g /\
  exists fuel produced, produce_all parse_ip to_ascii compiles file net fuel attempts limit cuts 0 (map parse_source (snd g)) = Some produced /\
    group_arrives produced (fst (snd load)) (snd (snd load)).

(** lists/list_cache.go:116-159 refresh: the groups are loaded at the same time, each into its own part of the cache; [loads] is
    the order in which they end *)
Definition refresh_loads (attempts : N) (limit : Z) (cuts : str -> nat -> option nat) (sources : list (str * list str))
    (loads : list (str * (list str * load_err))) : Prop :=
  exists order, Permutation order sources /\ Forall2 (fun g l => group_load attempts limit (cuts (fst g)) g l) order loads.
End Refresh.

(** server/server.go:524-556 resolve: what it is given by the chain. The error of an upstream which itself said SERVFAIL
    (server.go:550-558 sends its message) is not told apart here; [serves_failures] in ScreenProps.v covers it. *)
Definition result_of (r : option result) : chain_result :=
  match r with None => CPanic | Some (Ok x) => CRes x | Some (Err _) => CErr end.

(** server/server.go:290-333, 524-556: the server's chain is that of createQueryResolver; [fst] is the message of the request
    after the call, which resolvers may have changed *)
Definition serves {U} (w : world U) (c : request -> msg * chain_result) : Prop :=
  forall rq, snd (c rq) = result_of (query_chain w rq).
