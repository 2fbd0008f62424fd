(** Model of package stringcache (/repo/cache/stringcache) and of the list
    refresh of /repo/lists/list_cache.go. *)
From Coq Require Import String Ascii List Arith Bool.
From Verif Require Import Str Trie.
Import ListNotations.

(** A Go computation that may panic. -- cache/stringcache/string_caches.go:48-62, 154-160 *)
Inductive res (A : Type) :=
| Ok (a : A)
| Panic.
Arguments Ok {A} a.
Arguments Panic {A}.

(** *** Plain strings *)

(** string_caches.go:25-27 normalizeEntry. *)
Definition normalize_entry (e : str) : str := to_lower e.

(** string_caches.go:23 stringMap: length -> concatenation of all strings of
    this length. *)
Definition string_map := list (nat * str).

(** string_caches.go:39-62 [cache[searchLen]], "" if absent. *)
Definition sm_bucket (m : string_map) (n : nat) : str :=
  match mget Nat.eqb n m with Some b => b | None => [] end.

(** string_caches.go:49,53 [b[i*l : i*l+l]]. *)
Definition chunk (b : str) (l i : nat) : str := firstn l (skipn (i * l) b).

(** string_caches.go:39-62 stringMap.contains. *)
Definition sm_contains (m : string_map) (searchString : str) : bool :=
  let normalized := normalize_entry searchString in
  let searchLen := length normalized in
  if searchLen =? 0 then false
  else
    let bucket := sm_bucket m searchLen in
    let searchBucketLen := length bucket / searchLen in
    let idx := sort_search searchBucketLen
                 (fun i => str_geb (chunk bucket searchLen i) normalized) in
    if idx <? searchBucketLen then str_eqb (chunk bucket searchLen idx) normalized
    else false.

(** string_caches.go:29-37 stringMap.elementCount. *)
Definition sm_element_count (m : string_map) : nat :=
  fold_right (fun kv acc => length (snd kv) / fst kv + acc) 0 m.

(** string_caches.go:64-68 stringCacheFactory. *)
Record string_factory := { sf_tmp : list (nat * list str); sf_cnt : nat }.

(** string_caches.go:70-74 newStringCacheFactory. *)
Definition new_string_factory : string_factory := {| sf_tmp := []; sf_cnt := 0 |}.

(** string_caches.go:76-82 getBucket. *)
Definition sf_bucket (f : string_factory) (n : nat) : list str :=
  match mget Nat.eqb n (sf_tmp f) with Some b => b | None => [] end.

(** string_caches.go:88-105 insertString: sort.SearchStrings and insertion at
    the index found, unless the string is already there.  [getBucket] leaves an
    empty bucket behind only when it is then extended, so the early exit leaves
    the map unchanged. *)
Definition sf_insert_string (f : string_factory) (entry : str) : string_factory :=
  let normalized := normalize_entry entry in
  let entryLen := length normalized in
  let bucket := sf_bucket f entryLen in
  let ix := sort_search (length bucket) (fun i => str_geb (nth i bucket []) normalized) in
  if (ix <? length bucket) && str_eqb (nth ix bucket []) normalized then f
  else {| sf_tmp := mput Nat.eqb entryLen (firstn ix bucket ++ normalized :: skipn ix bucket) (sf_tmp f);
          sf_cnt := sf_cnt f |}.

(** string_caches.go:107-116 stringCacheFactory.addEntry. *)
Definition sf_add_entry (f : string_factory) (entry : str) : string_factory * bool :=
  match entry with
  | [] => (f, true)
  | _ => (sf_insert_string {| sf_tmp := sf_tmp f; sf_cnt := S (sf_cnt f) |} entry, true)
  end.

(** string_caches.go:118-129 stringCacheFactory.create ([None] is nil). *)
Definition sf_create (f : string_factory) : option string_map :=
  match sf_tmp f with
  | [] => None
  | _ => Some (map (fun kv => (fst kv, concat (snd kv))) (sf_tmp f))
  end.

(** *** Wildcards *)

(** string_caches.go:248-255 normalizeWildcard. *)
Definition normalize_wildcard (d : str) : str :=
  to_lower (trim dot (trim_left star (normalize_entry d))).

(** string_caches.go:191-194, 204-207 wildcardCache, wildcardCacheFactory. *)
Record wildcard := { w_trie : children_t; w_cnt : nat }.

(** string_caches.go:209-213 newWildcardCacheFactory. *)
Definition new_wildcard_factory : wildcard := {| w_trie := empty_trie; w_cnt := 0 |}.

(** string_caches.go:215-234 wildcardCacheFactory.addEntry. *)
Definition wf_add_entry (f : wildcard) (entry : str) : wildcard * bool :=
  let globCount := count_byte star entry in
  if globCount =? 0 then (f, false)
  else if negb (has_prefix entry $"*.") || (1 <? globCount) then (f, true)
  else ({| w_trie := insert (w_trie f) (normalize_wildcard entry); w_cnt := S (w_cnt f) |}, true).

(** string_caches.go:240-246 wildcardCacheFactory.create. *)
Definition wf_create (f : wildcard) : option wildcard :=
  if w_cnt f =? 0 then None else Some f.

(** string_caches.go:200-202 wildcardCache.contains. *)
Definition wc_contains (c : wildcard) (d : str) : bool := has_parent_of (w_trie c) d.

Section Regex.

(** Go's regexp.Compile and Regexp.MatchString: an oracle from pattern text to
    its matcher; [None] is a compile error. *)
Variable compile : str -> option (str -> bool).

(** string_caches.go:131 regexCache, 149-151 regexCacheFactory: list of
    patterns that compiled (the matcher is recomputed by [compile]). *)
Definition regex_cache := list str.

(** string_caches.go:153-171 regexCacheFactory.addEntry.  [entry[1:len-1]]
    panics when [len = 1]. *)
Definition rf_add_entry (f : regex_cache) (entry : str) : res (regex_cache * bool) :=
  if negb (has_prefix entry $"/") || negb (has_suffix entry $"/") then Ok (f, false)
  else if length entry <? 2 then Panic
  else
    let pat := trim_space (firstn (length entry - 2) (skipn 1 entry)) in
    match compile pat with
    | None => Ok (f, true)
    | Some _ => Ok (f ++ [pat], true)
    end.

(** string_caches.go:177-183 regexCacheFactory.create. *)
Definition rf_create (f : regex_cache) : option regex_cache :=
  match f with [] => None | _ => Some f end.

(** string_caches.go:137-147 regexCache.contains. *)
Definition rc_contains (c : regex_cache) (x : str) : bool :=
  existsb (fun pat => match compile pat with Some m => m x | None => false end) c.

(** *** Grouped caches *)

(** string_caches.go:12-15 stringCache: the three implementations. *)
Inductive string_cache :=
| SCString (m : string_map)
| SCRegex (c : regex_cache)
| SCWild (c : wildcard).

(** string_caches.go:17-21 cacheFactory: the three implementations. *)
Inductive cache_factory :=
| CFString (f : string_factory)
| CFRegex (f : regex_cache)
| CFWild (f : wildcard).

(** string_caches.go:12-15 stringCache.contains. *)
Definition sc_contains (c : string_cache) (x : str) : bool :=
  match c with
  | SCString m => sm_contains m x
  | SCRegex c => rc_contains c x
  | SCWild c => wc_contains c x
  end.

(** string_caches.go:29-37, 133-135, 196-198 elementCount. *)
Definition sc_element_count (c : string_cache) : nat :=
  match c with
  | SCString m => sm_element_count m
  | SCRegex c => length c
  | SCWild c => w_cnt c
  end.

(** string_caches.go:17-21 cacheFactory.addEntry. *)
Definition cf_add_entry (f : cache_factory) (e : str) : res (cache_factory * bool) :=
  match f with
  | CFString f => let '(f', b) := sf_add_entry f e in Ok (CFString f', b)
  | CFRegex f => match rf_add_entry f e with
                 | Ok (f', b) => Ok (CFRegex f', b)
                 | Panic => Panic
                 end
  | CFWild f => let '(f', b) := wf_add_entry f e in Ok (CFWild f', b)
  end.

(** string_caches.go:17-21 cacheFactory.create. *)
Definition cf_create (f : cache_factory) : option string_cache :=
  match f with
  | CFString f => option_map SCString (sf_create f)
  | CFRegex f => option_map SCRegex (rf_create f)
  | CFWild f => option_map SCWild (wf_create f)
  end.

(** in_memory_grouped_cache.go:13-32 the constructors select a factory. *)
Inductive cache_kind := KString | KRegex | KWild.

(** in_memory_grouped_cache.go:5-11, 13-32 factoryFn. *)
Definition factory_of (k : cache_kind) : cache_factory :=
  match k with
  | KString => CFString new_string_factory
  | KRegex => CFRegex []
  | KWild => CFWild new_wildcard_factory
  end.

(** in_memory_grouped_cache.go:7-11 InMemoryGroupedCache. *)
Record grouped := { g_kind : cache_kind; g_caches : list (str * string_cache) }.

(** in_memory_grouped_cache.go:46-60 InMemoryGroupedCache.Contains. *)
Definition g_contains (c : grouped) (x : str) (groups : list str) : list str :=
  filter (fun grp => match mget str_eqb grp (g_caches c) with
                     | Some sc => sc_contains sc x
                     | None => false
                     end) groups.

(** in_memory_grouped_cache.go:34-44 InMemoryGroupedCache.ElementCount. *)
Definition g_element_count (c : grouped) (grp : str) : nat :=
  match mget str_eqb grp (g_caches c) with
  | Some sc => sc_element_count sc
  | None => 0
  end.

(** in_memory_grouped_cache.go:62-76, 91-94 finishFn called by Finish with the
    created cache; one critical section. *)
Definition g_finish (c : grouped) (grp : str) (f : cache_factory) : grouped :=
  {| g_kind := g_kind c;
     g_caches := match cf_create f with
                 | Some sc => mput str_eqb grp sc (g_caches c)
                 | None => mdel str_eqb grp (g_caches c)
                 end |}.

(** chained_grouped_cache.go:9-17 ChainedGroupedCache. *)
Definition chained := list grouped.

(** chained_grouped_cache.go:28-42 ChainedGroupedCache.Contains; maps.Keys
    yields each key once, in an order that sort.Strings makes irrelevant. *)
Definition c_contains (c : chained) (x : str) (groups : list str) : list str :=
  sort_strs (dedup (concat (map (fun g => g_contains g x groups) c))).

(** chained_grouped_cache.go:19-26 ChainedGroupedCache.ElementCount. *)
Definition c_element_count (c : chained) (grp : str) : nat :=
  fold_right (fun g acc => g_element_count g grp + acc) 0 c.

(** chained_grouped_cache.go:44-53 ChainedGroupedCache.Refresh: one factory per
    sub-cache. *)
Definition c_refresh (c : chained) : list cache_factory := map (fun g => factory_of (g_kind g)) c.

(** chained_grouped_cache.go:59-67 chainedGroupFactory.AddEntry: the first
    factory that accepts the entry gets it. *)
Fixpoint c_add_entry (fs : list cache_factory) (e : str) : res (list cache_factory * bool) :=
  match fs with
  | [] => Ok ([], false)
  | f :: fs' =>
      match cf_add_entry f e with
      | Panic => Panic
      | Ok (f', true) => Ok (f' :: fs', true)
      | Ok (f', false) =>
          match c_add_entry fs' e with
          | Panic => Panic
          | Ok (fs'', b) => Ok (f' :: fs'', b)
          end
      end
  end.

(** chained_grouped_cache.go:78-82 chainedGroupFactory.Finish: the first [n]
    sub-caches have been replaced ([n = 3] when complete). *)
Fixpoint c_finish_upto (n : nat) (c : chained) (grp : str) (fs : list cache_factory) : chained :=
  match n, c, fs with
  | S n', g :: c', f :: fs' => g_finish g grp f :: c_finish_upto n' c' grp fs'
  | _, _, _ => c
  end.

(** chained_grouped_cache.go:78-82 chainedGroupFactory.Finish. *)
Definition c_finish (c : chained) (grp : str) (fs : list cache_factory) : chained :=
  c_finish_upto (length c) c grp fs.

(** chained_grouped_cache.go:28-42 Contains running concurrently with
    chained_grouped_cache.go:78-82 Finish: the sub-caches are read one after the
    other; sub-cache [i] is read after the first [k i] sub-caches were replaced. *)
Definition c_contains_during (k : nat -> nat) (c : chained) (grp : str) (fs : list cache_factory)
    (x : str) (groups : list str) : list str :=
  sort_strs (dedup (concat (map (fun i =>
    match nth_error (c_finish_upto (k i) c grp fs) i with
    | Some g => g_contains g x groups
    | None => []
    end) (seq 0 (length c))))).

(** lists/list_cache.go:71-90 NewListCache: regex, wildcard, string. *)
Definition new_list_cache : chained :=
  [ {| g_kind := KRegex; g_caches := [] |};
    {| g_kind := KWild; g_caches := [] |};
    {| g_kind := KString; g_caches := [] |} ].

(** lists/list_cache.go:107-109 ListCache.Match. *)
Definition lc_match (c : chained) (domain : str) (groups : list str) : list str :=
  c_contains c domain groups.

(** lists/list_cache.go:186-196 the consumer: entries in the order they arrive on
    the channel; the flag is [hasEntries]. *)
Fixpoint add_entries (fs : list cache_factory) (has : bool) (es : list str)
  : res (list cache_factory * bool) :=
  match es with
  | [] => Ok (fs, has)
  | e :: es' =>
      match c_add_entry fs e with
      | Panic => Panic
      | Ok (fs', b) => add_entries fs' (has || b) es'
      end
  end.

(** lists/list_cache.go:198-211 what [producers.Wait()] returns; the
    classification is that of [errors.As(err, &transientErr)]. *)
Inductive load_err := NoErr | TransientErr | OtherErr.

(** lists/list_cache.go:161-216 createCacheForGroup: [es] are the entries received
    from all sources in arrival order, [err] the combined result of the
    producers.  The flag tells whether an error is returned. *)
Definition create_cache_for_group (c : chained) (grp : str) (es : list str) (err : load_err)
  : res (chained * bool) :=
  match add_entries (c_refresh c) false es with
  | Panic => Panic
  | Ok (fs, has) =>
      match err with
      | NoErr => Ok (c_finish c grp fs, false)
      | TransientErr => Ok (c, true)
      | OtherErr => if has then Ok (c_finish c grp fs, false) else Ok (c, true)
      end
  end.

(** lists/list_cache.go:111-159, 161-216 a history of loads of single groups
    starting from [c]. *)
Fixpoint run_loads (c : chained) (hist : list (str * (list str * load_err))) : res chained :=
  match hist with
  | [] => Ok c
  | (g, (es, err)) :: hist' =>
      match create_cache_for_group c g es err with
      | Panic => Panic
      | Ok (c', _) => run_loads c' hist'
      end
  end.

(** lists/list_cache.go:116-159 refresh: every group is processed by
    createCacheForGroup; they run concurrently, touching different keys, so any
    order of completion [gs] is a possible behaviour. *)
Fixpoint refresh_groups (c : chained) (gs : list (str * (list str * load_err))) : res (chained * bool) :=
  match gs with
  | [] => Ok (c, false)
  | (g, (es, err)) :: gs' =>
      match create_cache_for_group c g es err with
      | Panic => Panic
      | Ok (c', failed) =>
          match refresh_groups c' gs' with
          | Panic => Panic
          | Ok (c'', failed') => Ok (c'', failed || failed')
          end
      end
  end.

End Regex.
