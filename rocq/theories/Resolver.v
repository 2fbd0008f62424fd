(** Resolvers as programs. *)
From Coq Require Import String Ascii List Arith Bool NArith ZArith.
From Verif Require Import Str Dns.
Import ListNotations.

(** Result of Resolve (resolver/resolver.go:69-70): a response or an error. *)
Inductive result := Ok (r : response) | Err (e : str).

(** What a call does: it finishes, crashes (Go run-time panic), or asks the next
    resolver of the chain and goes on with its result.  Requests are values: a
    change the next resolver makes to the request it gets is not visible after it
    returns. -- resolver/resolver.go:68-69 Resolver.Resolve *)
Inductive prog :=
| Done (r : result)
| Crash
| Next (q : request) (k : result -> prog).

(** The rest of the chain: None is a crash. -- resolver/resolver.go:84-96 NextResolver *)
Definition next_fn := request -> option result.

(** The result of a call of Resolve (resolver/resolver.go:68-69), given the rest of the chain *)
Fixpoint exec (p : prog) (next : next_fn) : option result :=
  match p with
  | Done r => Some r
  | Crash => None
  | Next q k => match next q with Some r => exec (k r) next | None => None end
  end.

(** The requests sent to the next resolver, in order. -- calls of Resolve, resolver/resolver.go:68-69 *)
Fixpoint forwarded (p : prog) (next : next_fn) : list request :=
  match p with
  | Done _ | Crash => []
  | Next q k => q :: match next q with Some r => forwarded (k r) next | None => [] end
  end.

(** Forward unchanged: [return r.next.Resolve(ctx, request)]. -- as in resolver/blocking_resolver.go:399-429 *)
Definition pass (q : request) : prog := Next q Done.

(** Go's statement sequence: use the result of one call in the rest of the function (resolver/caching_resolver.go:180-221 for example) *)
Fixpoint bind (p : prog) (f : result -> prog) : prog :=
  match p with
  | Done r => f r
  | Crash => Crash
  | Next q k => Next q (fun r => bind (k r) f)
  end.

(** A chain of resolvers (resolver/resolver.go:105-115 Chain): the resolver [r]
    with [next] behind it. *)
Definition link (r : request -> prog) (next : next_fn) : next_fn := fun q => exec (r q) next.

(** The chain of [rs] ending in [last]. -- resolver/resolver.go:105-115 Chain *)
Definition chain (rs : list (request -> prog)) (last : next_fn) : next_fn := fold_right link last rs.
