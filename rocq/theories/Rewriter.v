(** Model of resolver/rewriter_resolver.go.

    The inner resolver (custom DNS or conditional upstream, with the no-op resolver of
    resolver/noop_resolver.go behind it) is a function from requests to its result and
    to what it leaves in the message object it was given, because the code goes on with
    that object.  [None] is a crash.  The shared value NoResponse of
    noop_resolver.go:10 is the only response without message, so the comparisons with
    it become tests for a missing message.  Answer == nil (rewriter_resolver.go:78) is
    an empty list: no inner resolver produces an empty non-nil list. *)
From Coq Require Import String Ascii List Arith Bool NArith.
From Verif Require Import Str Dns Resolver Conditional.
Import ListNotations.

(** noop_resolver.go:38-40 *)
Definition no_response : response := {| rs_msg := None; rs_reason := []; rs_type := RESOLVED |}.
(** resolver/noop_resolver.go:38-40 Resolve *)
Definition noop : next_fn := fun _ => Some (Ok no_response).

(** rewriter_resolver.go:33-36: the lower-case rules are added to the map, visiting its
    keys in the (arbitrary) order [ks] *)
Definition lower_rules (ks : list str) (rules : list (str * str)) : list (str * str) :=
  fold_left (fun m k => match mget str_eqb k m with
                        | Some v => mput str_eqb (to_lower k) (to_lower v) m
                        | None => m
                        end) ks rules.

(** rewriter_resolver.go:154-164 rewriteDomain, for the order [rules] of iteration *)
Fixpoint rewrite_domain (rules : list (str * str)) (d : str) : str :=
  match rules with
  | [] => d
  | (k, v) :: rs => if has_suffix d (dot :: k) then trim_suffix d (dot :: k) ++ dot :: v else rewrite_domain rs d
  end.

(** rewriter_resolver.go:123-152 rewriteRequest: the new questions and originalNames;
    [iter i] is the order of iteration over the rules for the question [i] *)
Fixpoint rewrite_questions (iter : nat -> list (str * str)) (i : nat) (qs : list question)
    (names : list (str * str)) : list question * list (str * str) :=
  match qs with
  | [] => ([], names)
  | q :: qs' =>
      let d := extract_domain_only (q_name q) in
      let d' := rewrite_domain (iter i) d in
      if str_eqb d' d then
        let (out, names') := rewrite_questions iter (S i) qs' names in (q :: out, names')
      else
        let (out, names') := rewrite_questions iter (S i) qs' (mput str_eqb (fqdn d') (q_name q) names) in
        ({| q_name := fqdn d'; q_type := q_type q; q_class := q_class q |} :: out, names')
  end.

(** rewriter_resolver.go:106-109 and 113-116: the lookup in originalNames *)
Definition revert_name (names : list (str * str)) (n : str) : str :=
  match mget str_eqb n names with Some o => o | None => n end.

(** rewriter_resolver.go:103-118: revert the names in questions and answers *)
Definition revert (names : list (str * str)) (m : msg) : msg :=
  set_answer (map (fun r => {| rr_name := revert_name names (rr_name r); rr_type := rr_type r; rr_class := rr_class r;
                               rr_ttl := rr_ttl r; rr_data := rr_data r |}) (m_answer m))
    (set_question (map (fun q => {| q_name := revert_name names (q_name q); q_type := q_type q; q_class := q_class q |})
                       (m_question m)) m).

(** The inner resolver (rewriter_resolver.go:22-27): its result, and what it leaves in the message object *)
Definition inner_fn := request -> option (result * msg).

(** rewriter_resolver.go:60-121 Resolve *)
Definition rewriter_resolve (fallback : bool) (iter : nat -> list (str * str)) (inner : inner_fn) (req : request) : prog :=
  let (qs, names) := rewrite_questions iter 0 (m_question (req_msg req)) [] in
  let rewritten := match names with [] => false | _ => true end in
  match inner (if rewritten then set_req_msg (set_question qs (req_msg req)) req else req) with
  | None => Crash
  | Some (res, lft) =>
      let req' := if rewritten then req else set_req_msg lft req in
      match res with
      | Err e => if fallback then pass req' else Done (Err e)
      | Ok r =>
          match rs_msg r with
          | None => pass req'
          | Some m =>
              if fallback && match m_answer m with [] => true | _ => false end then pass req'
              else if rewritten
              then Done (Ok {| rs_msg := Some (revert names m); rs_reason := rs_reason r; rs_type := rs_type r |})
              else Done (Ok r)
          end
      end
  end.

(** An inner resolver that does not touch the message it is given (custom DNS):
    rewriter_resolver.go:38, its next resolver is the no-op one *)
Definition inner_prog (p : request -> prog) : inner_fn :=
  fun rq => match exec (p rq) noop with Some r => Some (r, req_msg rq) | None => None end.

(** The conditional upstream resolver as inner resolver: it changes the question's name
    in the message it is given (conditional_upstream_resolver.go:106) *)
Definition inner_conditional {U} (mapping : list (str * U)) (ask : U -> next_fn) : inner_fn :=
  fun rq => match cond_resolve mapping ask noop rq with
            | Some r => Some (r, match cond_dest mapping rq with
                                 | Some (ToUpstream _ rq') => req_msg rq'
                                 | _ => req_msg rq
                                 end)
            | None => None
            end.
