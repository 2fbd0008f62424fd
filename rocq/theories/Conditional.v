(** Model of resolver/conditional_upstream_resolver.go.

    The resolver of an upstream group (parallel best, modelled elsewhere) is a value of
    an arbitrary type [U]; [ask] says what it answers. *)
From Coq Require Import String Ascii List Arith Bool NArith.
From Verif Require Import Str Dns Resolver Custom.
Import ListNotations.

Section Conditional.
Context {U : Type}.

(** conditional_upstream_resolver.go:29-41: the table by lower-cased domain, built in
    the (arbitrary) order of iteration over the configured map *)
Definition cond_table (mapping : list (str * U)) : list (str * U) :=
  fold_left (fun m p => mput str_eqb (to_lower (fst p)) (snd p) m) mapping [].

(** Where a request goes: to an upstream, or to the next resolver -- resolver/conditional_upstream_resolver.go:53-98 *)
Inductive dest := ToUpstream (u : U) (q : request) | ToNext (q : request).

(** conditional_upstream_resolver.go:106: assignment to the name of the first question *)
Definition set_first_name (n : str) (req : request) : request :=
  match m_question (req_msg req) with
  | [] => req
  | q :: qs => set_req_msg (set_question ({| q_name := n; q_type := q_type q; q_class := q_class q |} :: qs) (req_msg req)) req
  end.

(** conditional_upstream_resolver.go:53-81 processRequest and 84-97 Resolve up to the
    call; [None] is the index panic for a request without question *)
Definition cond_dest (mapping : list (str * U)) (req : request) : option dest :=
  match cond_table mapping with
  | [] => Some (ToNext req)
  | table =>
      match m_question (req_msg req) with
      | [] => None
      | q :: _ =>
          let domain := extract_domain q in
          let up u := Some (ToUpstream u (set_first_name (fqdn domain) req)) in
          if contains_byte dot domain then
            match first_mapped table (domain :: after_dots domain) with
            | Some u => up u
            | None => Some (ToNext req)
            end
          else match mget str_eqb $"." table with
               | Some u => up u
               | None => Some (ToNext req)
               end
      end
  end.

(** conditional_upstream_resolver.go:109-116: what happens to the upstream's response
    ([None]: nil dereference when it has no message) *)
Definition cond_response (req : request) (r : response) : option response :=
  match rs_msg r, m_question (req_msg req) with
  | Some m, q :: _ =>
      Some {| rs_msg := Some (match m_question m with
                              | [] => m
                              | mq :: mqs => set_question ({| q_name := q_name q; q_type := q_type mq; q_class := q_class mq |} :: mqs) m
                              end);
              rs_reason := $"CONDITIONAL"; rs_type := CONDITIONAL |}
  | _, _ => None
  end.

(** conditional_upstream_resolver.go:84-129 Resolve and internalResolve *)
Definition cond_resolve (mapping : list (str * U)) (ask : U -> next_fn) (next : next_fn) (req : request) : option result :=
  match cond_dest mapping req with
  | None => None
  | Some (ToNext q) => next q
  | Some (ToUpstream u q) =>
      match ask u q with
      | Some (Ok r) => match cond_response q r with Some r' => Some (Ok r') | None => None end
      | other => other
      end
  end.
End Conditional.
Arguments dest : clear implicits.
