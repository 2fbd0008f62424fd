(** What happens to a DNS packet: which packets reach the handlers of the server, and which handler is taken
    (/repo/server/server.go:335-345 with the server of miekg/dns), and the command "healthcheck".

    Not modelled: reading from the sockets, and packing the messages that are written. *)
From Coq Require Import String Ascii List Arith Bool NArith.
From Verif Require Import Str Dns Resolver Server.
Import ListNotations.

(** ** Names *)

(** miekg/dns CanonicalName, on ASCII and names without an escaped final dot -- server/server.go:338, 341 *)
Definition canonical_name (s : str) : str := fqdn (to_lower s).

(** backslash -- miekg/dns NextLabel (server/server.go:337) *)
Definition backslash : ascii := "\"%char.

(** The number of backslashes just before position [i] -- miekg/dns NextLabel, inner loop (server/server.go:337) *)
Fixpoint backslashes_before (s : str) (i : nat) : nat :=
  match i with
  | O => 0
  | S j => match nth_error s j with
           | Some c => if Ascii.eqb c backslash then S (backslashes_before s j) else 0
           | None => 0
           end
  end.

(** miekg/dns NextLabel: the start of the next label from position [i], and whether the name ended; [fuel] at least the length
    -- server/server.go:337 *)
Fixpoint next_label (fuel : nat) (s : str) (i : nat) : nat * bool :=
  match fuel with
  | O => (S i, true)
  | S f =>
      if i <? length s - 1 then
        match nth_error s i with
        | Some c => if Ascii.eqb c dot && Nat.even (backslashes_before s i) then (S i, false) else next_label f s (S i)
        | None => (S i, true)
        end
      else (S i, true)
  end.

(** ** The handlers *)

(** server/server.go:338-343 *)
Inductive handler := HRequest | HHealth.

(** miekg/dns ServeMux.Handle: names to handlers -- server/server.go:338, 341 *)
Definition mux_handle (pattern : str) (h : handler) (mux : list (str * handler)) : list (str * handler) :=
  (canonical_name pattern, h) :: mux.

(** server/server.go:335-345 registerDNSHandlers, one server; dns.NewServeMux is empty (server/server.go:260, 271, 282) *)
Definition registered : list (str * handler) := mux_handle ($"healthcheck.blocky") HHealth (mux_handle ($".") HRequest []).

(** the lookup in the map -- miekg/dns ServeMux.match (server/server.go:337) *)
Definition mux_get (mux : list (str * handler)) (k : str) : option handler :=
  match find (fun e => str_eqb (fst e) k) mux with Some (_, h) => Some h | None => None end.

(** dns.TypeDS -- miekg/dns ServeMux.match (server/server.go:337) *)
Definition type_ds : N := 43.

(** miekg/dns ServeMux.match, the loop over the labels; [last] is the handler found before (type DS); None in the second place:
    nothing returned in the loop -- server/server.go:337 *)
Fixpoint match_loop (fuel : nat) (mux : list (str * handler)) (q : str) (t : N) (off : nat) (last : option handler)
    : option handler * option handler :=
  match fuel with
  | O => (last, None)
  | S f =>
      let found := mux_get mux (skipn off q) in
      match found with
      | Some h => if (t =? type_ds)%N
                  then (let '(off', fin) := next_label (length q) q off in
                        if fin then (Some h, None) else match_loop f mux q t off' (Some h))
                  else (last, Some h)
      | None => let '(off', fin) := next_label (length q) q off in
                if fin then (last, None) else match_loop f mux q t off' last
      end
  end.

(** miekg/dns ServeMux.match -- server/server.go:337 *)
Definition mux_match (mux : list (str * handler)) (name : str) (t : N) : option handler :=
  let q := canonical_name name in
  match match_loop (S (length q)) mux q t 0 None with
  | (_, Some h) => Some h
  | (last, None) => match mux_get mux ($".") with Some h => Some h | None => last end
  end.

(** ** Packets *)

(** A packet of at least 12 bytes: the header, and the message that miekg/dns unpacks (None: it fails) -- server/server.go:396 *)
Record packet := {
  pk_id : N; pk_response : bool; pk_opcode : N; pk_rd : bool; pk_cd : bool;
  pk_qd : N; pk_an : N; pk_ns : N; pk_ar : N;
  pk_questions : list question; (* read before unpacking failed *)
  pk_msg : option msg }.

(** miekg/dns MsgAcceptAction -- server/server.go:396 *)
Inductive action := MsgAccept | MsgReject | MsgIgnore | MsgNotImplemented.

(** miekg/dns defaultMsgAcceptFunc; no other function is set (server/server.go:255-288) *)
Definition accept (p : packet) : action :=
  if pk_response p then MsgIgnore
  else if negb (pk_opcode p =? 0)%N && negb (pk_opcode p =? 4)%N then MsgNotImplemented
  else if negb (pk_qd p =? 1)%N then MsgReject
  else if (1 <? pk_an p)%N then MsgReject
  else if (1 <? pk_ns p)%N then MsgReject
  else if (2 <? pk_ar p)%N then MsgReject
  else MsgAccept.

(** The answer of miekg/dns Server.serveDNS itself: FORMERR or NOTIMP; the other bits of the packet's header, which are
    kept, are not part of the model -- server/server.go:396 *)
Definition reject (p : packet) (questions : list question) (opcode rcode : N) : msg :=
  {| m_id := pk_id p; m_response := true; m_opcode := opcode; m_aa := false; m_tc := false; m_rd := pk_rd p; m_ra := false;
     m_zero := false; m_ad := false; m_cd := pk_cd p; m_rcode := rcode;
     m_question := questions; m_answer := []; m_ns := []; m_extra := [] |}.

(** RcodeNotImplemented and RcodeRefused -- miekg/dns Server.serveDNS, handleRefused (server/server.go:396) *)
Definition rcode_notimp : N := 4.
(** RcodeRefused -- miekg/dns handleRefused (server/server.go:396) *)
Definition rcode_refused_reply : N := 5.

(** miekg/dns Server.serveDNS and ServeMux.ServeDNS with server/server.go:499-503 OnRequest and 587-594 OnHealthCheck:
    the requests that are resolved, and the messages that are written *)
Definition serve_packet (L : lengths) (c : request -> msg * chain_result) (a : net_addr) (sni : option str) (p : packet)
    : list request * list msg :=
  match accept p with
  | MsgIgnore => ([], [])
  | MsgReject => ([], [reject p [] 0 rcode_formerr])
  | MsgNotImplemented => ([], [reject p [] (pk_opcode p) rcode_notimp])
  | MsgAccept =>
      match pk_msg p with
      | None => ([], [reject p (pk_questions p) 0 rcode_formerr])
      | Some m =>
          match m_question m with
          | [] => ([], [set_rcode empty_msg m rcode_refused_reply])
          | q :: _ =>
              match mux_match registered (q_name q) (q_type q) with
              | Some HRequest => let req := request_from_dns a sni m in ([req], handle_req L c req)
              | Some HHealth => ([], health_check m)
              | None => ([], [set_rcode empty_msg m rcode_refused_reply])
              end
          end
      end
  end.

(** ** The command "healthcheck" *)

(** The packet of a message a client made -- cmd/healthcheck.go:34-39 *)
Definition packet_of (m : msg) : packet :=
  {| pk_id := m_id m; pk_response := m_response m; pk_opcode := m_opcode m; pk_rd := m_rd m; pk_cd := m_cd m;
     pk_qd := N.of_nat (length (m_question m)); pk_an := N.of_nat (length (m_answer m));
     pk_ns := N.of_nat (length (m_ns m)); pk_ar := N.of_nat (length (m_extra m));
     pk_questions := m_question m; pk_msg := Some m |}.

(** cmd/healthcheck.go:29-48 healthcheck, with the server [serve] (the messages it answers) on the TCP address; miekg/dns Client.Exchange
    fails without an answer and if the id differs.  True: "OK", the exit code is 0. *)
Definition healthcheck (id : N) (serve : packet -> list msg) : bool :=
  match serve (packet_of (new_msg_with_question id ($"healthcheck.blocky.") 1)) with
  | w :: _ => (m_id w =? id)%N
  | [] => false
  end.
