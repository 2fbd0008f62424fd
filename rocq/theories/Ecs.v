(** Model of resolver/ecs_resolver.go and of the masks of config/ecs.go. *)
From Coq Require Import String Ascii List Arith Bool NArith.
From Verif Require Import Str Num Dns Resolver.
Import ListNotations.

(** config/ecs.go:46-51 ECS *)
Record ecs_cfg := { ec_client : bool; ec_forward : bool; ec_mask4 : N; ec_mask6 : N }.

(** config/ecs.go:54-56 IsEnabled *)
Definition ecs_enabled (c : ecs_cfg) : bool := ec_client c || ec_forward c || (0 <? ec_mask4 c)%N || (0 <? ec_mask6 c)%N.

(** config/ecs.go:68-81 unmarshalInternal *)
Definition parse_mask (max : N) (text : str) : option N :=
  match parse_uint 10 8 text with
  | Some v => if (max <? v)%N then None else Some v
  | None => None
  end.

(** net.CIDRMask and net.IP.Mask as used by net.ParseCIDR: keep the first [mask] bits -- resolver/ecs_resolver.go:110 *)
Fixpoint mask_bytes (mask : N) (b : list N) : list N :=
  match b with
  | [] => []
  | x :: bs => if (8 <=? mask)%N then x :: mask_bytes (mask - 8) bs
               else N.land x (255 - N.shiftr 255 mask) :: mask_bytes 0 bs
  end.

(** ecs_resolver.go:109-113 maskIP: print and parse again; the parse fails if the mask is
    too long for the printed family, and then the nil network is dereferenced ([None]) *)
Definition mask_ip (i : ip) (mask : N) : option ip :=
  match i with
  | IP4 b => if (mask <=? 32)%N then Some (IP4 (mask_bytes mask b)) else None
  | IP6 b => if (mask <=? 128)%N then Some (IP6 (mask_bytes mask b)) else None
  end.

(** ecs_resolver.go:116-124 newEdnsSubnetOption *)
Definition subnet_option (i : ip) (family mask : N) : eopt := EOSubnet family mask 0 (Some i).

(** ecs_resolver.go:82-106 setSubnet ([None]: panic) *)
Definition set_subnet (c : ecs_cfg) (so : option eopt) (req : request) : option request :=
  let sub_ip := match so with
                | Some (EOSubnet _ _ _ (Some a)) => if ec_forward c then Some a else req_ip req
                | _ => req_ip req
                end in
  let set i family mask :=
    match mask_ip i mask with
    | Some mip => Some (set_req_msg (set_edns0_option (subnet_option mip family mask) (req_msg req)) req)
    | None => None
    end in
  match sub_ip with
  | None => Some req
  | Some i =>
      if is_v4 i && (0 <? ec_mask4 c)%N then set i 1%N (ec_mask4 c)
      else if (0 <? ec_mask6 c)%N then set i 2%N (ec_mask6 c)
      else Some req
  end.

(** ecs_resolver.go:58-62: the client address from the option *)
Definition ecs_client (c : ecs_cfg) (so : option eopt) (req : request) : request :=
  match so with
  | Some (EOSubnet family mask _ addr) =>
      if ec_client c && (((family =? 1)%N && (mask =? 32)%N) || ((family =? 2)%N && (mask =? 128)%N))
      then set_req_ip addr req else req
  | _ => req
  end.

(** ecs_resolver.go:51-78 Resolve *)
Definition ecs_resolve (c : ecs_cfg) (req : request) : prog :=
  if ecs_enabled c then
    let so := get_edns0_option 8 (req_msg req) in
    let req1 := ecs_client c so req in
    match (if (0 <? ec_mask4 c)%N || (0 <? ec_mask6 c)%N then set_subnet c so req1 else Some req1) with
    | None => Crash
    | Some req2 =>
        if (ec_mask4 c =? 0)%N && (ec_mask6 c =? 0)%N && match so with Some _ => true | None => false end && negb (ec_forward c)
        then pass (set_req_msg (snd (remove_edns0_option 8 (req_msg req2))) req2)
        else pass req2
    end
  else pass req.
