(** Source-address filter and token buckets: horus_net/src/netfilter.rs. *)
From Coq Require Import String.
From Verif.Base Require Import Prelude Bytes Str.
From Verif.Model Require Import Guard.
Local Open Scope N_scope.

(** ** CIDR blocks.  An IPv4 address is its 32-bit value. *)
(** netfilter.rs:39-42 *)
Record Cidr := mkCidr { ci_base : N; ci_len : N }.
(** netfilter.rs:59-65 *)
Definition cidr_mask (prefix_len : N) : N :=
  if prefix_len =? 0 then 0 else N.shiftl (2 ^ 32 - 1) (32 - prefix_len) mod 2 ^ 32.
(** netfilter.rs:46-55 *)
Definition cidr_new (addr prefix_len : N) : option Cidr :=
  if 32 <? prefix_len then None else Some (mkCidr (N.land addr (cidr_mask prefix_len)) prefix_len).
(** netfilter.rs:83-86 *)
Definition cidr_contains (c : Cidr) (addr : N) : bool := N.land addr (cidr_mask (ci_len c)) =? ci_base c.

(** [str::trim].  Simplification: only ASCII white space (9-13 and 32) is white. *)
Definition is_space (c : N) : bool := ((9 <=? c) && (c <=? 13)) || (c =? 32).
(** [str::trim_start], ASCII white space only. *)
Fixpoint trim_start (s : bytes) : bytes :=
  match s with c :: r => if is_space c then trim_start r else s | [] => [] end.
(** [str::trim], ASCII white space only. *)
Definition trim (s : bytes) : bytes := rev (trim_start (rev (trim_start s))).
(** [str::split_once(c)] *)
Fixpoint split_once (c : N) (s : bytes) : option (bytes * bytes) :=
  match s with
  | [] => None
  | x :: r => if x =? c then Some ([], r)
              else match split_once c r with Some (a, b) => Some (x :: a, b) | None => None end
  end.
(** [char::is_ascii_digit] *)
Definition is_digit (c : N) : bool := (48 <=? c) && (c <=? 57).
(** Auxiliary: the value of decimal digits. *)
Definition dec_value (ds : bytes) : N := fold_left (fun acc d => 10 * acc + (d - 48)) ds 0.
(** [str::parse::<u8>]: an optional '+', then digits, value at most 255 *)
Definition parse_u8 (s : bytes) : option N :=
  let ds := match s with c :: r => if c =? 43 then r else s | [] => [] end in
  match ds with
  | [] => None
  | _ => if forallb is_digit ds && (dec_value ds <=? 255) then Some (dec_value ds) else None
  end.
(** [Ipv4Addr::from_str]: four decimal octets of at most three digits, no leading zeros *)
Definition parse_octet (s : bytes) : option N :=
  match s with
  | [] => None
  | c :: r =>
      if forallb is_digit s && (length s <=? 3)%nat && (dec_value s <=? 255)
         && (negb (c =? 48) || match r with [] => true | _ => false end)
      then Some (dec_value s) else None
  end.
(** [Ipv4Addr::from_str] *)
Definition parse_ipv4 (s : bytes) : option N :=
  match split_on 46 s with
  | [a; b; c; d] =>
      match parse_octet a, parse_octet b, parse_octet c, parse_octet d with
      | Some a, Some b, Some c, Some d => Some (((a * 256 + b) * 256 + c) * 256 + d)
      | _, _, _, _ => None
      end
  | _ => None
  end.
(** netfilter.rs:68-80 [Cidr::parse] *)
Definition cidr_parse (s : bytes) : option Cidr :=
  let s := trim s in
  let '(addr_part, prefix_part) :=
    match split_once 47 s with Some (a, p) => (a, Some p) | None => (s, None) end in
  match parse_ipv4 (trim addr_part) with
  | None => None
  | Some addr =>
      match prefix_part with
      | Some p => match parse_u8 (trim p) with Some l => cidr_new addr l | None => None end
      | None => cidr_new addr 32
      end
  end.
(** netfilter.rs:90-102 *)
Definition filter_map {A B} (f : A -> option B) (l : list A) : list B :=
  flat_map (fun a => match f a with Some b => [b] | None => [] end) l.
(** netfilter.rs:90-102 (the default list) *)
Definition default_allow : list Cidr :=
  filter_map cidr_parse (map bs ["127.0.0.0/8"; "10.0.0.0/8"; "172.16.0.0/12"; "192.168.0.0/16";
                                 "169.254.0.0/16"; "100.64.0.0/10"]%string).

(** netfilter.rs:108-120 *)
Inductive PeerFilter := PAny | PAllow (cidrs : list Cidr).
(** netfilter.rs:116-120 [Default] *)
Definition peer_filter_default : PeerFilter := PAllow default_allow.
(** [str::to_lowercase], on ASCII *)
Definition to_lower (s : bytes) : bytes := map (fun c => if (65 <=? c) && (c <=? 90) then c + 32 else c) s.
(** netfilter.rs:140-181 [PeerFilter::parse] *)
Definition peer_filter_parse (raw : bytes) : PeerFilter :=
  let trimmed := trim raw in
  match trimmed with
  | [] => peer_filter_default
  | _ =>
    if existsb (beqb (to_lower trimmed)) (map bs ["any"; "*"; "all"; "0.0.0.0/0"]%string) then PAny
    else
      let cidrs := filter_map (fun entry => match trim entry with [] => None | e => cidr_parse e end)
                              (split_on 44 trimmed) in
      match cidrs with [] => peer_filter_default | _ => PAllow cidrs end
  end.
(** An IP address: the value of its 32 or 128 bits. *)
Inductive IpAddr := V4 (a : N) | V6 (a : N).
(** [Ipv6Addr::to_ipv4_mapped]: ::ffff:a.b.c.d *)
Definition to_ipv4_mapped (a : N) : option N := if a / 2 ^ 32 =? 65535 then Some (a mod 2 ^ 32) else None.
(** netfilter.rs:184-197 [admits] (the port is ignored by the code) *)
Definition admits (f : PeerFilter) (ip : IpAddr) : bool :=
  match f with
  | PAny => true
  | PAllow cidrs =>
      match ip with
      | V4 a => existsb (fun c => cidr_contains c a) cidrs
      | V6 a => match to_ipv4_mapped a with
                | Some v4 => existsb (fun c => cidr_contains c v4) cidrs
                | None => false
                end
      end
  end.

(** ** Token buckets.  Simplification: the code holds tokens as [f64]; here a token is 10^9
    units and time is in nanoseconds, so refills are exact integers. *)
Definition TOKEN : N := 1000000000.
(** netfilter.rs:207-213 *)
Record Bucket := mkBucket { b_cap : N; b_rate : N; b_tokens : N; b_last : N }.
(** netfilter.rs:223-230 *)
Definition bucket_new_at (capacity rate now : N) : Bucket := mkBucket capacity rate (capacity * TOKEN) now.
(** netfilter.rs:254-262 [refill] *)
Definition bucket_refill (now : N) (b : Bucket) : Bucket :=
  let elapsed := now - b_last b in
  if elapsed =? 0 then b
  else mkBucket (b_cap b) (b_rate b) (N.min (b_tokens b + elapsed * b_rate b) (b_cap b * TOKEN)) now.
(** netfilter.rs:244-252 [take_at] *)
Definition bucket_take (now : N) (b : Bucket) : Bucket * bool :=
  let b := bucket_refill now b in
  if TOKEN <=? b_tokens b then (mkBucket (b_cap b) (b_rate b) (b_tokens b - TOKEN) (b_last b), true)
  else (b, false).
(** A sequence of [take_at] calls. *)
Fixpoint bucket_run (b : Bucket) (calls : list N) : Bucket * list bool :=
  match calls with
  | [] => (b, [])
  | t :: r => let '(b1, ok) := bucket_take t b in
              let '(b2, oks) := bucket_run b1 r in (b2, ok :: oks)
  end.
(** netfilter.rs:280-288 *)
Definition estop_bucket (now : N) : Bucket := bucket_new_at 128 64 now.
(** netfilter.rs:282 *)
Definition logs_bucket (now : N) : Bucket := bucket_new_at 64 32 now.
(** netfilter.rs:283 *)
Definition presence_bucket (now : N) : Bucket := bucket_new_at 64 32 now.
