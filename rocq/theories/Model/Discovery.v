(** Peer discovery: horus_net/src/discovery.rs, horus_net/src/peer.rs and the matching step of
    horus_net/src/replicator.rs.  A [HashMap] is an association list; the order of the list plays the
    part of Rust's arbitrary iteration order.  Times are nanoseconds on a monotonic clock. *)
From Coq Require Import String.
From Verif.Base Require Import Prelude Bytes AMap Str.
From Verif.Model Require Import Wire Reliability Registry Guard NetFilter LogEntry.
Local Open Scope N_scope.

(** discovery.rs:13 *) Definition MAX_TOPIC_NAME : nat := 63.
(** discovery.rs:16 *) Definition MAX_TOPICS_PER_ANNOUNCEMENT : nat := 200.
(** netfilter.rs:307 *) Definition MAX_PEERS : nat := 256.
(** discovery.rs:140 *) Definition ANNOUNCEMENT_FLAG : N := 128.
(** discovery.rs:143 *) Definition ANNOUNCEMENT_HAS_SECRET : N := 1.

(** [str::contains] *)
Definition contains (s p : bytes) : bool := match find_sub s p with Some _ => true | None => false end.
(** priority.rs:32-39 *)
Definition infer_from_topic (name : bytes) : Priority :=
  let lower := to_lower name in
  if contains lower (bs "estop") || contains lower (bs "emergency") || contains lower (bs "safety")
  then Immediate else Normal.

(** discovery.rs:47-53: xor of the eight little-endian pairs *)
Fixpoint peer_id_hash (id : bytes) : N :=
  match id with
  | a :: b :: r => N.lxor (a + 256 * b) (peer_id_hash r)
  | [a] => a
  | [] => 0
  end.

(** discovery.rs:59-66 *)
Record WireTopic := mkWireTopic {
  wt_name : bytes; wt_hash : N; wt_size : N; wt_role : N; wt_pod : N; wt_prio : N }.
(** discovery.rs:72-81 *)
Definition wire_of_entry (ne : bytes * TopicEntry) : WireTopic :=
  mkWireTopic (fst ne) (te_type_hash (snd ne)) (te_type_size (snd ne)) (role_to_wire (te_role (snd ne)))
    (if te_pod (snd ne) then 1 else 0) (priority_to_u8 (infer_from_topic (fst ne))).
(** discovery.rs:83-99 *)
Definition encode_topic (w : WireTopic) : bytes :=
  let name_len := Nat.min (length (wt_name w)) MAX_TOPIC_NAME in
  [N.of_nat name_len] ++ firstn name_len (wt_name w) ++ repeat 0 (MAX_TOPIC_NAME - name_len)
  ++ le_enc 4 (wt_hash w) ++ le_enc 4 (wt_size w)
  ++ le_enc 1 (wt_role w) ++ le_enc 1 (wt_pod w) ++ le_enc 1 (wt_prio w) ++ [0].
(** discovery.rs:101-124; [std::str::from_utf8] is [utf8] *)
Definition decode_topic (buf : bytes) : option WireTopic :=
  if (length buf <? 76)%nat then None
  else
    let name_len := N.to_nat (get_le 0 1 buf) in
    if (MAX_TOPIC_NAME <? name_len)%nat then None
    else
      let name := slice 1 name_len buf in
      if negb (utf8 name) then None
      else Some (mkWireTopic name (get_le 64 4 buf) (get_le 68 4 buf) (get_le 72 1 buf)
                   (get_le 73 1 buf) (get_le 74 1 buf)).

(** discovery.rs:146-154 *)
Record AnnHeader := mkAnnHeader {
  ah_magic : N; ah_version : N; ah_flags : N; ah_peer : bytes; ah_port : N; ah_secret : bytes; ah_count : N }.
(** discovery.rs:159-168 *)
Definition encode_ann_header (h : AnnHeader) : bytes :=
  le_enc 4 (ah_magic h) ++ le_enc 1 (ah_version h) ++ le_enc 1 (ah_flags h) ++ ah_peer h
  ++ le_enc 2 (ah_port h) ++ ah_secret h ++ le_enc 2 (ah_count h).
(** discovery.rs:170-206 *)
Definition decode_ann_header (buf : bytes) : option AnnHeader :=
  if (length buf <? 30)%nat then None
  else if negb (get_le 0 4 buf =? MAGIC) then None
  else if negb (get_le 4 1 buf =? VERSION) then None
  else if negb (has_flag (get_le 5 1 buf) ANNOUNCEMENT_FLAG) then None
  else Some (mkAnnHeader (get_le 0 4 buf) (get_le 4 1 buf) (get_le 5 1 buf) (slice 6 16 buf)
               (get_le 22 2 buf) (slice 24 4 buf) (get_le 28 2 buf)).
(** No secret configured: config.rs:298-302. *)
Definition zero_secret : bytes := [0; 0; 0; 0].
(** discovery.rs:212-248; the 65536-byte buffer always has room for 200 entries *)
Definition encode_announcement (peer : bytes) (port : N) (secret : bytes) (topics : Registry) : bytes :=
  let topic_count := Nat.min (length topics) MAX_TOPICS_PER_ANNOUNCEMENT in
  let has_secret := negb (beqb secret zero_secret) in
  encode_ann_header (mkAnnHeader MAGIC VERSION
    (N.lor ANNOUNCEMENT_FLAG (if has_secret then ANNOUNCEMENT_HAS_SECRET else 0))
    peer port secret (N.of_nat topic_count mod 2 ^ 16))
  ++ flat_map (fun e => encode_topic (wire_of_entry e)) (firstn topic_count topics).

(** A socket address. *)
Definition Addr := (IpAddr * N)%type.
(** discovery.rs:252-259 *)
Record Announcement := mkAnn {
  an_peer : bytes; an_port : N; an_secret : bytes; an_has_secret : bool;
  an_topics : list WireTopic; an_from : Addr }.
(** discovery.rs:274-282 *)
Fixpoint decode_topics (count : nat) (rest : bytes) : list WireTopic :=
  match count with
  | O => []
  | S c =>
      if (length rest <? 76)%nat then []
      else match decode_topic rest with
           | Some t => t :: decode_topics c (skipn 76 rest)
           | None => decode_topics c (skipn 76 rest)
           end
  end.
(** discovery.rs:262-292 *)
Definition decode_announcement (buf : bytes) (from : Addr) : option Announcement :=
  match decode_ann_header buf with
  | None => None
  | Some h =>
      Some (mkAnn (ah_peer h) (ah_port h) (ah_secret h) (has_flag (ah_flags h) ANNOUNCEMENT_HAS_SECRET)
              (decode_topics (N.to_nat (ah_count h)) (skipn 30 buf)) from)
  end.

(** discovery.rs:297-308 *)
Record Match := mkMatch { ma_topic : bytes; ma_export : bool; ma_import : bool; ma_hash : N; ma_pod : bool }.
(** The test of [has_publishers], registry.rs:216-223. *)
Definition role_pub (r : TopicRole) : bool := match r with Publisher | Both => true | Subscriber => false end.
(** The test of [has_subscribers], registry.rs:206-213. *)
Definition role_sub (r : TopicRole) : bool := match r with Subscriber | Both => true | Publisher => false end.
(** Role byte 1 or 3 on the wire, peer.rs:180. *)
Definition wire_pub (r : N) : bool := (r =? 1) || (r =? 3).
(** Role byte 2 or 3 on the wire, peer.rs:170. *)
Definition wire_sub (r : N) : bool := (r =? 2) || (r =? 3).
(** discovery.rs:322-352: one local and one remote entry *)
Definition match_one (local : bytes * TopicEntry) (remote : WireTopic) : list Match :=
  if negb (beqb (fst local) (wt_name remote)) then []
  else if negb (te_type_hash (snd local) =? wt_hash remote) then []
  else
    let export := role_pub (te_role (snd local)) && wire_sub (wt_role remote) in
    let import := role_sub (te_role (snd local)) && wire_pub (wt_role remote) in
    if export || import then
      [mkMatch (fst local) export import (te_type_hash (snd local)) (te_pod (snd local))]
    else [].
(** discovery.rs:313-356 (the warnings are not modelled) *)
Definition find_matches (local : Registry) (remote : list WireTopic) : list Match :=
  flat_map (fun l => flat_map (match_one l) remote) local.

(** ** The peer table *)
(** peer.rs:17-32; the peer id is the key *)
Record PeerInfo := mkPeer {
  pi_addr : Addr; pi_port : N; pi_topics : list WireTopic; pi_seen : N; pi_alive : bool; pi_secret : bytes }.
(** The [peers] map of peer.rs:55. *)
Definition Peers := list (bytes * PeerInfo).
(** peer.rs:36-40 *)
Definition data_addr (p : PeerInfo) : Addr := (fst (pi_addr p), pi_port p).
(** The entry made from an announcement, peer.rs:123-134. *)
Definition peer_of (now : N) (a : Announcement) : PeerInfo :=
  mkPeer (an_from a) (an_port a) (an_topics a) now true (an_secret a).
(** peer.rs:99-104 [min_by_key]: the first of the dead peers with the least [last_seen] *)
Fixpoint oldest_dead (s : Peers) : option (bytes * N) :=
  match s with
  | [] => None
  | (id, p) :: r =>
      if pi_alive p then oldest_dead r
      else match oldest_dead r with
           | Some (id', t) => if t <? pi_seen p then Some (id', t) else Some (id, pi_seen p)
           | None => Some (id, pi_seen p)
           end
  end.
(** peer.rs:84-136 *)
Definition update_peer (now : N) (a : Announcement) (s : Peers) : Peers :=
  match lookup beqb (an_peer a) s with
  | Some _ => insert beqb (an_peer a) (peer_of now a) s
  | None =>
      if (MAX_PEERS <=? length s)%nat then
        match oldest_dead s with
        | Some (victim, _) => insert beqb (an_peer a) (peer_of now a) (remove beqb victim s)
        | None => s
        end
      else insert beqb (an_peer a) (peer_of now a) s
  end.
(** The test of [check_liveness], peer.rs:148. *)
Definition stale (timeout now : N) (p : PeerInfo) : bool := pi_alive p && (timeout <? now - pi_seen p).
(** [alive = false], peer.rs:149. *)
Definition kill (p : PeerInfo) : PeerInfo :=
  mkPeer (pi_addr p) (pi_port p) (pi_topics p) (pi_seen p) false (pi_secret p).
(** peer.rs:140-155: the table and the peers that just died *)
Definition check_liveness (timeout now : N) (s : Peers) : Peers * list bytes :=
  (map (fun kp => (fst kp, if stale timeout now (snd kp) then kill (snd kp) else snd kp)) s,
   map fst (filter (fun kp => stale timeout now (snd kp)) s)).
(** peer.rs:158-162 *)
Definition remove_dead_peers (s : Peers) : Peers := filter (fun kp => pi_alive (snd kp)) s.
(** peer.rs:277-279 *)
Definition alive_peers (s : Peers) : list (bytes * PeerInfo) := filter (fun kp => pi_alive (snd kp)) s.
(** Does a live peer announce the topic with such a role. *)
Definition announces (roles : N -> bool) (name : bytes) (p : PeerInfo) : bool :=
  existsb (fun t => beqb (wt_name t) name && roles (wt_role t)) (pi_topics p).
(** peer.rs:165-172, 185-195 *)
Definition subscribers_of (s : Peers) (name : bytes) : list (bytes * PeerInfo) :=
  filter (fun kp => pi_alive (snd kp) && announces wire_sub name (snd kp)) s.
(** [has_remote_subscribers], peer.rs:165-172. *)
Definition has_remote_subscribers (s : Peers) (name : bytes) : bool :=
  existsb (fun kp => pi_alive (snd kp) && announces wire_sub name (snd kp)) s.
(** [IpAddr] equality. *)
Definition ip_eqb (a b : IpAddr) : bool :=
  match a, b with V4 x, V4 y => x =? y | V6 x, V6 y => x =? y | _, _ => false end.
(** peer.rs:250-260: the first peer at the source's IP address *)
Definition announced_type_hash (s : Peers) (from : Addr) (name : bytes) : option N :=
  match find (fun kp => ip_eqb (fst (pi_addr (snd kp))) (fst from)) s with
  | Some (_, p) => option_map wt_hash (find (fun t => beqb (wt_name t) name) (pi_topics p))
  | None => None
  end.

(** ** The replicator's use of them *)
(** replicator.rs:48-92, the part that discovery drives *)
Record Disc := mkDisc {
  d_me : bytes; d_secret : bytes; d_peers : Peers;
  d_readers : list bytes; d_writers : list bytes }.
(** replicator.rs:1027-1028 [retain(|m| seen.insert(topic))]: the first match of each topic *)
Fixpoint first_of_topic (seen : list bytes) (ms : list Match) : list Match :=
  match ms with
  | [] => []
  | m :: r => if existsb (beqb (ma_topic m)) seen then first_of_topic seen r
              else m :: first_of_topic (ma_topic m :: seen) r
  end.
(** Auxiliary: [HashSet::insert]. *)
Definition add_name (n : bytes) (l : list bytes) : list bytes := if existsb (beqb n) l then l else l ++ [n].
Section Updates.
  (** The iteration order of the peer [HashMap]. *)
  Variable order : Peers -> Peers.
  (** Whether the topic's shared memory can be opened (shm_writer.rs:60-140). *)
  Variable can_open : bytes -> bool.
  (** replicator.rs:1014-1047 *)
  Definition update_matches (reg : Registry) (peers : Peers) (readers writers : list bytes)
    : list Match * list bytes * list bytes :=
    let all := first_of_topic [] (flat_map (fun kp => find_matches reg (pi_topics (snd kp))) (alive_peers (order peers))) in
    let readers1 := fold_left (fun rs m => if ma_export m then add_name (ma_topic m) rs else rs) all readers in
    let writers1 := fold_left (fun ws m => if ma_import m && can_open (ma_topic m)
                                           then add_name (ma_topic m) ws else ws) all writers in
    let matched n := existsb (fun m => beqb n (ma_topic m)) all in
    (all, filter matched readers1, filter matched writers1).
  (** replicator.rs:311-344: an admitted announcement *)
  Definition on_announcement (now : N) (reg : Registry) (a : Announcement) (d : Disc) : Disc :=
    if beqb (an_peer a) (d_me d) then d
    else if negb (beqb (d_secret d) zero_secret) && (negb (an_has_secret a) || negb (beqb (an_secret a) (d_secret d)))
    then d
    else
      let peers := update_peer now a (d_peers d) in
      let '(_, rs, ws) := update_matches reg peers (d_readers d) (d_writers d) in
      mkDisc (d_me d) (d_secret d) peers rs ws.
  (** replicator.rs:781-799: the once-a-second liveness check; also the peers reported lost *)
  Definition on_liveness (timeout now : N) (reg : Registry) (d : Disc) : Disc * list bytes :=
    let '(peers, dead) := check_liveness timeout now (d_peers d) in
    match dead with
    | [] => (mkDisc (d_me d) (d_secret d) peers (d_readers d) (d_writers d), [])
    | _ =>
        let peers := remove_dead_peers peers in
        let '(_, rs, ws) := update_matches reg peers (d_readers d) (d_writers d) in
        (mkDisc (d_me d) (d_secret d) peers rs ws, dead)
    end.
End Updates.

(** A history of the peer table as the replicator drives it. *)
Inductive pev :=
| PAnnounce (a : Announcement)
| PLiveness.
(** One event of a history: applies the function above that the event names; no code of its own. *)
Definition pstep (timeout now : N) (e : pev) (s : Peers) : Peers * list bytes :=
  match e with
  | PAnnounce a => (update_peer now a s, [])
  | PLiveness => let '(s1, dead) := check_liveness timeout now s in
                 (match dead with [] => s1 | _ => remove_dead_peers s1 end, dead)
  end.
(** A whole history, event by event; no code of its own. *)
Fixpoint prun (timeout : N) (s : Peers) (h : list (N * pev)) : Peers * list (list bytes) :=
  match h with
  | [] => (s, [])
  | (t, e) :: r => let '(s1, out) := pstep timeout t e s in
                   let '(s2, outs) := prun timeout s1 r in (s2, out :: outs)
  end.

(** ** Where announcements go *)
(** config.rs:325-333, 299-313; unicast addresses already resolved *)
Inductive DiscoveryMode := Multicast (group : IpAddr) | Unicast (peers : list Addr).
(** replicator.rs:989-1012 [send_discovery_announcement]: the multicast port is a literal *)
Definition announcement_dests (mode : DiscoveryMode) : list Addr :=
  match mode with Multicast g => [(g, 9100)] | Unicast ps => ps end.
(** replicator.rs:97-105 and transport/udp.rs:23-25: a host receives datagrams for its own address, or for
    the group it joined, on the port it bound. *)
Record HostCfg := mkHostCfg { h_ip : IpAddr; h_port : N; h_mode : DiscoveryMode }.
(** Does a datagram for [dest] reach the host's socket. *)
Definition receives (h : HostCfg) (dest : Addr) : bool :=
  (snd dest =? h_port h)
  && (ip_eqb (fst dest) (h_ip h)
      || match h_mode h with Multicast g => ip_eqb (fst dest) g | Unicast _ => false end).
