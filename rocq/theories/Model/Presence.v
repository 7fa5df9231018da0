(** Presence files: how nodes become visible to tools, on this machine and from
    others.  horus_core/src/core/presence.rs, horus_net/src/presence.rs,
    horus_sys/src/discover/mod.rs and horus_manager/src/discovery/nodes.rs. *)
From Coq Require Import String.
From Verif.Base Require Import Prelude Bytes Str AMap Decimal.
From Verif.Model Require Import ShmFiles.
Open Scope N_scope.
Open Scope list_scope.

(** * Local nodes *)

(** What a presence file says: the process, its start time (0: not known) and the
    rest, here one number.  presence.rs:36-92. *)
Record precord := PRecord { pr_pid : N; pr_start : N; pr_data : N }.
(** A file in the directory: a record, or something else and whether it is older
    than five minutes (presence.rs:98, 110-116). *)
Inductive pfile := Valid (r : precord) | Other (old : bool).
(** Running processes with the start time the system gives for them (0: unreadable),
    and the nodes directory. *)
Record world := World { w_procs : list (N * N); w_dir : list (bytes * pfile) }.

(** [str::starts_with]. *)
Definition starts (p s : bytes) : bool := beqb (firstn (length p) s) p.
(** [str::ends_with]. *)
Definition ends (p s : bytes) : bool := (length p <=? length s)%nat && beqb (skipn (length s - length p) s) p.

(** [contains("..")]. *)
Definition has_dots (s : bytes) : bool :=
  existsb (fun i => starts (bs "..") (skipn i s)) (seq 0 (length s)).
(** [validate_node_name], presence.rs:287-311. *)
Definition node_name_ok (s : bytes) : bool :=
  negb (beqb s []) && (length s <=? 255)%nat && negb (has_dots s)
  && forallb (fun b => alnum b || (b =? 95) || (b =? 45) || (b =? 46)) s.
(** [presence_path], presence.rs:419-421. *)
Definition presence_file (name : bytes) : bytes := name ++ bs ".json".
(** [is_host_record], presence.rs:102-106. *)
Definition host_record (f : bytes) : bool := starts (bs "remote_") f || starts (bs "bridged_") f.
(** [path.extension() == "json"]; a lone ".json" has no extension. *)
Definition is_json (f : bytes) : bool := ends (bs ".json") f && (5 <? length f)%nat.

(** [is_alive], presence.rs:572-586. *)
Definition is_alive (procs : list (N * N)) (r : precord) : bool :=
  match lookup N.eqb (pr_pid r) procs with
  | None => false
  | Some actual => (pr_start r =? 0) || (actual =? 0) || (actual =? pr_start r)
  end.

(** [read_all], presence.rs:493-556: what it returns, with the file each record is
    from, and the directory it leaves. *)
Definition listed_here (procs : list (N * N)) (e : bytes * pfile) : list (bytes * precord) :=
  let '(f, c) := e in
  if host_record f then [] else if is_json f then
    match c with Valid r => if is_alive procs r then [(f, r)] else [] | Other _ => [] end
  else [].
(** Whether [read_all] keeps the file. *)
Definition kept_here (procs : list (N * N)) (e : bytes * pfile) : bool :=
  let '(f, c) := e in
  if host_record f then true else if is_json f then
    match c with Valid r => is_alive procs r | Other old => negb old end
  else true.
(** The whole directory. *)
Definition read_all (w : world) : list (bytes * precord) * world :=
  (flat_map (listed_here (w_procs w)) (w_dir w), World (w_procs w) (filter (kept_here (w_procs w)) (w_dir w))).

(** [find_nodes] of the command line tools, discover/mod.rs:186-246: the same
    directory, but only the process number counts. *)
Definition find_nodes (w : world) : list (bytes * precord) :=
  flat_map (fun e : bytes * pfile => let '(f, c) := e in
    if is_json f then
      match c with
      | Valid r => if pr_pid r =? 0 then [] else
          match lookup N.eqb (pr_pid r) (w_procs w) with Some _ => [(f, r)] | None => [] end
      | Other _ => []
      end
    else []) (w_dir w).

(** What happens on a machine. *)
Inductive pevent :=
| Run (pid start : N)                     (* a process starts *)
| Exit (pid : N)                          (* and ends *)
| Announce (name : bytes) (r : precord)   (* NodePresence::write, presence.rs:431-474 *)
| Withdraw (name : bytes)                 (* NodePresence::remove, presence.rs:477-483 *)
| Scan.                                   (* somebody lists the nodes *)
(** One event. *)
Definition p_step (w : world) (e : pevent) : world :=
  match e with
  | Run pid start => World (insert N.eqb pid start (w_procs w)) (w_dir w)
  | Exit pid => World (remove N.eqb pid (w_procs w)) (w_dir w)
  | Announce name r => World (w_procs w) (insert beqb (presence_file name) (Valid r) (w_dir w))
  | Withdraw name => World (w_procs w) (remove beqb (presence_file name) (w_dir w))
  | Scan => snd (read_all w)
  end.
(** From an empty machine. *)
Definition p_run (h : list pevent) : world := fold_left p_step h (World [] []).

(** * Replacing one file *)

(** What a file holds: nothing yet, a whole record, or two records over each other. *)
Inductive pcontent := Empty | Whole (r : precord) | Mixed.
(** A writer: idle, holding the temporary file open, or done writing it. *)
Inductive pwriter := WIdle | WOpen (i : nat) | WFull (i : nat).
(** The inodes the temporary and the final name lead to, the inodes, the writers. *)
Record preplace := PReplace { t_tmp : option nat; t_dest : option nat; t_data : list pcontent; t_ws : nat -> pwriter }.
(** Nothing there. *)
Definition no_presence : preplace := PReplace None None [] (fun _ => WIdle).
(** The system calls of [write], presence.rs:462-473. *)
Inductive wcall :=
| WOpenTmp (w : nat)              (* open_private: create or truncate, presence.rs:468 *)
| WWrite (w : nat) (r : precord)  (* write_all in one go, presence.rs:469 *)
| WRename (w : nat)               (* rename, presence.rs:473 *)
| WDie (w : nat).                 (* the process dies, or gives up *)
(** Setting one writer. *)
Definition set_w (f : nat -> pwriter) (w : nat) (x : pwriter) : nat -> pwriter :=
  fun k => if (k =? w)%nat then x else f k.
(** One call. *)
Definition w_step (s : preplace) (c : wcall) : preplace :=
  match c with
  | WOpenTmp w =>
      match t_ws s w with
      | WIdle =>
          match t_tmp s with
          | Some i => PReplace (Some i) (t_dest s) (Grid.store (t_data s) i Empty) (set_w (t_ws s) w (WOpen i))
          | None => let i := length (t_data s) in
              PReplace (Some i) (t_dest s) (t_data s ++ [Empty]) (set_w (t_ws s) w (WOpen i))
          end
      | _ => s
      end
  | WWrite w r =>
      match t_ws s w with
      | WOpen i =>
          let c := match nth_error (t_data s) i with Some Empty => Whole r | _ => Mixed end in
          PReplace (t_tmp s) (t_dest s) (Grid.store (t_data s) i c) (set_w (t_ws s) w (WFull i))
      | _ => s
      end
  | WRename w =>
      match t_ws s w with
      | WFull _ =>
          match t_tmp s with
          | Some j => PReplace None (Some j) (t_data s) (set_w (t_ws s) w WIdle)
          | None => PReplace None (t_dest s) (t_data s) (set_w (t_ws s) w WIdle)
          end
      | _ => s
      end
  | WDie w => PReplace (t_tmp s) (t_dest s) (t_data s) (set_w (t_ws s) w WIdle)
  end.
(** What a reader finds under the final name. *)
Definition p_read (s : preplace) : option pcontent :=
  match t_dest s with Some i => nth_error (t_data s) i | None => None end.

(** * Nodes of other machines *)

(** [is_safe_path_component], horus_net/src/presence.rs:25-35. *)
Definition safe_component (s : bytes) : bool :=
  negb (beqb s []) && (length s <=? 128)%nat
  && negb (existsb (fun b => (b =? 47) || (b =? 92) || (b =? 0)) s)
  && negb (has_dots s) && negb (beqb s (bs ".")).
(** The file of a host, horus_net/src/presence.rs:186. *)
Definition remote_file (host : bytes) : bytes := bs "remote_" ++ host ++ bs ".json".

(** A broadcast: namespace, host, time, and the nodes with the bits of their rates. *)
Record pcast := PCast { c_ns : bytes; c_host : bytes; c_time : N; c_nodes : list (bytes * N) }.
(** A length-prefixed string. *)
Definition put_str (s : bytes) : bytes := le_enc 2 (N.of_nat (length s) mod 65536) ++ s.
(** [build_local_presence], horus_net/src/presence.rs:239-288. *)
Definition put_cast (c : pcast) : bytes :=
  put_str (c_ns c) ++ put_str (c_host c) ++ le_enc 8 (c_time c)
  ++ le_enc 2 (N.of_nat (length (c_nodes c)) mod 65536)
  ++ flat_map (fun n => put_str (fst n) ++ le_enc 8 (snd n)) (c_nodes c).

(** Reading forward: the rest of the buffer stands for the position.  [None] where the
    code checks the length and stops. *)
Definition take (k : nat) (l : bytes) : option (bytes * bytes) :=
  if (length l <? k)%nat then None else Some (firstn k l, skipn k l).
(** A length-prefixed string. *)
Definition get_str (l : bytes) : option (bytes * bytes) :=
  match take 2 l with
  | Some (a, r) => take (N.to_nat (le_dec a)) r
  | None => None
  end.
(** The loop over the nodes, presence.rs:138-176: it stops at the first that is cut. *)
Fixpoint get_nodes (k : nat) (l : bytes) : list (bytes * N) :=
  match k with
  | O => []
  | S k' =>
      match get_str l with
      | Some (name, r) =>
          match take 8 r with Some (a, r') => (name, le_dec a) :: get_nodes k' r' | None => [] end
      | None => []
      end
  end.
(** The decoding part of [handle_broadcast], presence.rs:71-176; text is kept as its
    bytes ([from_utf8_lossy] changes bytes that are not UTF-8). *)
Definition get_cast (ns : bytes) (l : bytes) : option pcast :=
  if (length l <? 6)%nat then None else
  match get_str l with
  | Some (n, r) =>
      if negb (beqb n ns) then None else
      match get_str r with
      | Some (h, r2) =>
          if negb (safe_component h) then None else
          match take 8 r2 with
          | Some (t, r3) =>
              match take 2 r3 with
              | Some (k, r4) => Some (PCast n h (le_dec t) (get_nodes (N.to_nat (le_dec k)) r4))
              | None => None
              end
          | None => None
          end
      | None => None
      end
  | None => None
  end.

(** The text written for it, presence.rs:168-195; [rate] renders a rate. *)
Section RemoteText.
  Variable rate : N -> bytes.
  (** One node. *)
  Definition node_text (n : bytes * N) : bytes :=
    bs "{""name"":""" ++ fst n ++ bs """,""rate_hz"":" ++ rate (snd n) ++ bs "}".
  (** [join(",")]. *)
  Fixpoint commas (l : list bytes) : bytes :=
    match l with [] => [] | [a] => a | a :: r => a ++ bs "," ++ commas r end.
  (** The file. *)
  Definition cast_text (c : pcast) : bytes :=
    bs "{""host_id"":""" ++ c_host c ++ bs """,""is_remote"":true,""last_seen_ns"":" ++ dec (c_time c)
    ++ bs ",""namespace"":""" ++ c_ns c ++ bs """,""nodes"":[" ++ commas (map node_text (c_nodes c)) ++ bs "]}".
End RemoteText.

(** The receiver: the hosts with the time (in ns, of this machine) of the last
    broadcast, and the host files. *)
Record receiver := Receiver { v_hosts : list (bytes * N); v_files : list (bytes * pcast) }.
(** What it does: a broadcast arrives; [cleanup_stale], presence.rs:208-223. *)
Inductive revent := Cast (now : N) (data : bytes) | CleanHosts (now : N).
(** One event, [handle_broadcast] presence.rs:186-204 and [cleanup_stale]. *)
Definition r_step (ns : bytes) (v : receiver) (e : revent) : receiver :=
  match e with
  | Cast now data =>
      match get_cast ns data with
      | Some c => Receiver (insert beqb (c_host c) now (v_hosts v)) (insert beqb (remote_file (c_host c)) c (v_files v))
      | None => v
      end
  | CleanHosts now =>
      let dead := map fst (filter (fun p => 30000000000 <? now - snd p) (v_hosts v)) in
      Receiver (filter (fun p => negb (existsb (beqb (fst p)) dead)) (v_hosts v))
               (filter (fun p => negb (existsb (fun h => beqb (fst p) (remote_file h)) dead)) (v_files v))
  end.

(** From a start with no hosts known. *)
Definition r_run (ns : bytes) (h : list revent) : receiver := fold_left (r_step ns) h (Receiver [] []).

(** How the tools show a host file, nodes.rs:180-194: [None] is not at all. *)
Inductive remote_state := Running | Unreachable.
(** The age, then the two limits. *)
Definition remote_status (now_wall last_seen : N) : option remote_state :=
  let age := (now_wall - last_seen) / 1000000000 in
  if 30 <? age then None else if 3 <? age then Some Unreachable else Some Running.
