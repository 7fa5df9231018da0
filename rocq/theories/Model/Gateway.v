(** The file gateway through which the command line calls services and sends action goals:
    horus_manager/src/commands/service.rs:361-540, horus_core/src/services/server.rs:217-307,
    horus_manager/src/commands/action.rs:496-521, horus_core/src/actions/server.rs:1262-1318, with
    horus_sys/src/shm/mod.rs:418-430 ([write_shm_file_new] creates the file and then writes to it).

    One service; the gateway directory is shared by any number of servers and command-line calls.  A request file is
    known by its request id, as is a response file (the names are [{service}.request.{id}.json] and
    [{service}.response.{id}.json]).  A write may become visible in pieces.  Simplified: the client's read and removal
    of a response are one step; the removal of responses nobody collected for two minutes (server.rs:283-306) and the
    cancellation by Ctrl-C are left out. *)
From Verif.Base Require Import Prelude Bytes AMap.
Local Open Scope N_scope.

Section Gateway.
  Context {Req Resp : Type}.
  (** [serde_json::from_slice] and [from_value] of a request file, server.rs:250-253: the id and the typed payload. *)
  Variable parse_req : bytes -> option (N * Req).
  (** [serde_json::to_vec] of a response, server.rs:275-279. *)
  Variable enc_resp : N -> Resp -> bytes.
  (** [serde_json::from_slice] of a response, service.rs:517. *)
  Variable parse_resp : bytes -> option Resp.
  (** The handler with its outcome already made into a response, server.rs:257-272; the run number stands for its state. *)
  Variable handler : nat -> Req -> Resp.

  (** The files of the gateway directory. *)
  Inductive gname := RequestFile (id : N) | ResponseFile (id : N).
  (** Equality of file names. *)
  Definition gname_eqb (a b : gname) : bool :=
    match a, b with
    | RequestFile x, RequestFile y | ResponseFile x, ResponseFile y => x =? y
    | _, _ => false
    end.
  (** What a command-line call is doing: still writing these bytes, waiting, or finished. *)
  Inductive cli :=
  | CliWriting (rest : bytes)
  | CliWaiting
  | CliPrinted (r : Resp)
  | CliTimedOut
  | CliFailed.
  (** What a server is doing: looking around, holding the bytes it read from a request file, or writing a response. *)
  Inductive srv :=
  | SrvIdle
  | SrvHolds (id : N) (data : bytes)
  | SrvWriting (id : N) (rest : bytes).
  (** Everything: files, calls, servers; and for the record, the runs of the handler with the request file's id. *)
  Record GS := mkGS { g_files : list (gname * bytes); g_clis : list (N * cli); g_srvs : list (N * srv); g_runs : list (N * Req) }.
  (** Nothing has happened. *)
  Definition gs0 : GS := mkGS [] [] [] [].
  (** What a server is doing; at first it is idle. *)
  Definition server (v : N) (s : GS) : srv := match lookup N.eqb v (g_srvs s) with Some x => x | None => SrvIdle end.
  (** [write_shm_file_new], shm/mod.rs:418-427, up to the write: the new file is empty; an existing one is not touched. *)
  Definition create_new (n : gname) (files : list (gname * bytes)) : option (list (gname * bytes)) :=
    match lookup gname_eqb n files with Some _ => None | None => Some (insert gname_eqb n [] files) end.
  (** [write_all], shm/mod.rs:428, as far as [d]: the bytes go to the open file, if it still has its name. *)
  Definition append (n : gname) (d : bytes) (files : list (gname * bytes)) : list (gname * bytes) :=
    match lookup gname_eqb n files with Some old => insert gname_eqb n (old ++ d) files | None => files end.

  (** [call_service] up to the creation of the request file, service.rs:389-458. *)
  Definition cli_start (id : N) (json : bytes) (s : GS) : GS :=
    match create_new (RequestFile id) (g_files s) with
    | Some files => mkGS files (insert N.eqb id (CliWriting json) (g_clis s)) (g_srvs s) (g_runs s)
    | None => mkGS (g_files s) (insert N.eqb id CliFailed (g_clis s)) (g_srvs s) (g_runs s)
    end.
  (** The next [n] bytes of the request are written, shm/mod.rs:428. *)
  Definition cli_write (id : N) (n : nat) (s : GS) : GS :=
    match lookup N.eqb id (g_clis s) with
    | Some (CliWriting rest) =>
        mkGS (append (RequestFile id) (firstn n rest) (g_files s))
          (insert N.eqb id (match skipn n rest with [] => CliWaiting | r => CliWriting r end) (g_clis s)) (g_srvs s) (g_runs s)
    | _ => s
    end.
  (** Both files are removed when the call ends, service.rs:471-484 and 515-516. *)
  Definition clear (id : N) (files : list (gname * bytes)) : list (gname * bytes) :=
    remove gname_eqb (ResponseFile id) (remove gname_eqb (RequestFile id) files).
  (** One turn of the loop of [call_service], service.rs:497-539. *)
  Definition cli_poll (id : N) (expired : bool) (s : GS) : GS :=
    match lookup N.eqb id (g_clis s) with
    | Some CliWaiting =>
        if expired then mkGS (clear id (g_files s)) (insert N.eqb id CliTimedOut (g_clis s)) (g_srvs s) (g_runs s)
        else match lookup gname_eqb (ResponseFile id) (g_files s) with
             | None => s
             | Some data =>
                 match parse_resp data with
                 | Some r => mkGS (clear id (g_files s)) (insert N.eqb id (CliPrinted r) (g_clis s)) (g_srvs s) (g_runs s)
                 | None => mkGS (clear id (g_files s)) (g_clis s) (g_srvs s) (g_runs s)
                 end
             end
    | _ => s
    end.
  (** A server reads a request file it found, server.rs:241-244. *)
  Definition srv_read (v id : N) (s : GS) : GS :=
    match server v s, lookup gname_eqb (RequestFile id) (g_files s) with
    | SrvIdle, Some data => mkGS (g_files s) (g_clis s) (insert N.eqb v (SrvHolds id data) (g_srvs s)) (g_runs s)
    | _, _ => s
    end.
  (** It claims the request by removing the file, runs the handler and creates the response file, server.rs:245-279. *)
  Definition srv_claim (v : N) (s : GS) : GS :=
    match server v s with
    | SrvHolds id data =>
        let idle := insert N.eqb v SrvIdle (g_srvs s) in
        match lookup gname_eqb (RequestFile id) (g_files s) with
        | None => mkGS (g_files s) (g_clis s) idle (g_runs s)
        | Some _ =>
            let files := remove gname_eqb (RequestFile id) (g_files s) in
            match parse_req data with
            | None => mkGS files (g_clis s) idle (g_runs s)
            | Some (k, req) =>
                let runs := g_runs s ++ [(id, req)] in
                match create_new (ResponseFile k) files with
                | None => mkGS files (g_clis s) idle runs
                | Some files' =>
                    mkGS files' (g_clis s) (insert N.eqb v (SrvWriting k (enc_resp k (handler (length (g_runs s)) req))) (g_srvs s)) runs
                end
            end
        end
    | _ => s
    end.
  (** The next [n] bytes of the response are written, shm/mod.rs:428. *)
  Definition srv_write (v : N) (n : nat) (s : GS) : GS :=
    match server v s with
    | SrvWriting id rest =>
        mkGS (append (ResponseFile id) (firstn n rest) (g_files s)) (g_clis s)
          (insert N.eqb v (match skipn n rest with [] => SrvIdle | r => SrvWriting id r end) (g_srvs s)) (g_runs s)
    | _ => s
    end.

  (** A history: what happens, in any order. *)
  Inductive gev :=
  | GCall (id : N) (json : bytes)
  | GCliWrite (id : N) (n : nat)
  | GCliPoll (id : N) (expired : bool)
  | GRead (v id : N)
  | GClaim (v : N)
  | GSrvWrite (v : N) (n : nat).
  (** One event: applies the function above that the event names; no code of its own. *)
  Definition gstep (s : GS) (e : gev) : GS :=
    match e with
    | GCall id json => cli_start id json s
    | GCliWrite id n => cli_write id n s
    | GCliPoll id x => cli_poll id x s
    | GRead v id => srv_read v id s
    | GClaim v => srv_claim v s
    | GSrvWrite v n => srv_write v n s
    end.
  (** A whole history; no code of its own. *)
  Definition grun (s : GS) (h : list gev) : GS := fold_left gstep h s.
End Gateway.
Arguments cli Resp : clear implicits.
Arguments GS Req Resp : clear implicits.

(** ** Goals for an action server *)
Section Goals.
  Context {Goal : Type}.
  (** [serde_json::to_vec] of the goal, action.rs:496-512. *)
  Variable enc_goal : Goal -> bytes.
  (** [from_slice] and [from_value], actions/server.rs:1287-1303. *)
  Variable parse_goal : bytes -> option Goal.
  (** The one goal file of the action, action.rs:513, and the goals the server took from it. *)
  Record GoalBox := mkBox { gb_file : option bytes; gb_taken : list Goal }.
  (** No goal has been sent. *)
  Definition box0 : GoalBox := mkBox None [].
  (** A goal is sent (the file is removed, created and written) or the server looks at the file. *)
  Inductive glev := GoalSend (g : Goal) | GoalPoll.
  (** [send_goal], action.rs:513-521, and the server's look, actions/server.rs:1284-1318; each is one step here. *)
  Definition goal_step (b : GoalBox) (e : glev) : GoalBox :=
    match e with
    | GoalSend g => mkBox (Some (enc_goal g)) (gb_taken b)
    | GoalPoll =>
        match gb_file b with
        | None => b
        | Some d => mkBox None (gb_taken b ++ match parse_goal d with Some g => [g] | None => [] end)
        end
    end.
  (** A whole history; no code of its own. *)
  Definition goal_run (b : GoalBox) (h : list glev) : GoalBox := fold_left goal_step h b.
End Goals.
Arguments GoalBox Goal : clear implicits.
Arguments glev Goal : clear implicits.
