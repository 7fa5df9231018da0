(** Services: request/response calls over topics (horus_core/src/services/client.rs, server.rs, types.rs).
    A topic is a queue; any send may be lost ([send_lossy] gives up when the ring stays full,
    horus_core/src/communication/topic/mod.rs:2041-2081), which the history decides.  Several servers of one service
    compete for its requests.  Not modelled here: threads and sleeping (a history is any interleaving of the steps),
    serialisation, and [NoServer]/[Transport], which no code path of the two files returns. *)
From Coq Require Import String.
From Verif.Base Require Import Prelude Bytes AMap Str Decimal.
Local Open Scope N_scope.
Local Open Scope list_scope.

(** The bound on distinct response topics a server keeps open, server.rs:211. *)
Definition MAX_CLIENT_RESPONSE_TOPICS : nat := 64.
(** The number of requests a server takes in one pass, server.rs:397. *)
Definition PASS_LIMIT : nat := 1000.

(** [next_request_id] and [next_client_id], client.rs:43-51 and 56-63: the process id above the low 32 bits of a counter. *)
Definition process_id_mix (pid counter : N) : N := pid * 2 ^ 32 + counter mod 2 ^ 32.

(** [ServiceError], types.rs:136-149 *)
Inductive SErr :=
| Timeout
| ServiceFailed (msg : bytes)
| NoServer
| Transport (msg : bytes).
(** [is_transient], types.rs:159-161 *)
Definition is_transient (e : SErr) : bool := match e with Timeout | Transport _ => true | _ => false end.

Section Service.
  Context {Req Res : Type}.
  (** What the user's handler does with a request, server.rs:44: answer, refuse, or panic. *)
  Inductive HOut := HOk (r : Res) | HErr (msg : bytes) | HPanic.
  (** The handler; it may keep state, so the outcome may depend on how many requests were handled before. *)
  Variable handler : nat -> Req -> HOut.
  (** Whether [Topic::new_with_kind] accepts a name (server.rs:367-383). *)
  Variable can_create : bytes -> bool.
  (** The service's name, types.rs:50. *)
  Variable svc : bytes.

  (** [ServiceRequest], types.rs:79-94 *)
  Record SReq := mkReq { rq_id : N; rq_payload : Req; rq_topic : option bytes }.
  (** [ServiceResponse], types.rs:97-107 *)
  Record SResp := mkResp { rp_id : N; rp_ok : bool; rp_payload : option Res; rp_error : option bytes }.
  (** What a call returns. *)
  Inductive Result := Ok (r : Res) | Err (e : SErr).

  (** types.rs:58-60: the topic shared by clients that name none of their own. *)
  Definition shared_topic : bytes := svc ++ bs ".response".
  (** The response topic of a client, client.rs:104-105 and 328-329. *)
  Definition client_topic (client_id : N) : bytes := shared_topic ++ bs "." ++ dec client_id.

  (** The response the server makes from the handler's outcome, server.rs:323-336, with types.rs:112-131. *)
  Definition response_of (id : N) (o : HOut) : SResp :=
    match o with
    | HOk r => mkResp id true (Some r) None
    | HErr m => mkResp id false None (Some m)
    | HPanic => mkResp id false None (Some (bs "service handler panicked"))
    end.
  (** What a client makes of the response to its request, client.rs:142-150 and 272-280. *)
  Definition result_of (p : SResp) : Result :=
    if rp_ok p then
      match rp_payload p with
      | Some r => Ok r
      | None => Err (ServiceFailed (bs "server returned ok=true but no payload"))
      end
    else Err (ServiceFailed (match rp_error p with Some m => m | None => bs "unknown error" end)).

  (** A call in progress: [PendingServiceCall], client.rs:243-252, or the locals of [call], client.rs:123-134.
      The request itself is kept for the record. *)
  Record Call := mkCall { ca_id : N; ca_topic : bytes; ca_sent : N; ca_timeout : N; ca_req : Req }.

  (** Everything the processes share: the id counters of each process (client.rs:41, 54), the request topic, the
      response topics, the topics each server has open (server.rs:194).  For the record: which runs of the handler
      took place, with the request's id and payload, the calls made, and the clients made, by response topic. *)
  Record Sys := mkSys {
    s_next_req : list (N * N);
    s_next_client : list (N * N);
    s_queue : list SReq;
    s_box : list (bytes * list SResp);
    s_open : list (N * list bytes);
    s_runs : list (N * Req);
    s_calls : list Call;
    s_clients : list bytes }.
  (** Nothing has happened. *)
  Definition sys0 : Sys := mkSys [] [] [] [] [] [] [] [].
  (** The counters start at 1, client.rs:41 and 54. *)
  Definition counter (pid : N) (m : list (N * N)) : N := match lookup N.eqb pid m with Some n => n | None => 1 end.
  (** The messages waiting in a response topic. *)
  Definition box (s : Sys) (t : bytes) : list SResp := match lookup beqb t (s_box s) with Some l => l | None => [] end.
  (** The response topics a server has open. *)
  Definition opened (s : Sys) (srv : N) : list bytes := match lookup N.eqb srv (s_open s) with Some l => l | None => [] end.

  (** [ServiceClient::new] and [AsyncServiceClient::new], client.rs:93-118 and 320-336: the client is known by its
      response topic. *)
  Definition new_client (pid : N) (s : Sys) : Sys * bytes :=
    let n := counter pid (s_next_client s) in
    (mkSys (s_next_req s) (insert N.eqb pid (n + 1) (s_next_client s)) (s_queue s) (s_box s) (s_open s) (s_runs s) (s_calls s)
       (s_clients s ++ [client_topic (process_id_mix pid n)]), client_topic (process_id_mix pid n)).
  (** [call] up to its loop, client.rs:123-134, and [call_async], client.rs:341-360. *)
  Definition start_call (pid : N) (topic : bytes) (req : Req) (now timeout : N) (delivered : bool) (s : Sys) : Sys * Call :=
    let n := counter pid (s_next_req s) in
    let id := process_id_mix pid n in
    let c := mkCall id topic now timeout req in
    (mkSys (insert N.eqb pid (n + 1) (s_next_req s)) (s_next_client s)
       (if delivered then s_queue s ++ [mkReq id req (Some topic)] else s_queue s)
       (s_box s) (s_open s) (s_runs s) (s_calls s ++ [c]) (s_clients s), c).
  (** [PendingServiceCall::check], client.rs:265-284, and one pass of the loop of [call], client.rs:135-158: [None]
      means still waiting. *)
  Definition check (c : Call) (now : N) (s : Sys) : Sys * option Result :=
    if ca_timeout c <=? now - ca_sent c then (s, Some (Err Timeout))
    else match box s (ca_topic c) with
         | [] => (s, None)
         | p :: rest =>
             (mkSys (s_next_req s) (s_next_client s) (s_queue s) (insert beqb (ca_topic c) rest (s_box s)) (s_open s) (s_runs s) (s_calls s) (s_clients s),
              if rp_id p =? ca_id c then Some (result_of p) else None)
         end.
  (** The response topic open after a request that names it, server.rs:345-384. *)
  Definition open_topic (t : bytes) (l : list bytes) : list bytes :=
    if existsb (beqb t) l then l
    else if (MAX_CLIENT_RESPONSE_TOPICS <=? length l)%nat then l
    else if can_create t then t :: l else l.
  (** Sending on a topic. *)
  Definition post (delivered : bool) (t : bytes) (p : SResp) (boxes : list (bytes * list SResp)) : list (bytes * list SResp) :=
    if delivered then insert beqb t (match lookup beqb t boxes with Some l => l | None => [] end ++ [p]) boxes else boxes.
  (** One turn of the server's inner loop, server.rs:311-395. *)
  Definition serve (srv : N) (delivered : bool) (s : Sys) : Sys :=
    match s_queue s with
    | [] => s
    | rq :: queue =>
        let p := response_of (rq_id rq) (handler (length (s_runs s)) (rq_payload rq)) in
        let runs := s_runs s ++ [(rq_id rq, rq_payload rq)] in
        match rq_topic rq with
        | Some t =>
            let l := open_topic t (opened s srv) in
            mkSys (s_next_req s) (s_next_client s) queue
              (if existsb (beqb t) l then post delivered t p (s_box s) else s_box s)
              (insert N.eqb srv l (s_open s)) runs (s_calls s) (s_clients s)
        | None =>
            mkSys (s_next_req s) (s_next_client s) queue (post delivered shared_topic p (s_box s)) (s_open s) runs (s_calls s) (s_clients s)
        end
    end.
  (** One pass of the server over its requests, server.rs:309-400: [delivered] tells for each whether the response was sent. *)
  Fixpoint serve_pass (srv : N) (limit : nat) (delivered : nat -> bool) (s : Sys) : Sys :=
    match limit with
    | O => s
    | S k => serve_pass srv k (fun i => delivered (S i)) (serve srv (delivered O) s)
    end.

  (** A history: what happens, in any order. *)
  Inductive sev :=
  | SNewClient (pid : N)
  | SCall (pid : N) (topic : bytes) (req : Req) (now timeout : N) (delivered : bool)
  | SServe (srv : N) (delivered : bool)
  | SCheck (c : Call) (now : N)
  | SRestart (pid : N).
  (** One event: it applies the function above that the event names.  A process that starts with the id of an earlier
      one finds its counters at 1 again (client.rs:41, 54), while the topics stay. *)
  Definition sstep (s : Sys) (e : sev) : Sys * option Result :=
    match e with
    | SNewClient pid => (fst (new_client pid s), None)
    | SCall pid t req now timeout d => (fst (start_call pid t req now timeout d s), None)
    | SServe srv d => (serve srv d s, None)
    | SCheck c now => check c now s
    | SRestart pid => (mkSys (remove N.eqb pid (s_next_req s)) (remove N.eqb pid (s_next_client s)) (s_queue s) (s_box s) (s_open s) (s_runs s) (s_calls s) (s_clients s), None)
    end.
  (** A whole history: the state it leaves, and what each event returned; no code of its own. *)
  Fixpoint srun (s : Sys) (h : list sev) : Sys * list (option Result) :=
    match h with
    | [] => (s, [])
    | e :: r => let '(s1, o) := sstep s e in let '(s2, os) := srun s1 r in (s2, o :: os)
    end.

  (** [call_resilient_with], client.rs:196-221: [attempts] are the results its calls would have, in turn; returned are
      the result and the number of calls made.  The pauses between them are not modelled. *)
  Fixpoint call_resilient (max_retries : nat) (attempts : nat -> Result) : Result * nat :=
    match attempts O with
    | Ok r => (Ok r, 1%nat)
    | Err e =>
        match max_retries with
        | O => (Err e, 1%nat)
        | S k => if negb (is_transient e) then (Err e, 1%nat)
                 else let '(r, n) := call_resilient k (fun i => attempts (S i)) in (r, S n)
        end
    end.
  (** [call_optional], client.rs:224-234 *)
  Definition call_optional (r : Result) : Result + unit :=
    match r with
    | Err Timeout => inr tt
    | _ => inl r
    end.
End Service.
Arguments HOut Res : clear implicits.
Arguments SReq Req : clear implicits.
Arguments SResp Res : clear implicits.
Arguments Result Res : clear implicits.
Arguments Call Req : clear implicits.
Arguments Sys Req Res : clear implicits.
Arguments sev Req : clear implicits.
