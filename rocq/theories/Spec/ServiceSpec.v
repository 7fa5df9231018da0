(** Vocabulary for services. *)
From Coq Require Import String.
From Verif.Base Require Import Prelude Bytes AMap Str.
From Verif.Model Require Import Service.
Local Open Scope N_scope.
Local Open Scope list_scope.

Section ServiceSpec.
  Context {Req Res : Type}.
  (** How many calls (clients) the process makes in the history. *)
  Fixpoint calls_by (pid : N) (h : list (sev Req)) : N :=
    match h with
    | [] => 0
    | SCall p _ _ _ _ _ :: r => (if p =? pid then 1 else 0) + calls_by pid r
    | _ :: r => calls_by pid r
    end.
  Fixpoint clients_by (pid : N) (h : list (sev Req)) : N :=
    match h with
    | [] => 0
    | SNewClient p :: r => (if p =? pid then 1 else 0) + clients_by pid r
    | _ :: r => clients_by pid r
    end.
  (** Nothing makes a request id come up twice: no process takes over the id of another, and none makes 2^32 calls. *)
  Definition fresh_ids (h : list (sev Req)) : Prop :=
    (forall pid, ~ In (SRestart pid) h) /\ (forall pid, calls_by pid h < 2 ^ 32) /\ (forall pid, clients_by pid h < 2 ^ 32).
  (** The result tells the caller what the handler did. *)
  Definition reports (o : HOut Res) (r : Result Res) : Prop :=
    match o with
    | HOk v => r = Ok v
    | HErr m => r = Err (ServiceFailed m)
    | HPanic => r = Err (ServiceFailed (bs "service handler panicked"))
    end.
  (** Run number [n] of the handler was for this call, on the request it sent, and ended in [o]. *)
  Definition run_for (handler : nat -> Req -> HOut Res) (s : Sys Req Res) (c : Call Req) (n : nat) (o : HOut Res) : Prop :=
    nth_error (s_runs s) n = Some (ca_id c, ca_req c) /\ handler n (ca_req c) = o.
  Definition expired (c : Call Req) (now : N) : Prop := ca_timeout c <= now - ca_sent c.
  (** The request of a call waits for a server. *)
  Definition waiting (s : Sys Req Res) (c : Call Req) : Prop :=
    In (mkReq (ca_id c) (ca_req c) (Some (ca_topic c))) (s_queue s).
  (** The calls of the history name no more than 64 response topics, all of which can be created. *)
  Definition few_clients (can_create : bytes -> bool) (h : list (sev Req)) : Prop :=
    exists names : list bytes, (length names <= 64)%nat /\ (forall t, In t names -> can_create t = true) /\
      forall pid t req now timeout d, In (SCall pid t req now timeout d) h -> In t names.
  (** In this history the call is told nothing but that it has to wait, or that its time is over. *)
  Definition never_answered (h : list (sev Req)) (os : list (option (Result Res))) (mine : Call Req -> Prop) : Prop :=
    forall i c now o, mine c -> nth_error h i = Some (SCheck c now) -> nth_error os i = Some o -> o = None \/ o = Some (Err Timeout).
End ServiceSpec.
