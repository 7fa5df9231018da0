(** Vocabulary for the command line's file gateway. *)
From Verif.Base Require Import Prelude Bytes AMap.
From Verif.Model Require Import Gateway.
Local Open Scope N_scope.

(** The ids of the calls of a history. *)
Definition call_ids (h : list gev) : list N := flat_map (fun e => match e with GCall id _ => [id] | _ => [] end) h.
(** No two calls have the same id. *)
Definition distinct_calls (h : list gev) : Prop := NoDup (call_ids h).
(** What serde_json gives: of a request only the whole text parses, and it carries the call's id; of a response only the
    whole text parses, to what was encoded. *)
Definition whole_requests {Req} (parse_req : bytes -> option (N * Req)) (h : list gev) : Prop :=
  forall id json n k r, In (GCall id json) h -> parse_req (firstn n json) = Some (k, r) -> k = id /\ firstn n json = json.
Definition whole_responses {Resp} (enc_resp : N -> Resp -> bytes) (parse_resp : bytes -> option Resp) : Prop :=
  forall k r n x, parse_resp (firstn n (enc_resp k r)) = Some x -> x = r /\ firstn n (enc_resp k r) = enc_resp k r.
(** The call has shown this response to the user. *)
Definition printed {Req Resp} (s : GS Req Resp) (id : N) (r : Resp) : Prop := lookup N.eqb id (g_clis s) = Some (CliPrinted r).
(** After this history, whatever follows, the handler does not run for this call any more and nothing is shown for it. *)
Definition abandoned {Req Resp} parse_req enc_resp parse_resp (handler : nat -> Req -> Resp) (h1 : list gev) (id : N) : Prop :=
  let run := grun parse_req enc_resp parse_resp handler gs0 in
  forall h2, distinct_calls (h1 ++ h2) -> whole_requests parse_req (h1 ++ h2) ->
    (forall r, ~ printed (run (h1 ++ h2)) id r) /\ (forall req, In (id, req) (g_runs (run (h1 ++ h2))) -> In (id, req) (g_runs (run h1))).

(** The goals sent in a history; the server looks between any two of them. *)
Definition goals_sent {Goal} (h : list (glev Goal)) : list Goal := flat_map (fun e => match e with GoalSend g => [g] | GoalPoll => [] end) h.
Inductive some_of {A} : list A -> list A -> Prop :=
| some_nil : some_of [] []
| some_skip x a b : some_of a b -> some_of a (x :: b)
| some_take x a b : some_of a b -> some_of (x :: a) (x :: b).
Definition one_at_a_time {Goal} (h : list (glev Goal)) : Prop :=
  forall a g g' b, h <> a ++ GoalSend g :: GoalSend g' :: b.
