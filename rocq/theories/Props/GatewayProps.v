(** C79-C80: services and actions called from the command line. *)
From Verif.Base Require Import Prelude Bytes AMap.
From Verif.Model Require Import Gateway.
From Verif.Spec Require Import GatewaySpec.
From Verif.Proofs Require Import GatewayProofs.
Local Open Scope N_scope.

(** ** C79 *)
(** Any number of servers and calls, any interleaving, any text in the files: the handler runs at most once per call. *)
Theorem C79_once : forall Req Resp parse_req enc_resp parse_resp (handler : nat -> Req -> Resp) h,
  distinct_calls h -> NoDup (map fst (g_runs (grun parse_req enc_resp parse_resp handler gs0 h))).
Proof. intros. apply once. assumption. Qed.
Print Assumptions C79_once.

(** Every run of the handler is for a request some call made, whole; what a call shows is the outcome of the run for it. *)
Theorem C79_answer : forall Req Resp parse_req enc_resp parse_resp (handler : nat -> Req -> Resp) h,
  distinct_calls h -> whole_requests parse_req h ->
  let s := grun parse_req enc_resp parse_resp handler gs0 h in
  (forall id req, In (id, req) (g_runs s) -> exists json, In (GCall id json) h /\ parse_req json = Some (id, req)) /\
  (whole_responses enc_resp parse_resp -> forall id r, printed s id r -> exists n req, nth_error (g_runs s) n = Some (id, req) /\ r = handler n req).
Proof.
  intros Req Resp pr er ps hd h D W s. pose proof (reach_inv pr er ps hd h D W) as I. split.
  - intros id req H. apply In_nth_error in H as (n & H). destruct (gi_runs _ _ _ _ _ _ I n id req H) as (_ & json & K & P). exists json. split; [apply texts_in; exact K|exact P].
  - apply (gi_printed _ _ _ _ _ _ I).
Qed.
Print Assumptions C79_answer.

(** A call whose request is written before a server looks, and whose response is written before the call looks, is answered. *)
Theorem C79_answered_partial : forall Req Resp parse_req enc_resp parse_resp (handler : nat -> Req -> Resp) h id json req v,
  distinct_calls h -> whole_requests parse_req h -> ~ In id (call_ids h) ->
  (forall k r, parse_resp (enc_resp k r) = Some r) -> parse_req json = Some (id, req) ->
  let s := grun parse_req enc_resp parse_resp handler gs0 h in
  server v s = SrvIdle ->
  let r := handler (length (g_runs s)) req in
  printed (grun parse_req enc_resp parse_resp handler s
    [GCall id json; GCliWrite id (length json); GRead v id; GClaim v; GSrvWrite v (length (enc_resp id r)); GCliPoll id false]) id r.
Proof.
  intros Req Resp pr er ps hd h id json req v D W Hn Hr Hp s Hv r. destruct (fresh_files pr er ps hd h id D W Hn) as (F1 & F2 & _). fold s in F1, F2.
  unfold grun. cbn [fold_left gstep]. unfold cli_start at 1, create_new at 1. rewrite F1. cbn [fst]. 
  unfold cli_write at 1. cbn [g_clis]. rewrite !ninsert, !N.eqb_refl. cbn [g_files g_srvs g_runs]. rewrite firstn_all, skipn_all.
  unfold srv_read at 1. unfold server at 1. cbn [g_srvs]. fold (server v s). rewrite Hv. cbn [g_files].
  rewrite append_at, lookup_insert_eq by apply gname_eqb_spec. rewrite (proj2 (gname_eqb_spec _ _) eq_refl). cbn [app].
  unfold srv_claim at 1. rewrite server_insert, N.eqb_refl. cbn [g_files]. rewrite append_at, lookup_insert_eq by apply gname_eqb_spec. rewrite Hp.
  unfold create_new at 1. rewrite lookup_remove_neq by (try discriminate; apply gname_eqb_spec). rewrite append_at.
  rewrite lookup_insert_neq by (try discriminate; apply gname_eqb_spec). rewrite F2. cbn [g_clis g_srvs g_runs]. fold r.
  unfold srv_write at 1. unfold server at 1. cbn [g_srvs g_files g_clis g_runs]. rewrite ninsert, N.eqb_refl. rewrite firstn_all, skipn_all.
  unfold cli_poll at 1. cbn [g_srvs g_files g_clis g_runs]. rewrite ninsert, N.eqb_refl.
  rewrite append_at, lookup_insert_eq by apply gname_eqb_spec. rewrite (proj2 (gname_eqb_spec _ _) eq_refl). cbn [app]. rewrite Hr.
  unfold printed. cbn [g_clis]. rewrite ninsert, N.eqb_refl. reflexivity.
Qed.
Print Assumptions C79_answered_partial.

(** A server that looks while the request is being written takes the file away and drops it: whatever happens then, the
    handler never runs for this call and the call shows nothing.  The same holds of a whole request of the wrong type. *)
Theorem C79_lost_request_refuted : forall Req Resp parse_req enc_resp parse_resp (handler : nat -> Req -> Resp) h id json v n,
  distinct_calls h -> whole_requests parse_req h -> ~ In id (call_ids h) ->
  server v (grun parse_req enc_resp parse_resp handler gs0 h) = SrvIdle -> parse_req (firstn n json) = None ->
  let h1 := h ++ [GCall id json; GCliWrite id n; GRead v id; GClaim v] in
  abandoned parse_req enc_resp parse_resp handler h1 id /\
  ~ In id (map fst (g_runs (grun parse_req enc_resp parse_resp handler gs0 h1))).
Proof.
  intros Req Resp pr er ps hd h id json v n D W Hn Hv Hp h1. destruct (fresh_files pr er ps hd h id D W Hn) as (F1 & F2 & F3).
  unfold h1. assert (X : exists f c vs, grun pr er ps hd gs0 h1 = mkGS f c vs (g_runs (grun pr er ps hd gs0 h)) /\
    lookup gname_eqb (RequestFile id) f = None /\ lookup gname_eqb (ResponseFile id) f = None /\ forall r, lookup N.eqb id c <> Some (CliPrinted r)).
  { unfold h1. rewrite grun_app. set (s := grun pr er ps hd gs0 h) in *.
    unfold grun. cbn [fold_left gstep]. unfold cli_start at 1, create_new at 1. rewrite F1.
    unfold cli_write at 1. cbn [g_clis]. rewrite !ninsert, !N.eqb_refl. cbn [g_files g_srvs g_runs].
    unfold srv_read at 1. unfold server at 1. cbn [g_srvs]. fold (server v s). rewrite Hv. cbn [g_files].
    rewrite append_at, lookup_insert_eq by apply gname_eqb_spec. rewrite (proj2 (gname_eqb_spec _ _) eq_refl). cbn [app].
    unfold srv_claim at 1. rewrite server_insert, N.eqb_refl. cbn [g_files]. rewrite append_at, lookup_insert_eq by apply gname_eqb_spec. rewrite Hp.
    cbn [g_clis g_srvs g_runs]. do 3 eexists. split; [reflexivity|].
    rewrite lookup_remove_eq by apply gname_eqb_spec. split; [reflexivity|].
    rewrite lookup_remove_neq by (try discriminate; apply gname_eqb_spec). rewrite append_at.
    rewrite lookup_insert_neq by (try discriminate; apply gname_eqb_spec). rewrite F2. split; [reflexivity|].
    intros r. rewrite ninsert, N.eqb_refl. destruct (skipn n json); discriminate. }
  destruct X as (f & c & vs & E & A & B & C). split.
  - apply gone_abandoned.
    + rewrite call_ids_app. apply in_app_iff. right. left. reflexivity.
    + fold h1. rewrite E. split; [exact A|]. split; [exact B|exact C].
  - fold h1. rewrite E. exact F3.
Qed.
Print Assumptions C79_lost_request_refuted.

(** A call that looks while its response is being written takes the file away and drops it: the handler has run, and
    whatever happens then, the call shows nothing. *)
Theorem C79_lost_response_refuted : forall Req Resp parse_req enc_resp parse_resp (handler : nat -> Req -> Resp) h id d,
  distinct_calls h -> whole_requests parse_req h ->
  let s := grun parse_req enc_resp parse_resp handler gs0 h in
  lookup N.eqb id (g_clis s) = Some CliWaiting -> lookup gname_eqb (ResponseFile id) (g_files s) = Some d -> parse_resp d = None ->
  In id (map fst (g_runs s)) /\ abandoned parse_req enc_resp parse_resp handler (h ++ [GCliPoll id false]) id.
Proof.
  intros Req Resp pr er ps hd h id d D W s Hc Hf Hp. pose proof (reach_inv pr er ps hd h D W) as I. split.
  - destruct (gi_resp _ _ _ _ _ _ I id d Hf) as (n & r & _ & H & _). apply in_map_iff. exists (id, r). split; auto. eapply nth_error_In; eauto.
  - apply gone_abandoned.
    + rewrite call_ids_app, in_app_iff. left. destruct (in_dec N.eq_dec id (call_ids h)) as [X|X]; auto.
      pose proof (unknown_id pr er ps hd h id X) as U. fold s in U. congruence.
    + rewrite grun_app. fold s. unfold grun. cbn [fold_left gstep]. unfold cli_poll. rewrite Hc, Hf, Hp. unfold gone, printed. cbn [g_files g_clis].
      rewrite !clear_at, !(proj2 (gname_eqb_spec _ _) eq_refl), orb_true_r, orb_true_l. split; [reflexivity|]. split; [reflexivity|]. congruence.
Qed.
Print Assumptions C79_lost_response_refuted.

(** A small JSON: [id, payload, end mark]. *)
Definition toy_req (d : bytes) : option (N * N) := match d with [i; p; 255] => Some (i, p) | _ => None end.
Definition toy_enc (k r : N) : bytes := [r; 255].
Definition toy_resp (d : bytes) : option N := match d with [r; 255] => Some r | _ => None end.
Definition toy_run := grun toy_req toy_enc toy_resp (fun _ x => x + 1) gs0.
Lemma toy_255 (x : N) {A} (a b : A) : match x with 255 => a | _ => b end = if x =? 255 then a else b.
Proof. destruct x as [|p]; [reflexivity|]. repeat (destruct p as [p|p|]; try reflexivity). Qed.
Example C79_ex_whole : whole_responses toy_enc toy_resp /\ whole_requests toy_req [GCall 1 [1; 7; 255]; GCall 2 [2; 9; 255]] /\
  distinct_calls [GCall 1 [1; 7; 255]; GCall 2 [2; 9; 255]].
Proof.
  split; [|split].
  - intros k r n x. destruct n as [|[|n]]; cbn [firstn toy_enc]; [discriminate|discriminate|]. rewrite firstn_nil. cbn. intros H. injection H as <-. auto.
  - intros id json n k r [H|[H|[]]]; injection H as <- <-; (destruct n as [|[|[|n]]]; cbn [firstn]; try discriminate; rewrite ?firstn_nil; cbn; intros H; injection H as <- <-; auto).
  - unfold distinct_calls. cbn. repeat constructor; cbn; intuition discriminate.
Qed.
(** Two servers, two calls: both look at both requests; each request is run once and answered. *)
Example C79_ex_two :
  let s := toy_run [GCall 1 [1; 7; 255]; GCall 2 [2; 9; 255]; GCliWrite 2 2; GCliWrite 1 3; GRead 10 1; GRead 11 1; GCliWrite 2 1; GClaim 11; GClaim 10;
                    GRead 10 2; GSrvWrite 11 2; GClaim 10; GSrvWrite 10 5; GCliPoll 2 false; GCliPoll 1 false] in
  printed s 1 8 /\ printed s 2 10 /\ g_runs s = [(1, 7); (2, 9)] /\ g_files s = [].
Proof. repeat split. Qed.
(** The hypotheses of the two losses. *)
Example C79_ex_lost_request : toy_req (firstn 0 [1; 7; 255]) = None /\ server 10 (toy_run []) = SrvIdle /\
  g_runs (toy_run [GCall 1 [1; 7; 255]; GCliWrite 1 0; GRead 10 1; GClaim 10; GCliWrite 1 3; GRead 10 1; GClaim 10; GCliPoll 1 true]) = [].
Proof. repeat split. Qed.
Example C79_ex_lost_response :
  let s := toy_run [GCall 1 [1; 7; 255]; GCliWrite 1 3; GRead 10 1; GClaim 10; GSrvWrite 10 1] in
  lookup N.eqb 1 (g_clis s) = Some CliWaiting /\ lookup gname_eqb (ResponseFile 1) (g_files s) = Some [8] /\ toy_resp [8] = None.
Proof. repeat split. Qed.

(** ** C80 *)
(** The server takes some of the goals that were sent, in the order they were sent, none twice. *)
Theorem C80_taken_partial : forall Goal (enc_goal : Goal -> bytes) parse_goal h,
  (forall g, parse_goal (enc_goal g) = Some g) -> some_of (gb_taken (goal_run enc_goal parse_goal box0 h)) (goals_sent h).
Proof. intros. apply taken_some; assumption. Qed.
Print Assumptions C80_taken_partial.

(** If the server looks after every goal before the next is sent, and once at the end, it takes them all. *)
Theorem C80_all_taken : forall Goal (enc_goal : Goal -> bytes) parse_goal h,
  (forall g, parse_goal (enc_goal g) = Some g) -> one_at_a_time h ->
  gb_taken (goal_run enc_goal parse_goal box0 (h ++ [GoalPoll])) = goals_sent h.
Proof. intros. apply all_taken; assumption. Qed.
Print Assumptions C80_all_taken.

(** Of two goals sent before the server looks, the first is never taken, whatever happens before and after. *)
Theorem C80_overwritten_refuted : forall Goal (enc_goal : Goal -> bytes) parse_goal h g g' h',
  (forall x, parse_goal (enc_goal x) = Some x) -> NoDup (goals_sent (h ++ GoalSend g :: GoalSend g' :: h')) ->
  ~ In g (gb_taken (goal_run enc_goal parse_goal box0 (h ++ GoalSend g :: GoalSend g' :: h'))).
Proof.
  intros Goal enc parse h g g' h' R D H. rewrite overwritten in H. eapply some_in in H; [|apply taken_some; exact R].
  unfold goals_sent in *. rewrite flat_map_app in *. cbn [flat_map app] in *. apply NoDup_remove_2 in D. apply D. exact H.
Qed.
Print Assumptions C80_overwritten_refuted.

Example C80_ex : gb_taken (goal_run (fun g : N => [g]) (fun d => match d with [g] => Some g | _ => None end) box0
    [GoalSend 1; GoalPoll; GoalSend 2; GoalSend 3; GoalPoll; GoalPoll]) = [1; 3].
Proof. reflexivity. Qed.
Example C80_ex_one : @one_at_a_time N [GoalSend 1; GoalPoll; GoalSend 2; GoalPoll].
Proof. intros a g g' b H. destruct a as [|x [|y [|z [|w a]]]]; cbn in H; try discriminate. injection H. intros. destruct a; discriminate. Qed.
