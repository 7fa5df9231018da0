(** C75-C78: services. *)
From Coq Require Import String Permutation.
From Verif.Base Require Import Prelude Bytes AMap Str Decimal.
From Verif.Model Require Import Service.
From Verif.Spec Require Import ServiceSpec.
From Verif.Proofs Require Import ServiceProofs.
Local Open Scope N_scope.
Local Open Scope list_scope.

(** ** C75 *)
(** In every history of clients, servers and lost messages: what a call returns is the outcome of a run of the handler
    on exactly the request of that call, whether answer, refusal or panic; or it is a timeout, and its time is over. *)
Theorem C75_answer : forall Req Res (handler : nat -> Req -> HOut Res) can_create svc h s os i c now r,
  fresh_ids h -> srun handler can_create svc sys0 h = (s, os) ->
  nth_error h i = Some (SCheck c now) -> nth_error os i = Some (Some r) ->
  In c (s_calls (fst (srun handler can_create svc sys0 (firstn i h)))) ->
  (r = Err Timeout /\ expired c now) \/ (~ expired c now /\ exists n o, run_for handler s c n o /\ reports o r).
Proof.
  intros Req Res handler can_create svc h s os i c now r F E Hh Ho Hc. apply (@fits_0 Req Res can_create svc) in F.
  pose proof (run_nth handler can_create svc h sys0 i (Some r)) as X. rewrite E in X. destruct (X Ho) as (e & He & Hr).
  rewrite Hh in He. injection He as <-. cbn [sstep] in Hr.
  rewrite <- (firstn_skipn i h) in F. pose proof (fits_prefix can_create svc _ _ _ F) as F1.
  destruct (check_answer handler can_create svc c now _ r (Inv_run handler can_create svc _ _ (Inv_0 handler can_create svc) F1) Hc Hr) as [A|(A & n & o & [B1 B2] & C)]; [left; exact A|].
  right. split; [exact A|]. exists n, o. split; [|exact C]. split; [|exact B2].
  destruct (run_runs handler can_create svc (skipn i h) (fst (srun handler can_create svc sys0 (firstn i h)))) as [l El].
  replace s with (fst (srun handler can_create svc (fst (srun handler can_create svc sys0 (firstn i h))) (skipn i h))).
  - rewrite El. rewrite nth_error_app1; auto. apply nth_error_Some. congruence.
  - rewrite <- (firstn_skipn i h), run_app in E. destruct (srun handler can_create svc sys0 (firstn i h)) as [s1 o1]. cbn [fst].
    destruct (srun handler can_create svc s1 (skipn i h)). injection E as <- _. reflexivity.
Qed.
Print Assumptions C75_answer.

(** Each client has a response topic of its own. *)
Theorem C75_own_topic : forall Req Res (handler : nat -> Req -> HOut Res) can_create svc h,
  fresh_ids h -> NoDup (s_clients (fst (srun handler can_create svc sys0 h))).
Proof.
  intros Req Res handler can_create svc h (A & _ & C). apply (CInv_run handler can_create svc h sys0); auto.
  - split; [constructor|intros ? []].
  - intros pid. specialize (C pid). unfold counter. cbn. lia.
Qed.
Print Assumptions C75_own_topic.

(** Request and client ids collide exactly when the process ids are the same and the counters are 2^32 apart (or equal). *)
Theorem C75_ids : forall p n p' n', process_id_mix p n = process_id_mix p' n' <-> p = p' /\ n mod 2 ^ 32 = n' mod 2 ^ 32.
Proof. intros. split; [apply mix_inj|]. intros [-> E]. unfold process_id_mix. rewrite E. reflexivity. Qed.
Print Assumptions C75_ids.

(** False once two processes have the same id, one after the other, or at the same time in two containers that share the
    topics: the second is given the answer to the first one's request. *)
Definition echo_handler (n : nat) (x : N) : HOut N := HOk (x + 1000).
Definition adder : bytes := bs "add".
Definition topic_7 : bytes := client_topic adder (process_id_mix 7 1).
Definition call_a : Call N := mkCall (process_id_mix 7 1) topic_7 0 100 1.
Definition call_b : Call N := mkCall (process_id_mix 7 1) topic_7 200 100 2.
Theorem C75_same_pid_refuted : exists h, (forall pid, calls_by pid h < 2 ^ 32) /\
  let '(s, os) := srun echo_handler (fun _ => true) adder sys0 h in
  In call_b (s_calls s) /\ nth_error h 6 = Some (SCheck call_b 201) /\ nth_error os 6 = Some (Some (Ok 1001)) /\
  (forall n, echo_handler n (ca_req call_b) = HOk 1002).
Proof.
  exists [SNewClient 7; SCall 7 topic_7 1 0 100 true; SServe 0 true; SRestart 7; SNewClient 7; SCall 7 topic_7 2 200 100 true; SCheck call_b 201].
  split.
  - intros pid. cbn [calls_by]. destruct (7 =? pid); reflexivity.
  - vm_compute. repeat split; auto.
Qed.
Print Assumptions C75_same_pid_refuted.

Example C75_ex : exists h s os, fresh_ids h /\ srun echo_handler (fun _ => true) adder sys0 h = (s, os) /\
  nth_error h 3 = Some (SCheck call_a 5) /\ nth_error os 3 = Some (Some (Ok 1001)) /\
  In call_a (s_calls (fst (srun echo_handler (fun _ => true) adder sys0 (firstn 3 h)))).
Proof.
  exists [SNewClient 7; SCall 7 topic_7 1 0 100 true; SServe 0 true; SCheck call_a 5]. do 2 eexists. split.
  - split; [intros pid [H|[H|[H|[H|[]]]]]; discriminate H|]. split; intros pid; cbn [calls_by clients_by]; destruct (7 =? pid); reflexivity.
  - split; [vm_compute; reflexivity|]. split; [reflexivity|]. split; [reflexivity|]. vm_compute. auto.
Qed.

(** ** C76 *)
(** In every history, with any number of servers: the handler runs only for calls that were made, with the request of
    the call, and at most once for each; no two calls have the same id. *)
Theorem C76_once : forall Req Res (handler : nat -> Req -> HOut Res) can_create svc h s os,
  fresh_ids h -> srun handler can_create svc sys0 h = (s, os) ->
  (forall n id req, nth_error (s_runs s) n = Some (id, req) -> exists c, In c (s_calls s) /\ ca_id c = id /\ ca_req c = req) /\
  (forall n n' id req req', nth_error (s_runs s) n = Some (id, req) -> nth_error (s_runs s) n' = Some (id, req') -> n = n') /\
  NoDup (map ca_id (s_calls s)).
Proof.
  intros Req Res handler can_create svc h s os F E. apply (@fits_0 Req Res can_create svc) in F. pose proof (Inv_run handler can_create svc h sys0 (Inv_0 handler can_create svc) F) as I.
  rewrite E in I. cbn [fst] in I. split; [|split].
  - intros n id req H. destruct (inv_runs handler s I n id req H) as (t & c & A & B & C & _). eauto.
  - intros n n' id req req' H H'. pose proof (inv_moving handler s I) as M. apply NoDup_right in M. rewrite NoDup_nth_error in M. apply M.
    + rewrite map_length. apply nth_error_Some. congruence.
    + rewrite !nth_error_map, H, H'. reflexivity.
  - apply I.
Qed.
Print Assumptions C76_once.
(** With no assumption on the ids, processes taking over the ids of others included: the calls made, each with its
    request, are, one by one, those the handler has run, those still waiting, and some that were lost. *)
Theorem C76_once_always : forall Req Res (handler : nat -> Req -> HOut Res) can_create svc h s os,
  srun handler can_create svc sys0 h = (s, os) ->
  exists lost, Permutation (map (fun c => (ca_id c, ca_req c)) (s_calls s))
                           (s_runs s ++ map (fun rq => (rq_id rq, rq_payload rq)) (s_queue s) ++ lost).
Proof.
  intros Req Res handler can_create svc h s os E. pose proof (Accounted_run handler can_create svc h sys0) as A. rewrite E in A. apply A. exists []. constructor.
Qed.
Print Assumptions C76_once_always.
(** The same process id twice, both calls with the same id: both are run, each once. *)
Example C76_ex_always : let h := [SCall 7 topic_7 1 0 10 true; SRestart 7; SCall 7 topic_7 2 0 10 true; SServe 0 true; SServe 1 true; SServe 0 true] in
  map snd (s_runs (fst (srun (Res := N) (fun _ x => HOk x) (fun _ => true) adder sys0 h))) = [1; 2].
Proof. reflexivity. Qed.
(** What [call_resilient] returns is the result of its last call; the earlier ones all failed for a passing reason; it
    gives up after the given number of retries and goes on after no lasting failure. *)
Theorem C76_resilient : forall Res max (attempts : nat -> Result Res) r n, call_resilient max attempts = (r, n) ->
  (1 <= n <= S max)%nat /\ r = attempts (n - 1)%nat /\
  (forall i, (i < n - 1)%nat -> attempts i = Err Timeout \/ exists m, attempts i = Err (Transport m)) /\
  (n = S max \/ (exists v, r = Ok v) \/ (exists m, r = Err (ServiceFailed m)) \/ r = Err NoServer).
Proof.
  intros Res max attempts r n H. apply resilient_spec in H as (A & B & C & D). split; [exact A|]. split; [exact B|]. split.
  - intros i Hi. destruct (C i Hi) as (e & E & T). destruct e; try discriminate; eauto.
  - destruct D as [D|[D|(e & -> & T)]]; auto. destruct e; try discriminate; eauto 6.
Qed.
Print Assumptions C76_resilient.
(** False of [call_resilient]: the handler runs at most once.  A server that is merely slow runs it once for every
    attempt: for every number of retries there is a history in which each attempt timed out and the handler then ran
    once more than that. *)
Fixpoint attempts_at (k : nat) (req now : N) : list (sev N) :=
  match k with O => [] | S j => SCall 7 topic_7 req now 10 true :: attempts_at j req (now + 20) end.
Theorem C76_resilient_refuted : forall handler can_create max req,
  let s := fst (srun (Res := N) handler can_create adder sys0 (attempts_at (S max) req 0 ++ repeat (SServe 0 true) (S max))) in
  length (s_calls s) = S max /\ length (s_runs s) = S max /\ (forall x, In x (map snd (s_runs s)) -> x = req) /\
  (forall i c, nth_error (s_calls s) i = Some c -> ca_req c = req /\ ca_sent c = 20 * N.of_nat i /\ ca_timeout c = 10 /\
     expired c (20 * N.of_nat i + 10)).
Proof.
  intros handler can_create max req. rewrite run_app.
  set (n := S max).
  assert (A : forall k now s, exists os, srun handler can_create adder s (attempts_at k req now) = (fst (srun handler can_create adder s (attempts_at k req now)), os) /\
     length (s_queue (fst (srun (Res := N) handler can_create adder s (attempts_at k req now)))) = (length (s_queue s) + k)%nat /\
     s_runs (fst (srun handler can_create adder s (attempts_at k req now))) = s_runs s /\
     (forall rq, In rq (s_queue (fst (srun handler can_create adder s (attempts_at k req now)))) -> In rq (s_queue s) \/ rq_payload rq = req) /\
     exists l, s_calls (fst (srun handler can_create adder s (attempts_at k req now))) = s_calls s ++ l /\ length l = k /\
       forall i c, nth_error l i = Some c -> ca_req c = req /\ ca_sent c = now + 20 * N.of_nat i /\ ca_timeout c = 10).
  { induction k as [|k IH]; intros now s; cbn [attempts_at srun].
    - eexists. split; [reflexivity|]. split; [cbn; lia|]. split; [reflexivity|]. split; [auto|]. exists []. rewrite app_nil_r. split; [reflexivity|]. split; [reflexivity|].
      intros i c H. destruct i; discriminate.
    - cbn [sstep]. set (s1 := fst (start_call 7 topic_7 req now 10 true s)). destruct (IH (now + 20) s1) as (os & E & Q & R & P & l & C & L & D).
      destruct (srun handler can_create adder s1 (attempts_at k req (now + 20))) as [s2 os2]. cbn [fst] in *. eexists. split; [reflexivity|].
      split. { rewrite Q. unfold s1. cbn [start_call fst s_queue]. rewrite app_length. cbn. lia. }
      split. { rewrite R. reflexivity. }
      split. { intros rq H. apply P in H as [H|H]; auto. unfold s1 in H. cbn [start_call fst s_queue] in H. apply in_app_iff in H as [H|[<-|[]]]; auto. }
      eexists (_ :: l). split. { rewrite C. unfold s1. cbn [start_call fst s_calls]. rewrite <- app_assoc. reflexivity. }
      split; [cbn; lia|]. intros [|i] c H; cbn [nth_error] in H.
      + injection H as <-. cbn. split; [auto|]. split; [lia|auto].
      + apply D in H as (H1 & H2 & H3). split; auto. split; auto. lia. }
  assert (B : forall k s, length (s_queue s) = k -> (forall rq, In rq (s_queue s) -> rq_payload rq = req) ->
     let s' := fst (srun (Res := N) handler can_create adder s (repeat (SServe 0 true) k)) in
     length (s_runs s') = (length (s_runs s) + k)%nat /\ s_calls s' = s_calls s /\ forall x, In x (map snd (s_runs s')) -> In x (map snd (s_runs s)) \/ x = req).
  { induction k as [|k IH]; intros s Hq Hp; cbn [repeat srun]. { cbn. split; [lia|]. auto. }
    cbn [sstep]. set (s1 := serve handler can_create adder 0 true s). destruct (s_queue s) as [|rq q] eqn:Eq; [discriminate|].
    assert (S1 : s_queue s1 = q /\ s_runs s1 = s_runs s ++ [(rq_id rq, rq_payload rq)] /\ s_calls s1 = s_calls s).
    { unfold s1, serve. rewrite Eq. destruct (rq_topic rq); auto. }
    destruct S1 as (S1 & S2 & S3). cbn in Hq. specialize (IH s1). rewrite S1 in IH. destruct IH as (I1 & I2 & I3); [lia|intros; apply Hp; right; auto|].
    destruct (srun handler can_create adder s1 _) as [s2 os]. cbn [fst] in *. rewrite I1, I2, S2, S3. split; [rewrite app_length; cbn; lia|]. split; auto.
    intros x H. apply I3 in H as [H|H]; auto. rewrite S2, map_app in H. apply in_app_iff in H as [H|[<-|[]]]; auto. right. apply Hp. left; auto. }
  destruct (A n 0 sys0) as (os & E & Q & R & P & l & C & L & D). rewrite E. set (s1 := fst _) in *.
  destruct (B n s1) as (B1 & B2 & B3). { rewrite Q. reflexivity. } { intros rq H. apply P in H as [[]|H]; auto. }
  destruct (srun handler can_create adder s1 (repeat (SServe 0 true) n)) as [s2 o2]. cbn [fst] in *. rewrite B1, B2, C, R. cbn [app sys0 s_calls s_runs length].
  split; [exact L|]. split; [reflexivity|]. split.
  - intros x H. apply B3 in H as [H|H]; auto. rewrite R in H. destruct H.
  - intros i c H. apply D in H as (H1 & H2 & H3). split; auto. rewrite N.add_0_l in H2. split; auto. split; auto. unfold expired. rewrite H2, H3. lia.
Qed.
Print Assumptions C76_resilient_refuted.
Example C76_ex : call_resilient 3 (fun i => if (i <? 2)%nat then Err Timeout else Ok 5) = (Ok 5, 3%nat).
Proof. reflexivity. Qed.

(** ** C77 *)
(** As long as the calls name no more than 64 response topics: one pass of any server over at most a thousand waiting
    requests, with nothing lost, answers each of them; a caller that then polls before its deadline passes over the
    answers to its earlier calls and gets the outcome of the handler on its own request. *)
Theorem C77_answered_partial : forall Req Res (handler : nat -> Req -> HOut Res) can_create svc h s os c srv,
  fresh_ids h -> few_clients can_create h -> srun handler can_create svc sys0 h = (s, os) ->
  waiting s c -> (length (s_queue s) <= 1000)%nat ->
  let s' := serve_pass handler can_create svc srv PASS_LIMIT (fun _ => true) s in
  exists k n r, run_for handler s' c n (handler n (ca_req c)) /\ reports (handler n (ca_req c)) r /\
    forall times, length times = S k -> (forall now, In now times -> ~ expired c now) ->
      snd (srun handler can_create svc s' (map (SCheck c) times)) = repeat None k ++ [Some r].
Proof.
  intros Req Res handler can_create svc h s os c srv F (names & Hl & Hc & Hn) E Hw Hq.
  assert (HL : (1000 <= PASS_LIMIT)%nat) by (apply Nat.leb_le; reflexivity). revert HL. generalize PASS_LIMIT. intros lim HL s'. apply (@fits_0 Req Res can_create svc) in F.
  pose proof (Inv_run handler can_create svc h sys0 (Inv_0 handler can_create svc) F) as I. rewrite E in I. cbn [fst] in I.
  pose proof (Few_run handler can_create svc names Hl Hc h sys0 (Few_0 names) Hn) as Fw. rewrite E in Fw. cbn [fst] in Fw.
  apply in_split in Hw as (pre & post & Eq).
  destruct (pass_answers handler can_create svc names Hl Hc srv lim s c pre post I Fw Eq) as (n & Hr & Hb).
  { rewrite Eq, app_length in Hq. cbn [length] in Hq. lia. }
  fold s' in Hr, Hb. pose proof (pass_Inv handler can_create svc srv (fun _ => true) lim s I) as I'. fold s' in I'.
  destruct (split_response (box s' (ca_topic c)) (ca_id c) _ (inv_boxes handler s' I' _) Hb (rp_id_of _ _)) as (before & after & Eb & Nb).
  exists (length before), n, (result_of (response_of (ca_id c) (handler n (ca_req c)))). split; [split; auto|]. split; [apply reports_result|].
  intros times Ht Hx. eapply (checks_find handler can_create svc names Hl Hc); eauto. apply rp_id_of.
Qed.
Print Assumptions C77_answered_partial.

(** Without the bound this is false, for ever: a server that has answered 64 clients, even if they are all gone, never
    answers another one, whatever happens afterwards. *)
Theorem C77_cap_refuted : forall Req Res (handler : nat -> Req -> HOut Res) can_create svc h0 s0 os0 srv t h,
  fresh_ids h0 -> srun handler can_create svc sys0 h0 = (s0, os0) -> (64 <= length (opened s0 srv))%nat -> ~ In t (opened s0 srv) -> box s0 t = [] ->
  (forall srv' d, In (SServe srv' d) h -> srv' = srv) ->
  never_answered h (snd (srun handler can_create svc s0 h)) (fun c => ca_topic c = t).
Proof.
  intros Req Res handler can_create svc h0 s0 os0 srv t h F E Hl Hn Hb Hs. apply (@fits_0 Req Res can_create svc) in F.
  pose proof (Inv_run handler can_create svc h0 sys0 (Inv_0 handler can_create svc) F) as I. rewrite E in I. cbn [fst] in I.
  apply (refused_never handler can_create svc s0 h srv t); auto. split; auto. split; auto. split; auto.
  intros rq H. destruct (inv_queue handler s0 I rq H) as (u & -> & _). discriminate.
Qed.
Print Assumptions C77_cap_refuted.
(** Such a server: 64 clients made one call each, all were answered and read, and nothing is left over. *)
Definition one_call (k : N) : list (sev N) :=
  let t := client_topic adder (process_id_mix 7 k) in
  [SNewClient 7; SCall 7 t k 0 100 true; SServe 0 true; SCheck (mkCall (process_id_mix 7 k) t 0 100 k) 1].
Definition sixty_four : list (sev N) := flat_map one_call (map N.of_nat (seq 1 64)).
Lemma sixty_four_fresh : fresh_ids sixty_four.
Proof.
  split; [|split].
  - intros pid H. unfold sixty_four in H. apply in_flat_map in H as (k & _ & [H|[H|[H|[H|[]]]]]); discriminate H.
  - intros pid. assert (X : calls_by pid sixty_four = if 7 =? pid then 64 else 0).
    { unfold sixty_four, one_call. cbn [flat_map map seq app calls_by]. destruct (7 =? pid); reflexivity. }
    rewrite X. destruct (7 =? pid); reflexivity.
  - intros pid. assert (X : clients_by pid sixty_four = if 7 =? pid then 64 else 0).
    { unfold sixty_four, one_call. cbn [flat_map map seq app clients_by]. destruct (7 =? pid); reflexivity. }
    rewrite X. destruct (7 =? pid); reflexivity.
Qed.
Example C77_ex_cap : let '(s, os) := srun echo_handler (fun _ => true) adder sys0 sixty_four in
  length (opened s 0) = 64%nat /\ existsb (beqb (client_topic adder (process_id_mix 8 1))) (opened s 0) = false /\
  box s (client_topic adder (process_id_mix 8 1)) = [] /\ s_queue s = [] /\ forallb (fun tb => (length (snd tb) =? 0)%nat) (s_box s) = true /\
  length (filter (fun o => match o with Some (Ok _) => true | _ => false end) os) = 64%nat.
Proof. vm_compute. repeat split. Qed.
(** Also false: an answer that reached the client before the deadline is reported.  A caller that looks only after the
    deadline is told of a timeout, and the answer stays in the topic. *)
Theorem C77_late_check_refuted : forall Req Res (s : Sys Req Res) c now p rest, box s (ca_topic c) = p :: rest -> rp_id p = ca_id c ->
  expired c now -> check c now s = (s, Some (Err Timeout)).
Proof. intros Req Res s c now p rest _ _ H. unfold check. unfold expired in H. rewrite (proj2 (N.leb_le _ _) H). reflexivity. Qed.
Print Assumptions C77_late_check_refuted.
Example C77_ex : few_clients (fun _ => true) [SNewClient 7; SCall 7 topic_7 1 0 100 true] /\
  waiting (fst (srun echo_handler (fun _ => true) adder sys0 [SNewClient 7; SCall 7 topic_7 1 0 100 true])) call_a.
Proof.
  split.
  - exists [topic_7]. split; [cbn; lia|]. split; auto. intros pid t req now timeout d [H|[H|[]]]; inversion H; subst. left. reflexivity.
  - left. reflexivity.
Qed.

(** ** C78 *)
(** False: each of several calls a client has in progress gets its answer.  If one of them looks while the answer to
    another is next in the client's topic, it throws that answer away: whatever happens afterwards, the other call never
    gets one. *)
Theorem C78_overlapping_refuted : forall Req Res (handler : nat -> Req -> HOut Res) can_create svc h1 s1 os1 c1 c2 now p rest h2,
  fresh_ids (h1 ++ SCheck c1 now :: h2) -> srun handler can_create svc sys0 h1 = (s1, os1) ->
  In c1 (s_calls s1) -> In c2 (s_calls s1) -> c1 <> c2 -> ca_topic c1 = ca_topic c2 -> ~ expired c1 now ->
  box s1 (ca_topic c2) = p :: rest -> rp_id p = ca_id c2 ->
  never_answered h2 (snd (srun handler can_create svc (fst (check c1 now s1)) h2)) (fun c => ca_id c = ca_id c2).
Proof.
  intros Req Res handler can_create svc h1 s1 os1 c1 c2 now p rest h2 F E H1 H2 Hd Ht Hx Hb Hp. apply (@fits_0 Req Res can_create svc) in F.
  pose proof (fits_prefix can_create svc _ _ _ F) as F1. pose proof (fits_suffix handler can_create svc h1 sys0 _ F) as F2.
  pose proof (Inv_run handler can_create svc h1 sys0 (Inv_0 handler can_create svc) F1) as I. rewrite E in I, F2. cbn [fst] in I, F2.
  apply (lost_never handler can_create svc).
  - apply Inv_check, I.
  - apply (fits_step handler can_create svc s1 (SCheck c1 now) h2 F2).
  - assert (Ec : fst (check c1 now s1) = mkSys (s_next_req s1) (s_next_client s1) (s_queue s1) (insert beqb (ca_topic c1) rest (s_box s1)) (s_open s1) (s_runs s1) (s_calls s1) (s_clients s1)).
    { unfold check. unfold expired in Hx. rewrite (proj2 (N.leb_gt _ _)) by lia. rewrite Ht, Hb. reflexivity. }
    rewrite Ec. split; cbn [s_runs].
    + destruct (inv_box handler s1 I (ca_topic c2) p) as (n & req & A & _). { rewrite Hb. left; auto. }
      apply in_map_iff. exists (rp_id p, req). split; [exact Hp|]. eapply nth_error_In; eauto.
    + intros t q. rewrite box_insert. pose proof (inv_boxes handler s1 I (ca_topic c2)) as N. rewrite Hb in N. cbn [map] in N. inversion N; subst.
      destruct (beqb t (ca_topic c1)) eqn:Eb.
      * intros Hq Eq. apply H3. rewrite Hp, <- Eq. apply in_map. exact Hq.
      * intros Hq Eq. destruct (inv_box handler s1 I t q Hq) as (n & req & A & O & _). rewrite Eq in O.
        destruct (owned_fun s1 (ca_id c2) req t (ca_req c2) (ca_topic c2) (inv_ids handler s1 I) O) as [_ ->]; [exists c2; auto|].
        rewrite Ht in Eb. rewrite (proj2 (beqb_spec _ _) eq_refl) in Eb. discriminate.
Qed.
Print Assumptions C78_overlapping_refuted.
Definition call_c : Call N := mkCall (process_id_mix 7 2) topic_7 0 100 2.
(** It happens with two calls whose answers arrive in the order of the calls, when the later one is looked at first. *)
Example C78_ex :
  let h1 := [SNewClient 7; SCall 7 topic_7 1 0 100 true; SCall 7 topic_7 2 0 100 true; SServe 0 true; SServe 0 true] in
  let s1 := fst (srun echo_handler (fun _ => true) adder sys0 h1) in
  In call_c (s_calls s1) /\ In call_a (s_calls s1) /\ (exists p rest, box s1 topic_7 = p :: rest /\ rp_id p = ca_id call_a) /\
  snd (srun echo_handler (fun _ => true) adder s1 [SCheck call_c 1; SCheck call_c 2; SCheck call_a 3; SCheck call_a 4]) = [None; Some (Ok 1002); None; None].
Proof. vm_compute. repeat split; eauto. Qed.
