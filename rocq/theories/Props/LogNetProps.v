(** Properties of log entries sent to other machines: C120. *)
From Coq Require Import String.
From Verif.Base Require Import Prelude Bytes Str.
From Verif.Model Require Import LogEntry LogNet.
From Verif.Spec Require Import LogNetSpec.
From Verif.Proofs Require Import LogNetProofs.
Local Open Scope N_scope.
Local Open Scope list_scope.

Lemma inv_start n0 level host log : n0 = length log -> inv n0 level host (mkL log (drain_new n0 level host) []) [] [].
Proof.
  intros ->. unfold inv, drain_new, holding. cbn [l_drain l_log l_out ld_level ld_host ld_last ld_batch ld_count map flat_map concat app length]. repeat split; auto; try lia.
  rewrite firstn_all, skipn_all. reflexivity.
Qed.
Lemma groups_carried level gs pend es : Forall carried_entry es -> concat gs ++ pend = wanted level es -> Forall (Forall carried_entry) gs.
Proof.
  intros F E. apply Forall_forall. intros g I. apply Forall_forall. intros e J. rewrite Forall_forall in F. apply F.
  assert (X : In e (wanted level es)) by (rewrite <- E; apply in_or_app; left; apply in_concat; eauto). apply filter_In in X as [X _]. exact X.
Qed.
(** What other machines get, with what the sender still holds after a poll, is exactly the entries of the level, each once and in order; it holds fewer than 64, and none if 100 ms
    have passed since it last sent. *)
Theorem C120_every lossy cap level host log0 ops late : (forall s, utf8 s = true -> lossy s = s) -> carried host -> level <> LNone -> N.of_nat cap <= 50000 -> undisturbed ops -> keeps_up cap 0 ops -> Forall carried_entry (pushed ops) ->
  let s := lrun cap (mkL log0 (drain_new (length log0) level host) []) (ops ++ [LPoll [] late]) in
  exists got pend, received lossy (l_out s) = Some got /\ N.of_nat (length pend) < 64 /\ (late = true -> pend = []) /\
    got ++ map (image host) pend = map (image host) (filter (fun e => should_replicate level (le_type e)) (pushed ops)).
Proof.
  intros U H Nn Cap Un K F s. destruct (lrun_inv (length log0) level host cap Nn Cap ops _ [] [] (inv_start _ level host log0 eq_refl) Un) as (gs & pend & I & L & C); cbn [l_log l_drain drain_new ld_last]; [rewrite Nat.sub_diag; exact K|lia|].
  unfold s, lrun. rewrite fold_left_app. cbn [fold_left]. fold (lrun cap (mkL log0 (drain_new (length log0) level host) []) ops). set (s1 := lrun cap _ ops) in *.
  destruct (lstep_poll (length log0) level host cap s1 late gs pend Nn Cap C I) as (gs' & pend' & I' & P & Q). cbn [l_log] in L.
  assert (Lg : l_log (lstep cap s1 (LPoll [] late)) = l_log s1) by (cbn [lstep]; rewrite app_nil_r; destruct (poll _ _ _ _ _); reflexivity).
  destruct I' as (_ & _ & _ & _ & I3 & I4 & I5 & I6). rewrite P, Lg, firstn_all, L, skipn_app, skipn_all, Nat.sub_diag in I6. cbn [skipn app] in I6.
  exists (map (image host) (concat gs')), pend'. split; [|split; [exact I3|split; [exact Q|]]].
  - rewrite I4. apply received_groups; auto. pose proof (groups_carried level gs' pend' (pushed ops) F I6) as G. apply Forall_forall. intros g Ig. rewrite Forall_forall in G, I5. auto.
  - rewrite <- map_app, I6. reflexivity.
Qed.
Print Assumptions C120_every.
(** Which entries a level sends. *)
Theorem C120_level l t : should_replicate l t = true <-> l = LDebug \/ (l = LInfo /\ (t = Info \/ t = Warning \/ t = Error)) \/ (l = LWarning /\ (t = Warning \/ t = Error)) \/ (l = LError /\ t = Error).
Proof. destruct l, t; cbn [should_replicate]; split; intros H; try discriminate; auto 10; intuition discriminate. Qed.
Print Assumptions C120_level.
Lemma text_at_pos data pos s p : text_at data pos = inl (s, p) -> (pos + 2 + length s = p /\ p <= length data)%nat.
Proof.
  unfold text_at, sub. destruct (length data <? pos + 2)%nat eqn:A; [discriminate|]. destruct (pos + 2 <=? length data)%nat; [|discriminate]. set (n := N.to_nat _). destruct (length data <? pos + 2 + n)%nat eqn:B; [discriminate|].
  destruct (pos + 2 + n <=? length data)%nat eqn:C; [|discriminate]. intros X. injection X as <- <-. apply Nat.leb_le in C. unfold slice. rewrite firstn_length, skipn_length. lia.
Qed.
Lemma entries_at_room lossy host data : forall count pos l, entries_at lossy host data pos count = Some l -> l = [] \/ (pos + 5 * length l <= length data)%nat.
Proof.
  induction count as [|c IH]; intros pos l H; cbn [entries_at] in H; [injection H as <-; auto|]. destruct (text_at data pos) as [[name p1]|[|]] eqn:T1; [|discriminate|injection H as <-; auto]. apply text_at_pos in T1 as [A1 A2].
  destruct (length data <=? p1)%nat eqn:L; [injection H as <-; auto|]. destruct (nth_error data p1); [|discriminate]. destruct (text_at data (p1 + 1)) as [[msg p2]|[|]] eqn:T2; [|discriminate|injection H as <-; auto]. apply text_at_pos in T2 as [B1 B2].
  destruct (entries_at lossy host data p2 c) as [r|] eqn:E; [|discriminate]. injection H as <-. right. cbn [length]. destruct (IH _ _ E) as [-> | C]; cbn [length]; lia.
Qed.
(** Whatever bytes a machine receives, it does not crash; it gets at most one entry for five bytes, all under one host. *)
Theorem C120_safe lossy data : exists l, handle_remote_logs lossy data = Some l /\ (l = [] \/ 4 + 5 * length l <= length data)%nat /\ exists host, forall r, In r l -> exists name, rm_name r = host ++ bs "/" ++ name.
Proof.
  pose proof (handle_ok lossy data) as K. destruct (handle_remote_logs lossy data) as [l|] eqn:E; [|congruence]. exists l. split; [reflexivity|]. clear K. unfold handle_remote_logs in E.
  assert (Z : Some [] = Some l -> (l = [] \/ 4 + 5 * length l <= length data)%nat /\ exists host, forall r, In r l -> exists name, rm_name r = host ++ bs "/" ++ name) by (intros X; injection X as <-; split; [auto|exists []; intros r []]).
  destruct (length data <? 4)%nat; [auto|]. destruct (text_at data 0) as [[host p1]|[|]] eqn:T; [|discriminate|auto]. apply text_at_pos in T as [A1 A2]. destruct (length data <? p1 + 2)%nat; [auto|]. destruct (sub data p1 2) as [w|]; [|discriminate].
  destruct (entries_at_count _ _ _ _ _ _ E) as [_ B]. destruct (entries_at_room _ _ _ _ _ _ E) as [-> | C]; (split; [first [left; reflexivity|right; lia]|]); exists (lossy host); exact B.
Qed.
Print Assumptions C120_safe.
(** An entry pushed between a poll's two looks at the log is sent twice. *)
Theorem C120_twice_refuted lossy cap level host a e : (forall s, utf8 s = true -> lossy s = s) -> carried host -> carried_entry a -> carried_entry e -> (2 <= cap)%nat -> should_replicate level (le_type a) = true -> should_replicate level (le_type e) = true ->
  received lossy (l_out (lrun cap (mkL [] (drain_new 0 level host) []) [LPush a; LPoll [e] true; LPoll [] true])) = Some [image host a; image host e; image host e].
Proof.
  intros U H Ca Ce Cap Sa Se. assert (Nn : level <> LNone) by (intros ->; discriminate Sa).
  assert (X : l_out (lrun cap (mkL [] (drain_new 0 level host) []) [LPush a; LPoll [e] true; LPoll [] true]) = map (payload host) [[a; e]; [e]]).
  { assert (P1 : poll cap (drain_new 0 level host) 1 [a; e] true = (drain_new 1 level host, Some (payload host [a; e]))).
    { rewrite poll_flush by exact Nn. unfold take_new. cbn [drain_new ld_last ld_level Nat.ltb Nat.leb ld_batch ld_count ld_host]. unfold since. cbn [length].
      replace (Nat.max 0 (2 - cap)) with 0%nat by lia. cbn [skipn filter]. rewrite Sa, Se. reflexivity. }
    assert (P2 : poll cap (drain_new 1 level host) 2 [a; e] true = (drain_new 2 level host, Some (payload host [e]))).
    { rewrite poll_flush by exact Nn. unfold take_new. cbn [drain_new ld_last ld_level Nat.ltb Nat.leb ld_batch ld_count ld_host]. unfold since. cbn [length].
      replace (Nat.max 1 (2 - cap)) with 1%nat by lia. cbn [skipn filter]. rewrite Se. reflexivity. }
    unfold lrun. cbn [fold_left lstep l_log l_drain l_out app length]. rewrite P1. cbn [l_log l_drain l_out app length]. rewrite P2. reflexivity. }
  rewrite X, (received_groups lossy host _ U H); [reflexivity|].
  constructor; [split; [constructor; [exact Ca|constructor; [exact Ce|constructor]]|cbn; lia]|]. constructor; [split; [constructor; [exact Ce|constructor]|cbn; lia]|constructor].
Qed.
Print Assumptions C120_twice_refuted.
Lemma batch_len es : N.of_nat (length (flat_map enc_entry es)) = fold_right (fun e n => 5 + N.of_nat (length (le_node e)) + N.of_nat (length (le_message e)) + n) 0 es.
Proof. induction es as [|e r IH]; cbn [flat_map fold_right]; [reflexivity|]. rewrite app_length, enc_entry_len. lia. Qed.
(** All new entries of a poll go into one datagram however many they are: when that is too big it is not sent, and none of them ever is. *)
Theorem C120_burst_refuted cap level host es late : (length es <= cap)%nat -> 64 <= N.of_nat (length es) -> Forall (fun e => should_replicate level (le_type e) = true) es ->
  65507 < 40 + N.of_nat (length host) + fold_right (fun e n => 5 + N.of_nat (length (le_node e)) + N.of_nat (length (le_message e)) + n) 0 es ->
  let s := lrun cap (mkL [] (drain_new 0 level host) []) (map LPush es ++ [LPoll [] late]) in
  (exists p, l_out s = [p] /\ sent_payload p = None) /\ l_drain s = drain_new (length es) level host.
Proof.
  intros Cap M F B s. assert (Nn : level <> LNone) by (intros ->; destruct F; [cbn in M; lia|discriminate]).
  assert (P : forall es l d o, fold_left (lstep cap) (map LPush es) (mkL l d o) = mkL (l ++ es) d o) by (induction es0 as [|e r IH]; intros l d o; cbn [map fold_left lstep l_log l_drain l_out]; [rewrite app_nil_r; reflexivity|rewrite IH, <- app_assoc; reflexivity]).
  assert (W : filter (fun e => should_replicate level (le_type e)) es = es) by (clear -F; induction F as [|e r A F IH]; cbn [filter]; [reflexivity|rewrite A, IH; reflexivity]).
  unfold s, lrun. rewrite fold_left_app, P. cbn [fold_left lstep l_log l_drain l_out app]. rewrite app_nil_r, poll_flush by exact Nn. unfold take_new. cbn [drain_new ld_last ld_level ld_batch ld_count ld_host].
  replace (0 <? length es)%nat with true by (symmetry; apply Nat.ltb_lt; lia). unfold since. replace (Nat.max 0 (length es - cap)) with 0%nat by lia. cbn [skipn]. rewrite W. unfold flush. cbn [ld_count ld_last ld_level ld_batch ld_host app].
  replace (MAX_BATCH_SIZE <=? 0 + N.of_nat (length es)) with true by (symmetry; apply N.leb_le; unfold MAX_BATCH_SIZE; lia). cbn [orb l_out l_drain app]. split; [|reflexivity]. eexists. split; [reflexivity|].
  unfold sent_payload. rewrite !app_length, enc16_len, le_enc_length, !Nat2N.inj_add, batch_len. replace (MAX_UDP_PAYLOAD <? _) with true; [reflexivity|symmetry; apply N.ltb_lt; unfold MAX_UDP_PAYLOAD; lia].
Qed.
Print Assumptions C120_burst_refuted.
(** Nothing ties the host that stands before a name to the sender: any machine can send entries of any other. *)
Theorem C120_forge_refuted lossy victim e : (forall s, utf8 s = true -> lossy s = s) -> carried victim -> carried_entry e -> handle_remote_logs lossy (enc16 victim ++ le_enc 2 1 ++ enc_entry e) = Some [image victim e].
Proof. intros U H C. pose proof (payload_back lossy victim [e] U H) as P. unfold payload in P. cbn [length flat_map map] in P. rewrite app_nil_r in P. apply P; [constructor; [exact C|constructor]|cbn; lia]. Qed.
Print Assumptions C120_forge_refuted.

(** *** Cases that meet the hypotheses *)
(** An entry with a name of [n] letters and a text of [m]. *)
Definition some_entry (t : log_type) (n m : nat) : entry := {| le_timestamp := []; le_tick := 0; le_node := repeat 110 n; le_type := t; le_topic := None; le_message := repeat 109 m; le_tick_us := 0; le_ipc_ns := 0 |}.
(** A host, an error and a warning are carried; a history in which a warning is pushed, polled, then an error, is undisturbed and kept up with. *)
Example C120_ex : carried (bs "00a1") /\ carried_entry (some_entry Error 4 9) /\ undisturbed [LPush (some_entry Warning 4 9); LPoll [] false; LPush (some_entry Error 3 2)] /\ keeps_up 2 0 [LPush (some_entry Warning 4 9); LPoll [] false; LPush (some_entry Error 3 2)] /\
  received (fun s => s) (l_out (lrun 2 (mkL [] (drain_new 0 LWarning (bs "00a1")) []) ([LPush (some_entry Warning 4 9); LPoll [] false; LPush (some_entry Error 3 2); LPush (some_entry Info 1 1)] ++ [LPoll [] true]))) = Some [image (bs "00a1") (some_entry Warning 4 9); image (bs "00a1") (some_entry Error 3 2)].
Proof. repeat split; cbn; try lia; reflexivity. Qed.
(** 200 warnings of full length are one datagram that is too big. *)
Example C120_burst_ex : (length (repeat (some_entry Warning 63 279) 200) <= 5000)%nat /\ 64 <= N.of_nat (length (repeat (some_entry Warning 63 279) 200)) /\ Forall (fun e => should_replicate LWarning (le_type e) = true) (repeat (some_entry Warning 63 279) 200) /\
  65507 < 40 + N.of_nat (length (bs "00a1")) + fold_right (fun e n => 5 + N.of_nat (length (le_node e)) + N.of_nat (length (le_message e)) + n) 0 (repeat (some_entry Warning 63 279) 200).
Proof. split; [rewrite repeat_length; lia|]. split; [rewrite repeat_length; lia|]. split; [apply Forall_forall; intros e I; apply repeat_spec in I as ->; reflexivity|vm_compute; reflexivity]. Qed.
