(** Properties of recordings and replays: C81, C82, C83, C86, C87. *)
From Coq Require Import String.
From Verif.Base Require Import Prelude Bytes AMap Str.
From Verif.Model Require Import Recording.
From Verif.Spec Require Import RecordingSpec.
From Verif.Proofs Require Import RecordingProofs.
Local Open Scope N_scope.
Local Open Scope list_scope.

(** ** C81: what is recorded *)
(** Of the ticks the interval asks for, the longest beginning [p] that fits the size limit is recorded, each with its number, its time, its messages;
    of those, the newest [max_snapshots] are kept. *)
Theorem C81_recorded name id session cfg ts : Forall tidy ts -> exists p q,
  wanted cfg ts = p ++ q /\ fits cfg p /\ (forall t q', q = t :: q' -> ~ fits cfg (p ++ [t])) /\
  Forall2 (seen cfg) (newest (cf_max_snaps cfg) p) (r_snaps (recording_of name id session cfg ts)).
Proof.
  intros T. destruct (recording_spec name id session cfg ts T) as (p & q & W & F & N & S). exists p, q. repeat (split; [assumption|]). rewrite S, newest_map.
  induction (newest (cf_max_snaps cfg) p); cbn [map]; constructor; auto. apply snap_of_seen.
Qed.
Print Assumptions C81_recorded.
(** The first and the last tick the recording names are those of its first and last snapshot. *)
Theorem C81_bounds name id session cfg ts s l : Forall tidy ts -> r_snaps (recording_of name id session cfg ts) = s :: l ->
  r_first (recording_of name id session cfg ts) = sn_tick s /\ r_last (recording_of name id session cfg ts) = sn_tick (last l s).
Proof.
  intros T E. destruct (recording_bounded name id session cfg ts T) as [A B]. rewrite E in A, B. split; [exact A|].
  destruct l as [|x l]; [apply (B [] s); reflexivity|]. assert (Hn : x :: l <> []) by discriminate. destruct (exists_last Hn) as (l' & z & Z). rewrite Z, last_last. apply (B (s :: l') z). cbn [app]. rewrite Z. reflexivity.
Qed.
Print Assumptions C81_bounds.
(** Refuted: "with a limit on the number of snapshots the recording keeps the newest ones".  The size limit counts the
    snapshots that have been dropped too: once enough ticks went by, whatever is kept, nothing is ever recorded again. *)
Theorem C81_ring_stops_refuted name id session cfg ts : Forall tidy ts -> 0 < cf_max_size cfg -> cf_max_size cfg < 64 * N.of_nat (length (wanted cfg ts)) ->
  forall ts', recording_of name id session cfg (ts ++ ts') = recording_of name id session cfg ts.
Proof. intros T M L ts'. apply recording_stops; assumption. Qed.
Print Assumptions C81_ring_stops_refuted.
Definition rec_tick (i : N) : Tick := mkTick i (1000 * i) [(bs "scan", [1; i])] [(bs "cmd", [i; i; i])] 7.
Definition rec_ticks (n : nat) : list Tick := map (fun i => rec_tick (N.of_nat i)) (seq 0 n).
Lemma rec_ticks_tidy n : Forall tidy (rec_ticks n).
Proof. apply Forall_forall. intros t H. apply in_map_iff in H as (i & <- & _). split; cbn; repeat constructor; intros []. Qed.
(** Ten ticks, every second, 300 bytes, two snapshots: the first four of 0, 2, 4, 6, 8 fit, the last two of those are kept. *)
Example C81_ex : map sn_tick (r_snaps (recording_of (bs "n") (bs "1") (bs "s") (mkRecCfg 2 true true true 300 2) (rec_ticks 10))) = [4; 6] /\ Forall tidy (rec_ticks 10) /\
  length (wanted (mkRecCfg 2 true true true 300 2) (rec_ticks 10)) = 5%nat.
Proof. split; [vm_compute; reflexivity|]. split; [apply rec_ticks_tidy|vm_compute; reflexivity]. Qed.
(** Two snapshots of 69 bytes are kept, the limit is 300: the recording stops for ever after tick 3. *)
Example C81_ex_stops : map sn_tick (r_snaps (recording_of (bs "n") (bs "1") (bs "s") (mkRecCfg 1 true true true 300 2) (rec_ticks 30))) = [2; 3].
Proof. vm_compute. reflexivity. Qed.

(** ** C82: what is replayed *)
(** The [k]-th tick of a replay publishes the outputs of the [k]-th snapshot, the last one from the end on; a topic with an override gets that. *)
Theorem C82_plays r overrides n k : r_snaps r <> [] -> (k < n)%nat ->
  exists s out, nth_error (r_snaps r) (Nat.min k (length (r_snaps r) - 1)) = Some s /\
    nth_error (snd (replay_ticks overrides n (replayer_new r))) k = Some out /\
    map fst out = map fst (sn_out s) /\
    forall i topic data, nth_error (sn_out s) i = Some (topic, data) ->
      nth_error out i = Some (topic, match lookup beqb topic overrides with Some v => v | None => data end).
Proof.
  intros Hn Hk. assert (L : (0 < length (r_snaps r))%nat) by (destruct (r_snaps r); [contradiction|cbn; lia]).
  destruct (replay_nth overrides n (replayer_new r) k L Hk) as (s & A & B). cbn [replayer_new rp_idx rp_rec] in A. rewrite Nat.add_0_l in A.
  exists s, (changed overrides (sn_out s)). split; [exact A|]. split; [exact B|]. split.
  - unfold changed. rewrite map_map. reflexivity.
  - intros i topic data H. unfold changed. rewrite nth_error_map, H. reflexivity.
Qed.
Print Assumptions C82_plays.
(** Refuted: "the replay ends with the recording".  The outputs of the last snapshot are published again at every later tick, without end. *)
Theorem C82_repeats_refuted r s l n : r_snaps r = l ++ [s] ->
  snd (replay_ticks [] (length (r_snaps r) + n) (replayer_new r)) = map sn_out (r_snaps r) ++ repeat (sn_out s) n.
Proof. intros E. rewrite replay_all by (rewrite E; destruct l; discriminate). rewrite E, rev_app_distr. reflexivity. Qed.
Print Assumptions C82_repeats_refuted.
(** If no tick is missing from the recording, a replay started at tick [t] publishes at its [k]-th tick what was recorded for tick [t + k]. *)
Theorem C82_aligned_partial r overrides t0 t n k : consecutive t0 (map sn_tick (r_snaps r)) ->
  t0 <= t -> t + N.of_nat k < t0 + N.of_nat (length (r_snaps r)) -> (k < n)%nat ->
  exists s, In s (r_snaps r) /\ sn_tick s = t + N.of_nat k /\
    nth_error (snd (replay_ticks overrides n (start_at_tick t (replayer_new r)))) k =
      Some (map (fun p => (fst p, match lookup beqb (fst p) overrides with Some v => v | None => snd p end)) (sn_out s)).
Proof. intros. eapply replay_aligned; eauto. Qed.
Print Assumptions C82_aligned_partial.
(** Refuted: "tick [k] of the replay publishes what the node published at tick [k]".  A node recorded every [m]-th tick publishes at
    tick [k] what it published at tick [m * k]. *)
Theorem C82_interval_refuted name id session cfg ts n k t : Forall tidy ts -> unlimited cfg -> consecutive 0 (map t_tick ts) ->
  nth_error ts (N.to_nat (N.max 1 (cf_interval cfg)) * k) = Some t -> (k < n)%nat ->
  exists out, nth_error (snd (replay_ticks [] n (replayer_new (recording_of name id session cfg ts)))) k = Some out /\
              (forall topic data, In (topic, data) out <-> In (topic, data) (t_out t)).
Proof. apply replay_interval. Qed.
Print Assumptions C82_interval_refuted.
(** Refuted: "a replay that is told to start after the recording's end fails or is empty".  It starts at the first tick. *)
Theorem C82_start_late_refuted r t : (forall s, In s (r_snaps r) -> sn_tick s < t) -> start_at_tick t (replayer_new r) = replayer_new r.
Proof. intros H. unfold start_at_tick, seek. rewrite seek_none by exact H. reflexivity. Qed.
Print Assumptions C82_start_late_refuted.
(** A node that publishes exactly one message at every tick is replayed faithfully. *)
Theorem C82_one_each_partial name id session cfg topic pubs : unlimited cfg -> cf_interval cfg <= 1 -> (forall ms, In ms pubs -> length ms = 1%nat) ->
  messages (snd (replay_ticks [] (length pubs) (replayer_new (recording_of name id session cfg (node_ticks topic 0 None pubs))))) = concat pubs.
Proof.
  intros U I H. rewrite <- (node_ticks_length topic pubs 0 None). rewrite replay_whole by (auto; apply node_ticks_tidy). apply messages_one, H.
Qed.
Print Assumptions C82_one_each_partial.
(** Refuted: "the replay publishes what the node published".  It publishes exactly one message per tick, however many there were: what a
    tick published besides its last message is lost, and a tick that published nothing repeats the last message. *)
Theorem C82_one_per_tick_refuted name id session cfg topic ms pubs : unlimited cfg -> cf_interval cfg <= 1 -> ms <> [] ->
  length (messages (snd (replay_ticks [] (length (ms :: pubs)) (replayer_new (recording_of name id session cfg (node_ticks topic 0 None (ms :: pubs))))))) =
  length (ms :: pubs).
Proof.
  intros U I H. rewrite <- (node_ticks_length topic (ms :: pubs) 0 None) at 1. rewrite replay_whole by (auto; apply node_ticks_tidy).
  apply messages_count0. exact H.
Qed.
Print Assumptions C82_one_per_tick_refuted.
Definition rec_all : RecCfg := mkRecCfg 1 true true true 0 0.
Example C82_ex : unlimited rec_all /\ consecutive 0 (map sn_tick (r_snaps (recording_of (bs "n") (bs "1") (bs "s") rec_all (rec_ticks 5)))) /\
  snd (replay_ticks [(bs "cmd", [9])] 2 (start_at_tick 3 (replayer_new (recording_of (bs "n") (bs "1") (bs "s") rec_all (rec_ticks 5))))) = [[(bs "cmd", [9])]; [(bs "cmd", [9])]] /\
  snd (replay_ticks [] 7 (replayer_new (recording_of (bs "n") (bs "1") (bs "s") (mkRecCfg 2 true true true 0 0) (rec_ticks 5)))) =
    map (fun i => [(bs "cmd", [i; i; i])]) [0; 2; 4; 4; 4; 4; 4].
Proof.
  split; [repeat split|]. split; [|vm_compute; split; reflexivity]. intros i t H. replace (map sn_tick _) with [0; 1; 2; 3; 4] in H by (vm_compute; reflexivity).
  do 5 (destruct i as [|i]; [injection H as <-; reflexivity|]). destruct i; discriminate.
Qed.
(** Two messages, none, one: replayed as second, second, third. *)
Example C82_ex_bursts : messages (snd (replay_ticks [] 3 (replayer_new (recording_of (bs "n") (bs "1") (bs "s") rec_all (node_ticks (bs "cmd") 0 None [[[1]; [2]]; []; [[3]]]))))) = [[2]; [2]; [3]].
Proof. vm_compute. reflexivity. Qed.

(** ** C83: recordings on disk *)
(** What was saved is loaded, as long as the file is at most 100 MiB. *)
Theorem C83_round_trip_partial (T : Type) (enc : T -> bytes) (dec dec_legacy : bytes -> option T) (x : T) : dec (enc x) = Some x ->
  N.of_nat (length (header ++ enc x)) <= 100 * 1024 * 1024 -> load dec dec_legacy (header ++ enc x) = Some x.
Proof.
  intros H L. rewrite app_length in L. change (length header) with 10%nat in L. rewrite load_header.
  replace (MAX_RECORDING_SIZE <? 10 + N.of_nat (length (enc x))) with false; [exact H|]. symmetry. apply N.ltb_ge. unfold MAX_RECORDING_SIZE. lia.
Qed.
Print Assumptions C83_round_trip_partial.
(** Refuted: "what was saved is loaded".  Saving has no limit, loading refuses every file of more than 100 MiB. *)
Theorem C83_too_large_refuted (T : Type) (enc : T -> bytes) (dec dec_legacy : bytes -> option T) (x : T) :
  100 * 1024 * 1024 < N.of_nat (length (header ++ enc x)) -> load dec dec_legacy (header ++ enc x) = None.
Proof.
  intros L. rewrite app_length in L. change (length header) with 10%nat in L. rewrite load_header.
  replace (MAX_RECORDING_SIZE <? 10 + N.of_nat (length (enc x))) with true; [reflexivity|]. symmetry. apply N.ltb_lt. unfold MAX_RECORDING_SIZE. lia.
Qed.
Print Assumptions C83_too_large_refuted.
(** A file of another version is refused. *)
Theorem C83_version (T : Type) (dec dec_legacy : bytes -> option T) v body : length v = 4%nat -> le_dec v <> 1 -> load dec dec_legacy (MAGIC ++ v ++ body) = None.
Proof. apply load_version. Qed.
Print Assumptions C83_version.
(** However the writes are cut and wherever the process dies, the recording's file holds what it held before or the whole new recording, and no
    other file but the temporary one changes; when the save is over it holds the new recording. *)
Theorem C83_atomic (files : FS) path pieces content k : concat pieces = content ->
  let files' := fold_left fs_step (firstn k (save_ops path pieces)) files in
  (lookup beqb path files' = lookup beqb path files \/ lookup beqb path files' = Some content) /\
  ((length (save_ops path pieces) <= k)%nat -> lookup beqb path files' = Some content) /\
  forall p, p <> path -> p <> tmp_of path -> lookup beqb p files' = lookup beqb p files.
Proof. intros <-. apply save_atomic. Qed.
Print Assumptions C83_atomic.
(** A recording stays below the directory of the recordings: a directory and a file, whatever the names of session, node and id. *)
Theorem C83_confined session name id : Forall plain_name (node_path session name id).
Proof.
  assert (X : plain_name (node_file name id)).
  { unfold node_file. pose proof (sanitize_plain name) as (_ & _ & _ & A). pose proof (sanitize_plain id) as (_ & _ & _ & B).
    assert (N : forall s, ~ In 47 s -> ~ In 47 (no_at s)).
    { intros s H X. unfold no_at in X. apply in_map_iff in X as (c & E & I). destruct (c =? 64); [discriminate|subst; contradiction]. }
    set (f := no_at (sanitize name) ++ bs "@" ++ no_at (sanitize id) ++ bs ".horus").
    assert (L : (length f >= 7)%nat) by (unfold f; rewrite !app_length; cbn; lia).
    repeat split; try (intros E; rewrite E in L; cbn in L; lia). unfold f. intros H. apply in_app_or in H as [H|H]; [exact (N _ A H)|].
    apply in_app_or in H as [H|H]; [cbn in H; intuition discriminate|]. apply in_app_or in H as [H|H]; [exact (N _ B H)|]. cbn in H. intuition discriminate. }
  constructor; [apply sanitize_plain|]. constructor; [exact X|constructor].
Qed.
Print Assumptions C83_confined.
(** Refuted: "sessions of different names have different files".  Only the last level of the name counts. *)
Theorem C83_sessions_collide_refuted a b c name id : plain_name c -> node_path (a ++ bs "/" ++ c) name id = node_path (b ++ bs "/" ++ c) name id.
Proof. intros H. unfold node_path. change (bs "/" ++ c) with (47 :: c). rewrite !sanitize_last by exact H. reflexivity. Qed.
Print Assumptions C83_sessions_collide_refuted.
Example C83_ex : node_path (bs "../../etc") (bs "arm@left/../..") (bs "1f") = [bs "etc"; bs "arm_left@1f.horus"] /\
  node_path (bs "lab1/run") (bs "n") (bs "1f") = node_path (bs "lab2/run") (bs "n") (bs "1f").
Proof. vm_compute. split; reflexivity. Qed.
Example C83_ex_crash : map (fun k => lookup beqb (bs "a.horus") (fold_left fs_step (firstn k (save_ops (bs "a.horus") [[1; 2]; [3]])) [(bs "a.horus", [7])])) [0; 1; 2; 3; 4]%nat =
  [Some [7]; Some [7]; Some [7]; Some [7]; Some [1; 2; 3]] /\
  load (fun b => Some b) (fun _ => None) (header ++ [1; 2; 3]) = Some [1; 2; 3].
Proof. vm_compute. split; reflexivity. Qed.

(** ** C86: nodes off the main thread *)
(** Refuted: "a recorded node can be replayed".  The snapshots of a real-time node all carry tick number 0 and no outputs: whatever it published,
    its replay publishes nothing, and no tick but 0 can be sought. *)
Theorem C86_rt_refuted name id session cfg ts : Forall tidy ts ->
  let r := recording_of name id session cfg (map rt_tick ts) in
  (forall s, In s (r_snaps r) -> sn_tick s = 0 /\ sn_out s = []) /\
  (forall overrides n out, In out (snd (replay_ticks overrides n (replayer_new r))) -> out = []) /\
  (forall t, 0 < t -> start_at_tick t (replayer_new r) = replayer_new r).
Proof.
  intros T r. assert (T' : Forall tidy (map rt_tick ts)) by (apply Forall_map; eapply Forall_impl; [|exact T]; apply tidy_rt).
  assert (A : forall s, In s (r_snaps r) -> sn_tick s = 0 /\ sn_out s = []).
  { intros s H. apply recorded_from in H as (t & Ht & ->); [|exact T']. apply in_map_iff in Ht as (u & <- & _). cbn. destruct (cf_out cfg); auto. }
  split; [exact A|]. split.
  - intros ov n. apply silent_replay. intros s Hs. apply A. exact Hs.
  - intros t Ht. apply (zero_ticks_seek r); [|exact Ht|reflexivity]. intros s Hs. apply A, Hs.
Qed.
Print Assumptions C86_rt_refuted.
(** Refuted in the same way for compute and async nodes, whose inputs are missing too. *)
Theorem C86_pool_refuted name id session cfg ts : Forall tidy ts ->
  let r := recording_of name id session cfg (map pool_tick ts) in
  (forall s, In s (r_snaps r) -> sn_tick s = 0 /\ sn_in s = [] /\ sn_out s = []) /\
  (forall overrides n out, In out (snd (replay_ticks overrides n (replayer_new r))) -> out = []) /\
  (forall t, 0 < t -> start_at_tick t (replayer_new r) = replayer_new r).
Proof.
  intros T r. assert (T' : Forall tidy (map pool_tick ts)) by (apply Forall_map; eapply Forall_impl; [|exact T]; apply tidy_pool).
  assert (A : forall s, In s (r_snaps r) -> sn_tick s = 0 /\ sn_in s = [] /\ sn_out s = []).
  { intros s H. apply recorded_from in H as (t & Ht & ->); [|exact T']. apply in_map_iff in Ht as (u & <- & _). cbn. destruct (cf_in cfg), (cf_out cfg); auto. }
  split; [exact A|]. split.
  - intros ov n. apply silent_replay. intros s Hs. apply A. exact Hs.
  - intros t Ht. apply (zero_ticks_seek r); [|exact Ht|reflexivity]. intros s Hs. apply A, Hs.
Qed.
Print Assumptions C86_pool_refuted.
(** Refuted: "the interval thins out the recording".  Without limits every tick of such a node is recorded, whatever the interval. *)
Theorem C86_interval_refuted name id session cfg ts : Forall tidy ts -> unlimited cfg ->
  length (r_snaps (recording_of name id session cfg (map rt_tick ts))) = length ts.
Proof.
  intros T (U1 & U2 & _). assert (T' : Forall tidy (map rt_tick ts)) by (apply Forall_map; eapply Forall_impl; [|exact T]; apply tidy_rt).
  rewrite recording_unlimited by assumption. rewrite map_length. unfold wanted. clear T T'. induction ts as [|t ts IH]; [reflexivity|]. cbn [map filter rt_tick t_tick].
  rewrite N.mod_0_l by lia. change (0 =? 0) with true. cbn [length]. f_equal. exact IH.
Qed.
Print Assumptions C86_interval_refuted.
Example C86_ex : map sn_tick (r_snaps (recording_of (bs "n") (bs "1") (bs "s") (mkRecCfg 100 true true true 0 0) (map rt_tick (rec_ticks 4)))) = [0; 0; 0; 0] /\
  snd (replay_ticks [] 3 (replayer_new (recording_of (bs "n") (bs "1") (bs "s") rec_all (map rt_tick (rec_ticks 4))))) = [[]; []; []] /\
  snd (replay_ticks [] 3 (replayer_new (recording_of (bs "n") (bs "1") (bs "s") rec_all (rec_ticks 4)))) <> [[]; []; []] /\ Forall tidy (rec_ticks 4).
Proof. split; [vm_compute; reflexivity|]. split; [vm_compute; reflexivity|]. split; [vm_compute; discriminate|apply rec_ticks_tidy]. Qed.

(** ** C87: replaying a whole scheduler *)
(** Refuted: "time passes in a replay as in the recording".  No recording ever holds a number of ticks: the replay's clock shows 0, however often it moves on. *)
Theorem C87_clock_frozen_refuted started ops : exists times,
  replay_times (fold_left srop_do ops (sched_rec_new started)) = Some times /\ forall n, ck_now (Nat.iter n ck_advance (mkRClock times 0)) = 0.
Proof.
  unfold replay_times. rewrite srops_total. cbn [sched_rec_new sr_total N.ltb]. change (100000000 <? 0) with false. exists []. split; [reflexivity|]. intros n. apply clock_zero.
Qed.
Print Assumptions C87_clock_frozen_refuted.
(** Refuted: "the nodes run in the order of the recording".  All of them get the same priority and run in the order in which the map of the
    recording happens to be walked, whatever order was recorded. *)
Theorem C87_order_refuted (A : Type) (read : bytes -> option A) path_of sr : ids_apart sr ->
  replay_nodes read path_of sr = map (fun x => (0, x)) (flat_map (fun e => match read (path_of (snd e)) with Some x => [x] | None => [] end) (sr_nodes sr)).
Proof. apply replay_order. Qed.
Print Assumptions C87_order_refuted.
(** The file of a node is found exactly if the last level of the node's name is a name and has no [@] in it. *)
Theorem C87_found name id : hex_id id ->
  (replay_file (name ++ bs "@" ++ id ++ bs ".horus") = node_file name id <-> plain_name (base_name name) /\ ~ In 64 (base_name name)).
Proof. apply replay_finds. Qed.
Print Assumptions C87_found.
(** Refuted: "every recorded node takes part in the replay".  One with an [@] in its name is left out without a word, unless another node's file has that name. *)
Theorem C87_skipped_refuted (A : Type) (read : bytes -> option A) name id sr : hex_id id -> In 64 (base_name name) ->
  sr_nodes sr = [(id, name ++ bs "@" ++ id ++ bs ".horus")] -> (forall f, f <> node_file name id -> read f = None) -> replay_nodes read replay_file sr = [].
Proof.
  intros H I E R. unfold replay_nodes. rewrite E. cbn [fold_left fst snd]. rewrite R; [reflexivity|]. intros X. apply (C87_found name id H) in X as [_ X]. contradiction.
Qed.
Print Assumptions C87_skipped_refuted.
Definition sr_ex : SchedRec :=
  fold_left srop_do [SrAdd (bs "camera") (bs "2a"); SrAdd (bs "planner") (bs "2b"); SrTick [bs "camera"; bs "planner"]; SrTick [bs "camera"; bs "planner"]; SrFinish 5000000] (sched_rec_new 1000000).
(** The camera ran first; in the replay the planner does, and time stands still. *)
Example C87_ex : ids_apart sr_ex /\ replay_nodes (fun f => Some f) replay_file sr_ex = [(0, bs "planner@2b.horus"); (0, bs "camera@2a.horus")] /\
  replay_times sr_ex = Some [] /\ length (sr_order sr_ex) = 2%nat.
Proof.
  split; [|vm_compute; repeat split]. intros i o H1 H2 H3. cbn in H1, H2. destruct H1 as [<-|[<-|[]]]; destruct H2 as [<-|[<-|[]]]; cbn in H3; intuition discriminate.
Qed.
Example C87_ex_files : hex_id (bs "2a") /\ replay_file (bs "arm/left@2a.horus") = node_file (bs "arm/left") (bs "2a") /\
  replay_file (bs "arm@left@2a.horus") = bs "arm@left@2a.horus" /\ node_file (bs "arm@left") (bs "2a") = bs "arm_left@2a.horus".
Proof. split; [split; [discriminate|cbn; intros c [<-|[<-|[]]]; lia]|]. vm_compute. repeat split. Qed.

(** ** More on C81, C83 and C87 *)
(** A range of a recording: exactly the snapshots of the ticks from [a] to [b], both included, in their order. *)
Theorem C81_range r a b : (forall s, In s (snapshots_range r a b) <-> In s (r_snaps r) /\ a <= sn_tick s <= b) /\
  (forall before after, r_snaps r = before ++ after -> exists l1 l2, snapshots_range r a b = l1 ++ l2 /\ (forall s, In s l1 -> In s before) /\ forall s, In s l2 -> In s after).
Proof.
  split.
  - intros s. unfold snapshots_range. rewrite filter_In, andb_true_iff, !N.leb_le. tauto.
  - intros before after E. unfold snapshots_range. rewrite E, filter_app. eexists _, _. split; [reflexivity|]. split; intros s I; apply filter_In in I; tauto.
Qed.
Print Assumptions C81_range.
(** Finishing saves the snapshots as they are with the time of the end; without a snapshot nothing is saved. *)
Theorem C81_finished now rc : (finish now rc = None <-> r_snaps (rc_rec rc) = []) /\
  forall r, finish now rc = Some r -> r_ended r = Some now /\ r_snaps r = r_snaps (rc_rec rc) /\ r_first r = r_first (rc_rec rc) /\ r_last r = r_last (rc_rec rc) /\
    r_name r = r_name (rc_rec rc) /\ r_id r = r_id (rc_rec rc) /\ r_session r = r_session (rc_rec rc).
Proof.
  unfold finish. destruct (r_snaps (rc_rec rc)) as [|s l] eqn:E; (split; [split; congruence|]); intros r H; [discriminate|]. injection H as <-. cbn. tauto.
Qed.
Print Assumptions C81_finished.
(** A tick that began and never ended leaves nothing behind when the next tick is one the interval does not ask for. *)
Theorem C81_interrupted rc tick now t : rc_on rc = true -> t_tick t mod N.max 1 (cf_interval (rc_cfg rc)) <> 0 ->
  rc_rec (record_tick (begin_tick tick now rc) t) = rc_rec rc.
Proof.
  intros On M.
  assert (I : forall l c, rc_cur c = None -> fold_left (fun rc p => record_input (fst p) (snd p) rc) l c = c).
  { induction l as [|p l IH]; intros c C; cbn [fold_left]; [reflexivity|]. assert (E : record_input (fst p) (snd p) c = c) by (unfold record_input; rewrite C; destruct (cf_in (rc_cfg c)); reflexivity). rewrite E. apply IH, C. }
  assert (O : forall l c, rc_cur c = None -> fold_left (fun rc p => record_output (fst p) (snd p) rc) l c = c).
  { induction l as [|p l IH]; intros c C; cbn [fold_left]; [reflexivity|]. assert (E : record_output (fst p) (snd p) c = c) by (unfold record_output; rewrite C; destruct (cf_out (rc_cfg c)); reflexivity). rewrite E. apply IH, C. }
  apply N.eqb_neq in M.
  assert (B : exists cur, begin_tick tick now rc = mkRecorder (rc_rec rc) (rc_cfg rc) cur true (rc_size rc)).
  { unfold begin_tick. rewrite On. cbn [negb]. destruct (negb _); eexists; reflexivity. }
  destruct B as (cur & ->). unfold record_tick.
  assert (B2 : begin_tick (t_tick t) (t_now t) (mkRecorder (rc_rec rc) (rc_cfg rc) cur true (rc_size rc)) = mkRecorder (rc_rec rc) (rc_cfg rc) None true (rc_size rc)).
  { unfold begin_tick. cbn [rc_on rc_cfg rc_rec rc_size negb]. rewrite M. reflexivity. }
  rewrite B2, I, O by reflexivity. reflexivity.
Qed.
Print Assumptions C81_interrupted.
Example C81_ex_more : let cfg := mkRecCfg 2 true true true 0 0 in let rc := recorder_new (bs "n") (bs "1") (bs "s") cfg in
  let rc' := fold_left record_tick [mkTick 2 5 [] [(bs "a", [1])] 7; mkTick 3 6 [] [] 7; mkTick 4 8 [] [] 7] rc in
  rc_on rc = true /\ 3 mod N.max 1 (cf_interval (rc_cfg rc)) <> 0 /\ map sn_tick (snapshots_range (rc_rec rc') 2 4) = [2; 4] /\ map sn_tick (snapshots_range (rc_rec rc') 3 4) = [4] /\
  option_map r_ended (finish 9 rc') = Some (Some 9) /\ finish 9 rc = None.
Proof. split; [reflexivity|]. split; [cbn; discriminate|]. vm_compute. repeat split. Qed.
(** A file cut within its version is refused. *)
Theorem C83_cut (T : Type) (dec dec_legacy : bytes -> option T) v : (length v < 4)%nat -> load dec dec_legacy (MAGIC ++ v) = None.
Proof.
  intros L. do 4 (destruct v as [|? v]; [reflexivity|]). cbn [length] in L. lia.
Qed.
Print Assumptions C83_cut.
(** A name that occurs several times in the recorded order counts where it occurs last. *)
Theorem C87_position name order p : position name 0 order = Some p <->
  exists before after, order = before ++ name :: after /\ p = N.of_nat (length before) /\ ~ In name after.
Proof.
  assert (G : forall l i q, position name i l = Some q <-> exists before after, l = before ++ name :: after /\ q = i + N.of_nat (length before) /\ ~ In name after).
  { induction l as [|x l IH]; intros i q; cbn [position].
    - split; [discriminate|]. intros (b & a & E & _). destruct b; discriminate.
    - destruct (position name (i + 1) l) as [j|] eqn:E.
      + pose proof (proj1 (IH (i + 1) j) E) as (b & a & -> & Ej & Na). split.
        * intros H. injection H as <-. exists (x :: b), a. cbn [app length]. split; [reflexivity|]. split; [lia|exact Na].
        * intros (b' & a' & E' & -> & Na'). destruct b' as [|y b']; cbn [app] in E'; injection E' as E1 E2.
          -- exfalso. apply Na'. rewrite <- E2. apply in_or_app. right. left. reflexivity.
          -- assert (J : position name (i + 1) (b ++ name :: a) = Some (i + 1 + N.of_nat (length b'))) by (apply IH; exists b', a'; auto).
             rewrite E in J. injection J as ->. cbn [length]. f_equal. lia.
      + assert (Nx : ~ In name l).
        { intros I. assert (K : exists b a, l = b ++ name :: a /\ ~ In name a).
          { clear - I. induction l as [|y l IHl]; [destruct I|]. destruct (in_dec (list_eq_dec N.eq_dec) name l) as [Il|Il].
            - destruct (IHl Il) as (b & a & -> & Na). exists (y :: b), a. split; [reflexivity|exact Na].
            - destruct I as [->|I]; [exists [], l; auto|contradiction]. }
          destruct K as (b' & a' & K1 & K2). assert (J : position name (i + 1) l = Some (i + 1 + N.of_nat (length b'))) by (apply IH; exists b', a'; auto). congruence. }
        destruct (beqb x name) eqn:Bx; [apply beqb_spec in Bx; subst x|assert (Ne : x <> name) by (intros X; apply beqb_spec in X; congruence)]; split.
        * intros H. injection H as <-. exists [], l. split; [reflexivity|]. split; [cbn; lia|exact Nx].
        * intros (b & a & E' & -> & Na). destruct b as [|y b]; [cbn; f_equal; lia|]. exfalso. cbn [app] in E'. injection E' as _ E'. apply Nx. rewrite E'. apply in_or_app. right. left. reflexivity.
        * discriminate.
        * intros (b & a & E' & -> & Na). exfalso. destruct b as [|y b]; cbn [app] in E'; injection E' as E1 E2; [congruence|]. apply Nx. rewrite E2. apply in_or_app. right. left. reflexivity. }
  rewrite G. reflexivity.
Qed.
Print Assumptions C87_position.
(** The clock of a replay that has times: the reading after [n] ticks is the [n]-th time, and the last one from then on. *)
Theorem C87_clock times n t : times <> [] -> nth_error times (Nat.min n (length times - 1)) = Some t ->
  ck_now (Nat.iter n ck_advance (mkRClock times 0)) = t /\ (ck_idx (Nat.iter n ck_advance (mkRClock times 0)) < length times)%nat.
Proof.
  intros Ne H. assert (L : (0 < length times)%nat) by (destruct times; [congruence|cbn; lia]).
  assert (I : Nat.iter n ck_advance (mkRClock times 0) = mkRClock times (Nat.min n (length times - 1))).
  { clear H. induction n as [|n IH]; cbn [Nat.iter nat_rect]; [reflexivity|]. change (nat_rect _ _ _ n) with (Nat.iter n ck_advance (mkRClock times 0)). rewrite IH. unfold ck_advance. cbn [ck_idx ck_times].
    destruct (Nat.ltb_spec (Nat.min n (length times - 1)) (length times - 1)); f_equal; lia. }
  rewrite I. unfold ck_now. cbn [ck_idx ck_times]. rewrite H. split; [reflexivity|lia].
Qed.
Print Assumptions C87_clock.
Example C87_ex_more : position (bs "a") 0 [bs "a"; bs "b"; bs "a"; bs "c"] = Some 2 /\ map (fun n => ck_now (Nat.iter n ck_advance (mkRClock [5; 7; 9] 0))) [0; 1; 2; 3; 4]%nat = [5; 7; 9; 9; 9].
Proof. split; reflexivity. Qed.
