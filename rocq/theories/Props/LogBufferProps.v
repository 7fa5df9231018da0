(** C42: the shared log buffer. *)
From Coq Require Import String.
From Verif Require Import Base.Prelude Base.Bytes Base.Str Model.LogEntry Model.LogBuffer Spec.LogBufferSpec
  Proofs.LogEntryProofs Proofs.LogBufferProofs.
Open Scope nat_scope.

(** A sample entry: node "n", the given tick and message. *)
Definition sample (tick : N) (msg : string) : entry :=
  {| le_timestamp := bs "t"; le_tick := tick; le_node := bs "n"; le_type := Info; le_topic := Some (bs "x");
     le_message := bs msg; le_tick_us := 1; le_ipc_ns := 2 |}.
Definition DEFAULT_LOG_ENTRIES : nat := 5000. (* log_buffer.rs:33 *)
Lemma text_ascii s : forallb (fun b => b <? 128)%N (bs s) = true -> text (bs s).
Proof.
  unfold text. induction (bs s) as [|b l IH]; cbn [forallb utf8]; intros H; [split; constructor|].
  apply andb_prop in H as [H1 H2]. rewrite H1. destruct (IH H2). split; auto. constructor; auto.
  apply N.ltb_lt in H1. unfold byte_ok. lia.
Qed.
Lemma sample_ok tick msg : (tick < 2 ^ 64)%N -> forallb (fun b => b <? 128)%N (bs msg) = true -> entry_ok (sample tick msg).
Proof.
  intros Ht Hm. unfold entry_ok, sample; cbn [le_timestamp le_node le_message le_topic le_tick le_tick_us le_ipc_ns].
  split; [apply text_ascii; reflexivity|]. split; [apply text_ascii; reflexivity|]. split; [apply text_ascii; auto|].
  split; [|split; [exact Ht|split; reflexivity]]. intros t E. injection E as <-. apply text_ascii; reflexivity.
Qed.

(** * Whole calls: one process, or any number taking turns *)
(** Any entry a program can log is stored: its text fields are cut to the documented
    sizes at a character boundary, everything else is kept, and it reads back. *)
Theorem C42_entry_stored : forall e, entry_ok e ->
  exists e', cut_entry e e' /\ entry_ok e' /\
  forall cap m, 0 < cap -> widx (push cap m e) = S (widx m)
  /\ snd (get_since cap (push cap m e) (widx m)) = [e'].
Proof.
  intros e Ok. exists (shorten e). split; [apply shorten_cut; auto|]. split; [apply shorten_ok; auto|].
  intros cap m Hc. destruct (stored_some e) as (d & Hd & _). split; [unfold push; rewrite Hd; reflexivity|].
  unfold get_since. replace (visited cap (widx (push cap m e)) (widx m)) with [widx m mod cap].
  - cbn [read_slots]. rewrite (settled_read cap _ (widx m) e); [reflexivity|auto|].
    unfold push. rewrite Hd. split; cbn [set_sq set_cell claim sq cell]; rewrite put_same; auto.
  - unfold push. rewrite Hd. cbn [set_sq set_cell claim widx]. rewrite visited_eq by auto.
    replace (Nat.max (widx m) (S (widx m) - cap)) with (widx m) by lia.
    replace (S (widx m) - widx m) with 1 by lia. reflexivity.
Qed.
Print Assumptions C42_entry_stored.
(** A message of 300 letters ending in two-byte characters is cut to 277 bytes + dots. *)
Example C42_entry_case :
  let m := List.repeat 97%N 276 ++ List.concat (List.repeat [195; 169]%N 12) in
  text m /\ truncate_field m 280 = List.repeat 97%N 276 ++ [46; 46; 46]%N.
Proof.
  split; [|vm_compute; reflexivity]. split; [vm_compute; reflexivity|].
  apply Forall_forall. intros b Hb. apply N.ltb_lt. revert b Hb. apply (forallb_forall (fun b => b <? 256)%N).
  vm_compute. reflexivity.
Qed.

(** A read returns, in order and once each, the entries pushed from the given position
    on, as far as the newest [cap] reach. *)
Theorem C42_sequential : forall cap es after, 0 < cap -> Forall entry_ok es ->
  let m := fold_left (push cap) es blank in
  widx m = length es
  /\ exists es', Forall2 cut_entry es es'
  /\ get_since cap m after = (m, kept cap after es').
Proof.
  intros cap es after Hc Ok m. pose proof (holds_pushes cap es _ _ Hc (holds_blank cap)) as H. cbn [app] in H. fold m in H.
  split; [apply H|]. exists (map shorten es). split.
  - clear -Ok. induction Ok; constructor; auto using shorten_cut.
  - rewrite (holds_read cap m es) by auto. unfold kept. rewrite map_length. f_equal.
    generalize (Nat.max after (length es - cap)) as k. intros k. clear. revert k.
    induction es as [|e es IH]; intros [|k]; cbn [skipn map]; auto.
Qed.
Print Assumptions C42_sequential.
Example C42_sequential_case :
  map le_tick (snd (get_since 3 (fold_left (push 3) (map (fun k => sample k "m") [0; 1; 2; 3; 4]%N) blank) 3)) = [3; 4]%N
  /\ map le_tick (snd (get_since 3 (fold_left (push 3) (map (fun k => sample k "m") [0; 1; 2; 3; 4]%N) blank) 0)) = [2; 3; 4]%N.
Proof. split; vm_compute; reflexivity. Qed.

(** Errors and warnings stay in their own buffer until that many newer errors and
    warnings have been logged, however much else is logged. *)
Theorem C42_errors_kept : forall cap ecap es, 0 < cap -> 0 < ecap -> Forall entry_ok es ->
  let b := fold_left (publish_log cap ecap) es (blank, blank) in
  snd (get_since cap (fst b) 0) = map shorten (kept cap 0 es)
  /\ snd (get_since ecap (snd b) 0) =
     map shorten (kept ecap 0 (filter (fun e => match le_type e with Error | Warning => true | _ => false end) es)).
Proof.
  intros cap ecap es Hc He Ok b.
  destruct (publish_holds cap ecap es (blank, blank) [] [] Hc He (holds_blank _) (holds_blank _)) as [H1 H2].
  fold b in H1, H2. cbn [app] in H1, H2. rewrite (holds_read _ _ _ _ Hc Ok H1).
  rewrite (holds_read ecap (snd b) (filter is_error es)); auto.
  apply Forall_forall. intros x Hx. apply filter_In in Hx as [Hx _]. rewrite Forall_forall in Ok. auto.
Qed.
Print Assumptions C42_errors_kept.
Definition err (e : entry) : entry :=
  {| le_timestamp := le_timestamp e; le_tick := le_tick e; le_node := le_node e; le_type := Error; le_topic := le_topic e;
     le_message := le_message e; le_tick_us := le_tick_us e; le_ipc_ns := le_ipc_ns e |}.
Example C42_errors_case :
  let es := err (sample 7 "bad") :: map (fun k => sample k "m") [0; 1; 2; 3]%N in
  let b := fold_left (publish_log 3 2) es (blank, blank) in
  map le_tick (snd (get_since 3 (fst b) 0)) = [1; 2; 3]%N /\ map le_tick (snd (get_since 2 (snd b) 0)) = [7]%N.
Proof. split; vm_compute; reflexivity. Qed.

(** * The drain thread *)
(** If nothing is pushed while the thread polls and no more than [cap] entries come
    between polls, the file gets every entry exactly once, in order. *)
Theorem C42_drain_exact : forall cap old batches, 0 < cap -> Forall entry_ok (old ++ List.concat batches) ->
  (forall b, In b batches -> length b <= cap) ->
  let m := fold_left (push cap) old blank in
  d_file (drained cap (drain_start m) (List.concat (map (fun es => map DPush es ++ [DPeek; DRead]) batches)))
  = map shorten (List.concat batches).
Proof.
  intros cap old bs Hc Ok Hb m. pose proof (holds_pushes cap old _ _ Hc (holds_blank cap)) as H. cbn [app] in H. fold m in H.
  change (fun es => map DPush es ++ [DPeek; DRead]) with batch.
  rewrite (batches cap bs (drain_start m) old); auto. cbn. apply H.
Qed.
Print Assumptions C42_drain_exact.
Example C42_drain_case :
  let bs := [[sample 1 "a"; sample 2 "b"]; []; [sample 3 "c"]] in
  map le_tick (d_file (drained 4 (drain_start blank) (List.concat (map (fun es => map DPush es ++ [DPeek; DRead]) bs)))) = [1; 2; 3]%N.
Proof. vm_compute. reflexivity. Qed.

(** Whenever pushes happen: as long as the thread keeps up, the file contains, in
    order, every entry pushed before the last index it recorded. *)
Theorem C42_drain_complete : forall cap old l, 0 < cap -> Forall entry_ok (old ++ pushed_by l) ->
  let d := drain_start (fold_left (push cap) old blank) in keeps_up cap d l ->
  subseq (map shorten (firstn (d_last (drained cap d l) - length old) (pushed_by l))) (d_file (drained cap d l)).
Proof.
  intros cap old l Hc Ok d K. pose proof (holds_pushes cap old _ _ Hc (holds_blank cap)) as H. cbn [app] in H.
  apply (di_file cap old). apply (dinv_run cap old l d []); auto.
  constructor; cbn [d drain_start d_mem d_last d_cur d_file].
  - rewrite app_nil_r. exact H.
  - rewrite (proj1 H). cbn. lia.
  - discriminate.
  - rewrite firstn_nil. constructor.
Qed.
Print Assumptions C42_drain_complete.

(** But an entry pushed between the thread's two calls is written to the file twice. *)
Theorem C42_drain_once_refuted : exists a b,
  entry_ok a /\ entry_ok b /\ a <> b /\
  let l := [DPush a; DPeek; DPush b; DRead; DPeek; DRead] in
  keeps_up DEFAULT_LOG_ENTRIES (drain_start blank) l
  /\ d_file (drained DEFAULT_LOG_ENTRIES (drain_start blank) l) = [shorten a; shorten b; shorten b].
Proof.
  exists (sample 1 "a"), (sample 2 "b"). split; [apply sample_ok; reflexivity|]. split; [apply sample_ok; reflexivity|].
  split; [discriminate|]. split; [|vm_compute; reflexivity].
  intros l1 l2 E. do 6 (destruct l1 as [|? l1]; cbn [app] in E; [try discriminate E; apply Nat.leb_le; vm_compute; reflexivity|
    injection E as <- E]). destruct l1; discriminate.
Qed.
Print Assumptions C42_drain_once_refuted.

(** * Interleaved processes *)
(** The steps of a push (of a read) by a process that is not interrupted have the
    effect of the whole call. *)
Theorem C42_steps_push : forall cap s p e, procs s p = Idle ->
  length (cell (shm s) (widx (shm s) mod cap)) = SLOT_DATA_SIZE ->
  exists s' k, run (fun _ => cap) s (APush p e :: List.repeat (AStep p) k) =
      (s', [EClaim p (widx (shm s)) e; EPushed p (widx (shm s))])
  /\ (forall q, procs s' q = procs s q)
  /\ let m := push cap (shm s) e in
     widx (shm s') = widx m /\ (forall j, sq (shm s') j = sq m j) /\ (forall j, cell (shm s') j = cell m j).
Proof. exact push_alone. Qed.
Print Assumptions C42_steps_push.
Theorem C42_steps_read : forall cap s p after, procs s p = Idle ->
  (forall c, Nat.odd (sq (shm s) c) = false) ->
  exists s' k, run (fun _ => cap) s (ARead p after :: List.repeat (AStep p) k) =
      (s', [ERead p (snd (get_since cap (shm s) after))])
  /\ (forall q, procs s' q = procs s q) /\ shm s' = shm s.
Proof.
  intros cap s p after Hp He.
  destruct (read_alone cap p (visited cap (widx (shm s)) after) (at_ s (shm s) p (RNext (visited cap (widx (shm s)) after) [])) [])
    as (s' & k & R1 & R2 & R3 & R4 & _).
  - cbn [at_ procs]. apply put_same.
  - intros; apply He.
  - exists s', k. cbn [run step]. rewrite Hp, R1. cbn [app at_ shm]. split; [reflexivity|]. split; auto.
    intros q. destruct (Nat.eq_dec q p) as [->|Ne]; [congruence|]. rewrite R3 by auto. cbn [at_ procs]. apply put_other; auto.
Qed.
Print Assumptions C42_steps_read.

(** Whatever the interleaving, crashes and time-outs included, pushes get the
    positions 0, 1, 2, ... in the order they claim them: no two share one. *)
Theorem C42_positions : forall cap l s h, run cap boot l = (s, h) ->
  (forall k p i e x y, h = x ++ EClaim p i e :: y -> k = length (claimed x) -> i = k)
  /\ widx (shm s) = length (claimed h).
Proof.
  intros cap l s h R. split; [|apply (run_widx _ _ _ _ _ R)].
  intros k p i e x y E ->.
  enough (G : forall l s0 s h x, run cap s0 l = (s, h) -> h = x ++ EClaim p i e :: y -> i = widx (shm s0) + length (claimed x))
    by exact (G l boot s h x R E).
  clear. induction l as [|a l IH]; intros s0 s h x R E; cbn [run] in R; [injection R as _ <-; destruct x; discriminate|].
  destruct (step cap s0 a) as [s1 e1] eqn:E1. destruct (run cap s1 l) as [s2 e2] eqn:E2. injection R as <- <-.
  assert (K : (exists z, x = e1 ++ z /\ e2 = z ++ EClaim p i e :: y) \/ (exists z, e1 = x ++ EClaim p i e :: z)).
  { clear - E. revert x E. induction e1 as [|v e1 IHe]; intros x E; [left; exists x; auto|].
    destruct x as [|w x]; cbn [app] in E; injection E as <- E.
    - right. exists e1. reflexivity.
    - destruct (IHe x E) as [(z & -> & ->)|(z & ->)]; [left|right]; exists z; auto. }
  destruct K as [(z & -> & ->)|(z & ->)].
  - rewrite (IH _ _ _ _ E2 eq_refl), (step_widx _ _ _ _ _ E1), claimed_app, app_length. lia.
  - destruct a as [q e'|q n|q|q]; cbn [step] in E1; destruct (procs s0 q) eqn:Ep;
      repeat match goal with
      | E : context [match ?x with _ => _ end] |- _ => destruct x
      end; injection E1 as <- E1; try (destruct x as [|? [|? ?]]; discriminate).
    destruct x as [|? [|? ?]]; try discriminate. injection E1 as <- <- <-. cbn. lia.
Qed.
Print Assumptions C42_positions.

(** Once no push is running, a read is exact, whatever the interleaving before, as long
    as no push was overtaken by [cap] later ones and no reader gave up on one. *)
Theorem C42_quiescent_partial : forall cap l s h after, 0 < cap -> pushes_ok l -> patient l ->
  throughout (fun _ => cap) (no_straggler cap) boot l -> run (fun _ => cap) boot l = (s, h) ->
  (forall p i, ~ pushing s p i) ->
  get_since cap (shm s) after = (shm s, map shorten (kept cap after (claimed h))).
Proof.
  intros cap l s h after Hc Ok P T R Q.
  destruct (inv_run cap l boot [] s h Hc (inv_boot cap) T P R) as (I & _). cbn [app] in I.
  apply get_since_settled; auto; [eapply run_ok; eauto|apply I|].
  intros i e E L. destruct (v_set _ _ _ I i e E L) as [S|(p & d & W)]; auto.
  destruct (Q p i). eapply writing_pushing; eauto.
Qed.
Print Assumptions C42_quiescent_partial.

(** A read among running pushes.  If fewer than [cap] positions are claimed beyond the
    first it asks for, and no push of a later round had claimed but not yet marked its
    slot when it began, it returns some of the entries asked for, whole, in order and
    once each; only pushes that had not returned when it began can be missing. *)
Theorem C42_concurrent_partial : forall cap l1 s1 h1 p after l2 s2 h2 got,
  let start := Nat.max after (length (claimed h1) - cap) in
  0 < cap -> pushes_ok (l1 ++ ARead p after :: l2) -> patient (l1 ++ ARead p after :: l2) ->
  throughout (fun _ => cap) (no_straggler cap) boot (l1 ++ ARead p after :: l2) ->
  run (fun _ => cap) boot l1 = (s1, h1) -> procs s1 p = Idle ->
  run (fun _ => cap) s1 (ARead p after :: l2) = (s2, h2 ++ [ERead p got]) ->
  (forall a, ~ In (ERead p a) h2) ->
  length (claimed (h1 ++ h2)) <= start + cap ->
  (forall q i d, procs s1 q = WClaimed i d -> start <= i -> i < cap) ->
  exists f, got = map shorten (chosen f start (kept cap after (claimed h1)))
  /\ forall i, start <= i < length (claimed h1) -> returned h1 i -> f i = true.
Proof.
  intros cap l1 s1 h1 p after l2 s2 h2 acc start Hc Ok P T R1 Hp R2 NR Lap A1.
  destruct (throughout_app _ _ _ _ _ _ _ T R1) as [T1 T2].
  assert (P1 : patient l1) by (intros q H; apply (P q), in_or_app; auto).
  assert (P2 : patient l2) by (intros q H; apply (P q), in_or_app; right; right; auto).
  assert (Ok1 : Forall entry_ok (claimed h1)).
  { eapply run_ok; [|exact R1]. intros q e H. apply (Ok q e), in_or_app; auto. }
  destruct (inv_run cap l1 boot [] s1 h1 Hc (inv_boot cap) T1 P1 R1) as (I & _ & D). cbn [app] in I, D.
  cbn [run] in R2. destruct (step (fun _ => cap) s1 (ARead p after)) as [s1' e1] eqn:E1.
  pose proof (throughout_tail _ _ _ _ _ _ _ T2 E1) as T2'.
  assert (I' : inv_ cap s1' (claimed h1 ++ claimed e1)).
  { eapply inv_step; eauto; [eapply throughout_head; eauto|discriminate]. }
  assert (W2 : widx (shm s2) = length (claimed (h1 ++ h2))).
  { destruct (run (fun _ => cap) s1' l2) as [s3 h3] eqn:E2. injection R2 as <- R2.
    rewrite (run_widx _ _ _ _ _ E2), (step_widx _ _ _ _ _ E1), (v_w _ _ _ I), claimed_app, app_length.
    pose proof (f_equal (fun h => length (claimed h)) R2) as X. cbn beta in X.
    rewrite !claimed_app, !app_length in X. cbn [claimed length] in X. lia. }
  cbn [step] in E1. rewrite Hp in E1. injection E1 as <- <-. cbn [claimed] in I'. rewrite app_nil_r in I'.
  destruct (run (fun _ => cap) (at_ s1 (shm s1) p (RNext (visited cap (widx (shm s1)) after) [])) l2) as [s3 h3] eqn:E2.
  injection R2 as <- R2. cbn [app] in R2. subst h3.
  destruct (reading_run cap p start (claimed h1) (returned h1) Hc Ok1 l2 _ (claimed h1) [] s3 h2 acc I')
    as (_ & _ & f & F1 & F2); auto.
  - rewrite app_nil_r. reflexivity.
  - intros q i d H S1 _. cbn [at_ procs] in H. destruct (Nat.eq_dec q p) as [->|Ne]; [rewrite put_same in H; discriminate|].
    rewrite put_other in H by auto. eauto.
  - intros i Hi (q & Hq) q' d Wd. cbn [at_ procs] in Wd. destruct (Nat.eq_dec q' p) as [->|Ne].
    + rewrite put_same in Wd. destruct Wd as [X|[k X]]; discriminate.
    + rewrite put_other in Wd by auto. destruct (D q i Hq) as [_ D']. eapply D'; eauto.
  - unfold reading. cbn [at_ procs]. rewrite put_same. exists start. split.
    + split; [lia|]. split; [right; reflexivity|]. exists (fun _ => true). rewrite Nat.sub_diag. split; [reflexivity|lia].
    + rewrite visited_eq, (v_w _ _ _ I) by auto. reflexivity.
  - rewrite W2. exact Lap.
  - exists f. split; [|intros i [H1 H2] H3; apply F2; auto; lia].
    rewrite F1. unfold kept. fold start. rewrite (firstn_all2 (skipn start (claimed h1))); auto.
    rewrite skipn_length. lia.
Qed.
Print Assumptions C42_concurrent_partial.
(** A read that starts while the second of two pushes is half copied: it waits for it
    and returns both. *)
Example C42_concurrent_case :
  let pushed := APush 1 (sample 1 "a") :: List.repeat (AStep 1) 506 in
  let l1 := pushed ++ APush 3 (sample 2 "b") :: List.repeat (AStep 3) 100 in
  let l2 := List.repeat (AStep 2) 600 ++ List.repeat (AStep 3) 406 ++ List.repeat (AStep 2) 600 in
  map (fun e => match e with ERead p l => map le_tick l | _ => [] end)
    (snd (run (fun _ => 4) boot (l1 ++ ARead 2 0 :: l2))) = [[]; []; []; []; [1; 2]]%N.
Proof. vm_compute. reflexivity. Qed.

(** Without those two conditions reads are wrong, at every capacity and without any
    reader giving up: a push may replace a slot while it is being read, and the entry
    returned is one that nobody pushed; *)
Theorem C42_whole_refuted : exists a b x, entry_ok a /\ entry_ok b /\ x <> shorten a /\ x <> shorten b /\
  forall cap, 0 < cap -> exists l s h rest,
    run (fun _ => cap) boot l = (s, h ++ [ERead 2 (x :: rest)]) /\ patient l
    /\ claimed h = List.repeat a cap ++ [b].
Proof.
  pose (a := sample 1 "stop at once"). pose (b := sample 2 "keep driving").
  pose (x := sample 1 "keep driving").
  exists a, b, x. split; [apply sample_ok; reflexivity|]. split; [apply sample_ok; reflexivity|].
  split; [discriminate|]. split; [discriminate|].
  intros cap Hc.
  destruct (torn cap a b (match stored a with Some d => d | None => [] end) (match stored b with Some d => d | None => [] end) 20 x Hc)
    as (l & s & h & rest & R & Q & C).
  - unfold SLOT_DATA_SIZE. lia.
  - vm_compute. reflexivity.
  - vm_compute. reflexivity.
  - vm_compute. reflexivity.
  - exists l, s, h, rest. split; auto. split; [apply quiet_patient; auto|auto].
Qed.
Print Assumptions C42_whole_refuted.
(** and once the ring is full, a poll that arrives just after a push has claimed its
    position gets the entry from a round ago instead of the new one. *)
Theorem C42_cursor_refuted : forall cap a b, 0 < cap -> entry_ok a ->
  exists l s h l' s' h', run (fun _ => cap) boot l = (s, h) /\ patient (l ++ l')
  /\ claimed h = List.repeat a cap /\ widx (shm s) = cap
  /\ run (fun _ => cap) s (APush 1 b :: ARead 2 cap :: l') = (s', h' ++ [ERead 2 [shorten a]])
  /\ claimed h' = [b].
Proof.
  intros cap a b Hc Ok. destruct (stale cap a b Hc Ok) as (l & s & h & l' & s' & h' & d & R & Q & C & W & _ & R' & C').
  exists l, s, h, l', s', h'. repeat split; auto. apply quiet_patient; auto.
Qed.
Print Assumptions C42_cursor_refuted.

(** A poller that remembers the write index misses an entry whose push was running
    while it polled, even in a ring that never fills. *)
Theorem C42_poll_complete_refuted : exists e, entry_ok e /\
  let l := [APush 1 e; ARead 2 0] ++ List.repeat (AStep 2) 2 ++ List.repeat (AStep 1) 506 ++ ARead 2 1 :: List.repeat (AStep 2) 1 in
  patient l /\ snd (run (fun _ => DEFAULT_LOG_ENTRIES) boot l) = [EClaim 1 0 e; ERead 2 []; EPushed 1 0; ERead 2 []]
  /\ widx (shm (fst (run (fun _ => DEFAULT_LOG_ENTRIES) boot [APush 1 e; ARead 2 0]))) = 1.
Proof.
  exists (sample 1 "a"). split; [apply sample_ok; reflexivity|]. split; [|split; vm_compute; reflexivity].
  intros p H. repeat (apply in_app_or in H as [H|H]); cbn [In] in H.
  - destruct H as [H|[H|[]]]; discriminate.
  - apply repeat_spec in H. discriminate.
  - apply repeat_spec in H. discriminate.
  - destruct H as [H|H]; [discriminate|]. apply repeat_spec in H. discriminate.
Qed.
Print Assumptions C42_poll_complete_refuted.

(** A push that died after marking its slot: the first reader gives up and resets the
    slot, and from then on every read returns an empty entry that nobody pushed. *)
Theorem C42_crash_phantom_refuted : exists e, entry_ok e /\ exists x : entry,
  snd (run (fun _ => DEFAULT_LOG_ENTRIES) boot
    ([APush 1 e; AStep 1; ARead 2 0; AStep 2; ATimeout 2; AStep 2; ARead 2 0] ++ List.repeat (AStep 2) 600))
  = [EClaim 1 0 e; ERead 2 []; ERead 2 [x]] /\ x <> shorten e /\ le_message x = [] /\ le_type x = Publish.
Proof.
  exists (sample 1 "a"). split; [apply sample_ok; reflexivity|]. eexists. split; [vm_compute; reflexivity|].
  split; [discriminate|]. split; reflexivity.
Qed.
Print Assumptions C42_crash_phantom_refuted.

(** Processes whose buffers were opened with different capacities disagree: here the
    writer uses 200 slots and the reader 100; after 101 entries the reader misses the
    newest and returns the oldest in its place. *)
Lemma read_list m (es : nat -> entry) l :
  (forall s, In s l -> read_slot m s = (m, [es s])) -> read_slots m l = (m, map es l).
Proof.
  induction l as [|s l IH]; intros H; [reflexivity|]. cbn [read_slots map]. rewrite (H s (or_introl eq_refl)).
  rewrite IH; [reflexivity|]. intros; apply H; right; auto.
Qed.
Theorem C42_capacities_refuted : forall es : nat -> entry, (forall k, entry_ok (es k)) ->
  let m := fold_left (push 200) (map es (seq 0 101)) blank in
  get_since 100 m 0 = (m, map (fun k => shorten (es k)) (seq 1 99 ++ [0])).
Proof.
  intros es Ok m. pose proof (holds_pushes 200 (map es (seq 0 101)) _ _ ltac:(lia) (holds_blank 200)) as [W H].
  cbn [app] in W, H. fold m in W, H. rewrite map_length, seq_length in W, H.
  unfold get_since. rewrite W. replace (visited 100 101 0) with (seq 1 99 ++ [0]) by (vm_compute; reflexivity).
  rewrite (read_list m (fun k => shorten (es k))); auto.
  intros s Hs. assert (L : s < 101) by (apply in_app_or in Hs as [Hs|[<-|[]]]; [apply in_seq in Hs|]; lia).
  specialize (H s (es s)). rewrite nth_error_map in H.
  assert (E : nth_error (seq 0 101) s = Some s) by (rewrite nth_error_nth' with (d := 0) by (rewrite seq_length; lia); rewrite seq_nth by lia; reflexivity).
  rewrite E in H. specialize (H eq_refl ltac:(lia)).
  replace s with (s mod 200) at 1 by (apply Nat.mod_small; lia). apply settled_read; auto.
Qed.
Print Assumptions C42_capacities_refuted.
