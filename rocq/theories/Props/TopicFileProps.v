(** C70, C72-C74: a topic as a file shared with programs outside the typed API. *)
From Verif.Base Require Import Prelude Bytes.
From Verif.Model Require Import TopicFile.
From Verif.Spec Require Import TopicFileSpec.
From Verif.Proofs Require Import TopicFileProofs.
Open Scope N_scope.

(** A new topic of [c] slots (a power of two) of [ts]-byte messages, and the writer any program opens on it. *)
Definition sizes (c ts : N) : Prop := (exists k, c = 2 ^ k) /\ c < 2 ^ 32 /\ 0 < ts < 2 ^ 32.
Definition writer (c ts : N) : RingWriter := mkWriter ts c (c - 1) ts true.
Definition start : Local := mkLocal 0 0.
Definition sized (ts : N) (l : list bytes) : Prop := Forall (fun m => N.of_nat (length m) = ts) l.
Lemma sizes_pow2 c ts : sizes c ts -> is_power_of_two c = true.
Proof.
  intros ((k & ->) & _). unfold is_power_of_two. rewrite N.log2_pow2, N.eqb_refl, andb_true_r by lia.
  apply negb_true_iff, N.eqb_neq, N.pow_nonzero. lia.
Qed.
Lemma new_current c ts : sizes c ts -> current (writer c ts) (new_pod_topic c ts) [] /\ word OFF_TAIL 8 (new_pod_topic c ts) = 0.
Proof.
  intros S. pose proof (sizes_pow2 _ _ S) as P. destruct S as (_ & H1 & H2 & H3).
  destruct (new_topic_holds (writer c ts) c ts eq_refl P H1 H2 H3) as (A & B & C). split; [split; auto|auto].
Qed.
(** Anyone who opens the file gets that writer. *)
Theorem C72_open_new c ts : sizes c ts -> open_path (new_pod_topic c ts) = Some (writer c ts).
Proof.
  intros S. destruct (new_current c ts S) as ((H & _) & _). pose proof (sizes_pow2 _ _ S) as P. destruct S as (_ & H1 & H2 & H3).
  destruct H as [[] _ _ _]. cbn [writer w_cap w_mask w_type w_pod] in *. unfold open_path.
  rewrite g_magic, g_wtype, g_wpod, g_wcap, g_wmask, P, !N.eqb_refl. cbn [negb orb].
  assert (word OFF_SLOT 4 (new_pod_topic c ts) = ts) as -> by (apply word_same; exact H3).
  unfold required_region_len, data_region_offset in g_len.
  destruct (N.ltb_spec (t_len (new_pod_topic c ts)) HEADER_SIZE); [offs; lia|].
  pose proof (pow2_pos _ P). destruct (N.eqb_spec c 0); [contradiction|]. destruct (N.eqb_spec ts 0); [contradiction|]. cbn [orb].
  unfold required_region_len, data_region_offset. destruct (N.ltb_spec (t_len (new_pod_topic c ts)) (HEADER_SIZE + c * 8 + c * ts)); [lia|]. reflexivity.
Qed.
Print Assumptions C72_open_new.

(** ** C70: exporting the newest message *)

(** After any history of [send] and [recv] in which no [send] was refused, the exporter reads the newest message and its
    number, once: nothing if there is none, or if it has that number already. *)
Theorem C70_newest_exported_partial c ts h f p q oks last :
  sizes c ts -> sized ts (sent h) -> uses_send h -> N.of_nat (length h) < 2 ^ 63 ->
  lrun (writer c ts) (new_pod_topic c ts, start, start) h = ((f, p, q), oks) -> none_dropped h oks ->
  read_latest_slot_bytes f last =
    Ret (if (length (sent h) =? 0)%nat || (N.of_nat (length (sent h)) =? last) then None
         else Some (mkSlot (List.last (sent h) []) (N.of_nat (length (sent h))) true)).
Proof.
  intros S Z U L R D. destruct (new_current c ts S) as ((H & T) & _).
  destruct (lrun_holds (writer c ts) h (new_pod_topic c ts) start start [] _ _ H T eq_refl Z U L R D) as (A & B & _).
  apply (read_newest (writer c ts)); auto.
Qed.
Print Assumptions C70_newest_exported_partial.
Definition hist_sends : list lev := [LSend [1;2]; LSend [3;4]; LRecv; LSend [5;6]; LRecv; LSend [7;8]].
Example C70_ex_hyp : sizes 2 2 /\ sized 2 (sent hist_sends) /\ uses_send hist_sends /\
  snd (lrun (writer 2 2) (new_pod_topic 2 2, start, start) hist_sends) = [true; true; true; true; true; true] /\
  read_latest_slot_bytes (fst (fst (fst (lrun (writer 2 2) (new_pod_topic 2 2, start, start) hist_sends)))) 3 = Ret (Some (mkSlot [7;8] 4 true)).
Proof.
  split; [split; [exists 1; reflexivity|lia]|]. split; [repeat constructor|]. split; [intros m; cbn; intuition congruence|].
  vm_compute. auto.
Qed.

(** An imported or locally serialized message can be read back by number at once, whatever else the file holds. *)
Theorem C70_import_visible w f f' m last :
  open_path f = Some w -> word OFF_HEAD 8 f = word OFF_TOTAL 8 f -> word OFF_HEAD 8 f + 1 < 2 ^ 63 -> t_len f < 2 ^ 63 ->
  ring_write w m f = Ret (f', true) -> m <> [] -> word OFF_HEAD 8 f + 1 <> last ->
  read_latest_slot_bytes f' last = Ret (Some (mkSlot m (word OFF_HEAD 8 f + 1) (w_pod w))).
Proof. apply import_visible. Qed.
Print Assumptions C70_import_visible.

(** What is published with [try_send] (and so with [send_blocking]) alone is never exported. *)
Theorem C70_try_send_refuted c ts h f p q oks last :
  sizes c ts -> sized ts (sent h) -> (forall m, ~ In (LSend m) h) ->
  lrun (writer c ts) (new_pod_topic c ts, start, start) h = ((f, p, q), oks) ->
  read_latest_slot_bytes f last = Ret None.
Proof.
  intros S Z U R. destruct (new_current c ts S) as ((H & T) & _). apply read_total_zero.
  pose proof (lrun_try (writer c ts) h (new_pod_topic c ts) start start _ _ U (sizes_pow2 _ _ S) eq_refl Z R) as E. cbn [fst] in E.
  rewrite E. exact T.
Qed.
Print Assumptions C70_try_send_refuted.
Example C70_ex_try : snd (lrun (writer 2 2) (new_pod_topic 2 2, start, start) [LTry [1;2]; LRecv]) = [true; true].
Proof. vm_compute. reflexivity. Qed.

(** One refused [send] and the exporter reads the wrong slot from then on: the newest message is [9,9], it exports [3,4] again. *)
Theorem C70_dropped_send_refuted : exists h f p q oks,
  lrun (writer 2 2) (new_pod_topic 2 2, start, start) h = ((f, p, q), oks) /\ uses_send h /\
  nth_error oks 5 = Some true /\ nth_error h 5 = Some (LSend [9;9]) /\ length h = 6%nat /\
  read_latest_slot_bytes f 2 = Ret (Some (mkSlot [3;4] 4 true)).
Proof.
  exists [LSend [1;2]; LSend [3;4]; LSend [5;6]; LRecv; LRecv; LSend [9;9]].
  destruct (lrun _ _ _) as [[[f p] q] oks] eqn:E. exists f, p, q, oks. split; [reflexivity|].
  split; [intros m; cbn; intuition congruence|].
  assert (oks = [true; true; false; true; true; true] /\ read_latest_slot_bytes f 2 = Ret (Some (mkSlot [3;4] 4 true))) as [-> ->].
  { change f with (fst (fst (fst (f, p, q, oks)))). change oks with (snd (f, p, q, oks)) at 1. rewrite <- E. vm_compute. auto. }
  auto.
Qed.
Print Assumptions C70_dropped_send_refuted.

(** [send] counts the message before it writes it.  An exporter that looks in between takes the number of the new message
    with the bytes of the one [c] before it, and the new message is then never exported. *)
Theorem C70_counted_early_refuted w f l p m p' f' :
  current w f l -> (N.to_nat (w_cap w) <= length l)%nat -> N.of_nat (length l) + 1 < 2 ^ 63 ->
  lo_head p = N.of_nat (length l) -> N.of_nat (length m) = w_type w -> send_pod w p m f = (p', f', true) ->
  let n := N.of_nat (length l) in
  read_latest_slot_bytes (count_send f) n = Ret (Some (mkSlot (nth (length l - N.to_nat (w_cap w)) l []) (n + 1) true)) /\
  read_latest_slot_bytes f' (n + 1) = Ret None.
Proof.
  intros C Hc Hn P Hm E n. split; [apply (read_between w f l); auto; unfold n; lia|].
  destruct (send_current w f l p m p' f' C P Hn Hm E) as (A & B). rewrite (read_newest w f' (l ++ [m])) by auto.
  rewrite app_length. cbn [length]. replace (N.of_nat (length l + 1)) with (n + 1) by (unfold n; lia). rewrite N.eqb_refl, orb_true_r. reflexivity.
Qed.
Print Assumptions C70_counted_early_refuted.
Example C70_ex_early : let '(f, p, q, _) := lrun (writer 2 2) (new_pod_topic 2 2, start, start) [LSend [1;2]; LRecv; LSend [3;4]; LRecv] in
  read_latest_slot_bytes (count_send f) 2 = Ret (Some (mkSlot [1;2] 3 true)) /\
  snd (send_pod (writer 2 2) p [5;6] f) = true.
Proof. vm_compute. auto. Qed.

(** ** C72: topic files are not trusted *)

(** Reading any file at all does not fault, if no slot's length word is within the file's length of 2^64 ... *)
Theorem C72_read_safe_partial f last ord :
  (forall slot, HEADER_SIZE <= slot -> slot + 16 <= t_len f -> slot + 16 + word (slot + 8) 8 f < 2 ^ 64) ->
  read_slot_inner f last ord <> Fault.
Proof.
  intros H E. pose proof (read_cases f last ord) as C. rewrite E in C. destruct C as (_ & slot & A & B & D).
  specialize (H slot A B). unfold U64 in D. lia.
Qed.
Print Assumptions C72_read_safe_partial.
(** ... which holds of every file that says its messages are plain data: *)
Theorem C72_read_safe_pod f last ord : word OFF_IS_POD 1 f = POD_YES -> read_slot_inner f last ord <> Fault.
Proof. intros H E. pose proof (read_cases f last ord) as C. rewrite E in C. tauto. Qed.
Print Assumptions C72_read_safe_pod.
(** What is returned is a part of the file after its header, labelled with the file's own counter. *)
Theorem C72_read_inside f last ord s : read_slot_inner f last ord = Ret (Some s) ->
  exists off, HEADER_SIZE <= off /\ off + N.of_nat (length (sr_payload s)) <= t_len f /\
    sr_payload s = peek off (length (sr_payload s)) f /\ sr_idx s = word OFF_TOTAL 8 f.
Proof. intros E. pose proof (read_cases f last ord) as C. rewrite E in C. exact C. Qed.
Print Assumptions C72_read_inside.

(** A serialized topic of two 32-byte slots with one message in it. *)
Definition serial_topic : TF := poke OFF_SLOT (le_enc 4 32) (poke OFF_IS_POD [1] (mkTF (required_region_len 2 32) (t_at (new_pod_topic 2 8)))).
Definition serial_writer : RingWriter := mkWriter 8 2 1 32 false.
Definition after (r : tres (TF * bool)) : TF := match r with Ret (f, _) => f | Fault => serial_topic end.
(** Whoever can write the file makes every reader of it panic: one length word of 2^64-1. *)
Theorem C72_length_word_refuted : exists f, open_path f = Some serial_writer /\ t_len f = 720 /\
  read_latest_slot_bytes f 0 = Fault.
Proof.
  exists (poke (data_slot_offset 2 0 32 + 8) (le_enc 8 (2 ^ 64 - 1)) (after (ring_write serial_writer [7;7;7] serial_topic))).
  vm_compute. auto.
Qed.
Print Assumptions C72_length_word_refuted.
(** A length word larger than the slot is believed: the reader gets the neighbouring slot as part of the message. *)
Theorem C72_overread_refuted : exists f s, open_path f = Some serial_writer /\
  read_one_slot f 1 = Ret (Some s) /\ (N.to_nat 32 < length (sr_payload s))%nat /\ nth 32 (sr_payload s) 0 = 9.
Proof.
  pose (f := poke (data_slot_offset 2 0 32 + 8) (le_enc 8 40)
    (after (ring_write serial_writer [9;9;9] (after (ring_write serial_writer [7;7;7] serial_topic))))).
  exists f. destruct (read_one_slot f 1) as [|[s|]] eqn:E; [vm_compute in E; discriminate| |vm_compute in E; discriminate].
  exists s. split; [vm_compute; reflexivity|]. split; [reflexivity|]. vm_compute in E. inv E. cbn. split; [lia|reflexivity].
Qed.
Print Assumptions C72_overread_refuted.

(** The importer, opened on any file it accepts, never faults on a file of the same length whatever it has come to hold,
    changes nothing but the counters and the slot that is next, and nothing at all when the message does not fit. *)
Theorem C72_import_confined w f g m : open_path f = Some w -> t_len g = t_len f ->
  exists g' ok, ring_write w m g = Ret (g', ok) /\ t_len g' = t_len g /\
    (ok = true <-> if w_pod w then N.of_nat (length m) = w_type w else N.of_nat (length m) + 16 <= w_slot w) /\
    (ok = false -> g' = g) /\ forall i, ~ import_area w g i -> t_at g' i = t_at g i.
Proof.
  intros O L. destruct (import_frame w f g m O L) as (g' & A & B & C & D). exists g', (fits w m). repeat split; auto;
    unfold fits in *; destruct (w_pod w); rewrite ?N.eqb_eq, ?N.leb_le; auto.
Qed.
Print Assumptions C72_import_confined.
Example C72_ex_import : open_path serial_topic = Some serial_writer /\
  exists g, ring_write serial_writer [7;7;7] serial_topic = Ret (g, true) /\ read_latest_slot_bytes g 0 = Ret (Some (mkSlot [7;7;7] 1 false)).
Proof. split; [vm_compute; reflexivity|]. eexists. split; [unfold ring_write; cbn [serial_writer w_pod]; vm_compute; reflexivity|vm_compute; reflexivity]. Qed.

(** ** C73: imported messages reach the local subscriber *)

(** The importer feeds a new topic and one local subscriber reads it.  As long as no message arrives while [c] are
    waiting, what the subscriber gets is what a queue would deliver; whichever of the two receive paths it uses. *)
Theorem C73_fifo_partial mpsc c ts h out :
  sizes c ts -> sized ts (imported h) -> N.of_nat (length h) < 2 ^ 63 -> queue (N.to_nat c) [] h = Some out ->
  exists f q, irun mpsc (writer c ts) (new_pod_topic c ts) start h = Ret (f, q, out) /\
    read_latest_slot_bytes f 0 = Ret (if (length (imported h) =? 0)%nat then None
      else Some (mkSlot (List.last (imported h) []) (N.of_nat (length (imported h))) true)).
Proof.
  intros S Z L Q. destruct (new_current c ts S) as ((H & T) & _).
  edestruct (irun_queue mpsc (writer c ts) h (new_pod_topic c ts) [] start out) as (f & q & R & A & B); auto;
    cbn [start lo_tail lo_head length]; try lia.
  exists f, q. split; auto. rewrite (read_newest (writer c ts) f (imported h)) by auto.
  destruct (length (imported h)); reflexivity.
Qed.
Print Assumptions C73_fifo_partial.
Definition hist_imports : list iev := [Import [1]; Import [2]; Recv; Import [3]; Recv; Recv; Recv; Import [4]; Recv].
Example C73_ex : sizes 2 1 /\ sized 1 (imported hist_imports) /\ queue 2 [] hist_imports = Some [[1];[2];[3];[4]].
Proof. split; [split; [exists 1; reflexivity|lia]|]. split; [repeat constructor|reflexivity]. Qed.

(** The importer does not look at how far the subscriber is.  One message too many and the subscriber gets the third
    message first, then the second, then the third again, and never the first. *)
Theorem C73_lapped_refuted : exists f q,
  irun false (writer 2 1) (new_pod_topic 2 1) start [Import [1]; Import [2]; Import [3]; Recv; Recv; Recv; Recv] =
  Ret (f, q, [[3];[2];[3]]).
Proof.
  destruct (irun _ _ _ _ _) as [|[[f q] out]] eqn:E; [vm_compute in E; discriminate|]. exists f, q.
  assert (out = [[3];[2];[3]]) as ->; [|reflexivity].
  assert (I : match irun false (writer 2 1) (new_pod_topic 2 1) start [Import [1]; Import [2]; Import [3]; Recv; Recv; Recv; Recv] with
              | Ret (_, _, o) => o = [[3];[2];[3]] | Fault => False end) by (vm_compute; reflexivity).
  rewrite E in I. exact I.
Qed.
Print Assumptions C73_lapped_refuted.
(** On the receive path of a topic with several publishers the subscriber then gets nothing, ever again, whatever arrives. *)
Theorem C73_stalled_refuted c ts pre f q out h :
  sizes c ts -> sized ts (imported pre) -> sized ts (imported h) -> N.of_nat (length pre + length h) < 2 ^ 63 ->
  (N.to_nat c < length (imported pre))%nat -> Forall (fun e => e <> Recv) pre ->
  irun true (writer c ts) (new_pod_topic c ts) start pre = Ret (f, q, out) ->
  exists f' q', irun true (writer c ts) f q h = Ret (f', q', []).
Proof.
  intros S Z Z' L Hc NR R. destruct (new_current c ts S) as ((H & T) & _).
  assert (Hpre : forall f l, holds (writer c ts) f l -> N.of_nat (length l + length pre) < 2 ^ 63 ->
    exists f', irun true (writer c ts) f start pre = Ret (f', start, []) /\ holds (writer c ts) f' (l ++ imported pre)).
  { clear - Z NR. induction pre as [|e pre IH]; intros f l H Hn; [exists f; rewrite app_nil_r; auto|]. inv NR.
    destruct e as [m|]; [|congruence]. unfold imported in *. cbn [flat_map app irun length] in *. unfold sized in *.
    pose proof (Forall_inv Z) as Hm. pose proof (Forall_inv_tail Z) as Zt.
    destruct (import_step (writer c ts) f l m H ltac:(lia) Hm) as (f1 & E & Hf & _). rewrite E.
    destruct (IH Zt H3 f1 (l ++ [m]) Hf ltac:(rewrite app_length; cbn [length]; lia)) as (f2 & R & A).
    exists f2. split; auto. rewrite <- app_assoc in A. exact A. }
  destruct (Hpre _ [] H ltac:(cbn [length]; lia)) as (f1 & E & A). rewrite R in E. inv E.
  apply (stalled (writer c ts) h f1 (imported pre) start 0); auto; cbn [start lo_tail lo_head writer w_cap]; try lia.
  assert (length (imported pre) <= length pre)%nat; [|lia].
  clear. induction pre as [|[|] pre IH]; unfold imported in *; cbn [flat_map app length] in *; lia.
Qed.
Print Assumptions C73_stalled_refuted.
Example C73_ex_stalled : (N.to_nat 2 < length (imported [Import [1%N]; Import [2%N]; Import [3%N]]))%nat.
Proof. cbn. lia. Qed.

(** A publisher in a process of its own writes where it last was, not after the imported message: that message is lost. *)
Theorem C73_overwritten_refuted : exists f1 f2 p2 q2 f3,
  ring_write (writer 4 1) [1] (new_pod_topic 4 1) = Ret (f1, true) /\
  try_send_pod (writer 4 1) start [2] f1 = (p2, f2, true) /\
  irun false (writer 4 1) f2 start [Recv; Recv] = Ret (f3, q2, [[2]]).
Proof.
  destruct (ring_write (writer 4 1) [1] (new_pod_topic 4 1)) as [|[f1 ok]] eqn:E1; [vm_compute in E1; discriminate|].
  destruct (try_send_pod (writer 4 1) start [2] f1) as [[p2 f2] ok2] eqn:E2.
  destruct (irun false (writer 4 1) f2 start [Recv; Recv]) as [|[[f3 q2] out]] eqn:E3.
  - exfalso. cbn [irun] in E3. destruct (recv_pod false (writer 4 1) start f2) as [[? ?] ?]. destruct (recv_pod _ _ _ _) as [[? ?] ?]. discriminate.
  - exists f1, f2, p2, q2, f3.
    assert (I : match ring_write (writer 4 1) [1] (new_pod_topic 4 1) with
      | Ret (f1, ok) => ok = true /\ let '(_, f2, ok2) := try_send_pod (writer 4 1) start [2] f1 in ok2 = true /\
          match irun false (writer 4 1) f2 start [Recv; Recv] with Ret (_, _, o) => o = [[2]] | Fault => False end
      | Fault => False end) by (vm_compute; auto).
    rewrite E1, E2, E3 in I. destruct I as (-> & -> & ->). auto.
Qed.
Print Assumptions C73_overwritten_refuted.

(** ** C74: [topic echo] shows every message *)

(** The states these theorems are about are those the topic is in after any history of [send] and [recv] on it in which no
    [send] was refused, and after any imports. *)
Theorem C74_after_sends c ts h f p q oks :
  sizes c ts -> sized ts (sent h) -> uses_send h -> N.of_nat (length h) < 2 ^ 63 ->
  lrun (writer c ts) (new_pod_topic c ts, start, start) h = ((f, p, q), oks) -> none_dropped h oks ->
  current (writer c ts) f (sent h).
Proof.
  intros S Z U L R D. destruct (new_current c ts S) as ((H & T) & _).
  destruct (lrun_holds (writer c ts) h (new_pod_topic c ts) start start [] _ _ H T eq_refl Z U L R D) as (A & B & _). split; auto.
Qed.
Print Assumptions C74_after_sends.
Theorem C74_after_import w f l m : current w f l -> N.of_nat (length l) + 1 < 2 ^ 63 -> N.of_nat (length m) = w_type w ->
  exists f', ring_write w m f = Ret (f', true) /\ current w f' (l ++ [m]).
Proof.
  intros (H & T) Hn Hm. destruct (import_step w f l m H Hn Hm) as (f' & E & A & B & _). exists f'. split; auto. split; auto.
  rewrite B, T, add64_small, app_length by (unfold U64; lia). cbn [length]. lia.
Qed.
Print Assumptions C74_after_import.

(** One poll, while messages keep arriving: of the messages that are new since [last], up to the budget, each is
    returned, in order, or counted as missed; and counted only if by then it had been overwritten. *)
Theorem C74_all_accounted w f l fs ls last max :
  current w f l -> (forall k, current w (fs k) (ls k) /\ exists more, ls k = l ++ more) -> (0 < last < length l)%nat ->
  let wanted := seq last (N.to_nat (N.min (N.of_nat (length l - last)) max)) in
  exists out missed shown, read_slots_since f fs (N.of_nat last) max = Ret (out, missed) /\
    map sr_payload out = map (fun j => nth j l []) (filter shown wanted) /\
    missed = N.of_nat (length (filter (fun j => negb (shown j)) wanted)) /\
    (forall j, In j wanted -> shown j = false -> exists k, (j + N.to_nat (w_cap w) < length (ls k))%nat).
Proof.
  intros C F L wanted. destruct (read_since w f l fs ls last max C F L) as (out & lapped & kept & A & B & D & E & _).
  exists out, lapped, kept. auto.
Qed.
Print Assumptions C74_all_accounted.

(** Over its polls, [echo] prints the newest message at the start and then every message, once and in order, as long as
    no more arrive between two polls than the ring holds and the budget (4096) allows, and none while it reads. *)
Theorem C74_all_shown_partial w max f0 l0 polls ls :
  current w f0 l0 -> l0 <> [] -> Forall2 (current w) polls ls -> 0 < max ->
  paced (Nat.min (N.to_nat (w_cap w)) (N.to_nat max)) l0 ls ->
  exists new, List.last ls l0 = l0 ++ new /\ echo_run max 0 (f0 :: polls) = List.last l0 [] :: new.
Proof.
  intros (H & T) NE F M P. assert (0 < length l0)%nat by (destruct l0; [contradiction|cbn; lia]).
  destruct (echo_all w max polls l0 ls F H0 P) as (t & E1 & E2). exists t. split; auto.
  cbn [echo_run]. unfold read_slots_since. rewrite (read_newest w f0 l0) by auto.
  destruct (Nat.eqb_spec (length l0) 0); [lia|]. destruct (N.eqb_spec (N.of_nat (length l0)) 0); [lia|]. cbn [orb N.eqb].
  change (0 =? 0) with true. cbn [map sr_payload app]. f_equal. unfold echo_position. cbn [fold_left sr_idx]. rewrite N.max_r by lia. exact E2.
Qed.
Print Assumptions C74_all_shown_partial.
Definition topic_of (ms : list bytes) : TF := fst (fst (fst (lrun (writer 8 1) (new_pod_topic 8 1, start, start) (flat_map (fun m => [LSend m; LRecv]) ms)))).
Example C74_ex : echo_run 4096 0 [topic_of [[1];[2]]; topic_of [[1];[2];[3];[4]]; topic_of [[1];[2];[3];[4]]; topic_of [[1];[2];[3];[4];[5]]] = [[2];[3];[4];[5]].
Proof. vm_compute. reflexivity. Qed.

(** What is beyond the budget is not returned by the next call: messages 4 and 5 are never shown, and never reported. *)
Theorem C74_budget_skips_refuted : exists slots,
  read_slots_since (topic_of [[1];[2];[3];[4];[5]]) (fun _ => topic_of [[1];[2];[3];[4];[5]]) 1 2 = Ret (slots, 0) /\
  map sr_payload slots = [[2];[3]] /\ echo_position 1 slots = 5 /\
  read_slots_since (topic_of [[1];[2];[3];[4];[5]]) (fun _ => topic_of [[1];[2];[3];[4];[5]]) 5 2 = Ret ([], 0).
Proof. exists [mkSlot [2] 5 true; mkSlot [3] 5 true]. vm_compute. auto. Qed.
Print Assumptions C74_budget_skips_refuted.

(** Once [echo] is behind by the budget and a ring it prints nothing any more, however long it polls. *)
Theorem C74_stuck_refuted w max last polls ls :
  Forall2 (current w) polls ls -> (0 < last)%nat -> Forall (fun l => (last + N.to_nat max + N.to_nat (w_cap w) <= length l)%nat) ls ->
  echo_run max (N.of_nat last) polls = [] /\
  Forall (fun f => read_slots_since f (fun _ => f) (N.of_nat last) max = Ret ([], max)) polls.
Proof.
  intros F Hl. induction F as [|f l polls ls C F IH]; intros A; [split; [reflexivity|constructor]|]. inv A.
  destruct (IH H2) as [I1 I2]. pose proof (poll_stuck w f l last max C Hl H1) as R. split; [|constructor; auto].
  cbn [echo_run]. rewrite R. exact I1.
Qed.
Print Assumptions C74_stuck_refuted.
Example C74_ex_stuck : echo_run 2 1 [topic_of (repeat [1] 11); topic_of (repeat [2] 12)] = [].
Proof. vm_compute. reflexivity. Qed.
