(** Properties of comparing recordings and of the replay debugger: C84, C85, C88 and C89. *)
From Coq Require Import String Sorting.Sorted.
From Verif.Base Require Import Prelude Bytes AMap Str.
From Verif.Model Require Import Recording Debugger.
From Verif.Spec Require Import RecordingSpec DebuggerSpec.
From Verif.Proofs Require Import RecordingProofs DebuggerProofs.
Local Open Scope N_scope.
Local Open Scope list_scope.

(** ** C84: comparing *)
(** A difference of an output is reported exactly if, at a tick both recordings span, both have the output and the data differ. *)
Theorem C84_differences r1 r2 t topic n1 n2 : distinct r1 -> distinct r2 ->
  (In (OutputDifference t topic n1 n2) (diff_recordings r1 r2) <->
   in_overlap r1 r2 t /\ exists s1 s2 d1 d2, has r1 t s1 /\ has r2 t s2 /\ In (topic, d1) (sn_out s1) /\ In (topic, d2) (sn_out s2) /\ d1 <> d2 /\ n1 = length d1 /\ n2 = length d2).
Proof. apply diff_difference. Qed.
Print Assumptions C84_differences.
(** A tick is reported missing in a recording exactly if that recording lacks it and the other one has it. *)
Theorem C84_missing_ticks r1 r2 t k : distinct r1 -> distinct r2 ->
  (In (MissingTick t k) (diff_recordings r1 r2) <->
   in_overlap r1 r2 t /\ ((k = 1 /\ (exists s, has r2 t s) /\ forall s, ~ has r1 t s) \/ (k = 2 /\ (exists s, has r1 t s) /\ forall s, ~ has r2 t s))).
Proof. apply diff_missing_tick. Qed.
Print Assumptions C84_missing_ticks.
(** A missing output is reported exactly if one recording has it and the other does not ... *)
Theorem C84_missing_outputs r1 r2 t topic : distinct r1 -> distinct r2 ->
  ((exists k, In (MissingOutput t topic k) (diff_recordings r1 r2)) <->
   in_overlap r1 r2 t /\ exists s1 s2, has r1 t s1 /\ has r2 t s2 /\ ~ (In topic (map fst (sn_out s1)) <-> In topic (map fst (sn_out s2)))).
Proof.
  intros D1 D2. split.
  - intros (k & H). apply diff_missing_output in H as (O & s1 & s2 & H1 & H2 & C); auto. split; [exact O|]. exists s1, s2. split; [exact H1|]. split; [exact H2|]. tauto.
  - intros (O & s1 & s2 & H1 & H2 & C).
    destruct (in_dec (list_eq_dec N.eq_dec) topic (map fst (sn_out s1))) as [I1|I1], (in_dec (list_eq_dec N.eq_dec) topic (map fst (sn_out s2))) as [I2|I2]; try (exfalso; tauto).
    + exists 1. apply diff_missing_output; auto. split; [exact O|]. exists s1, s2. split; [exact H1|]. split; [exact H2|]. left. auto.
    + exists 2. apply diff_missing_output; auto. split; [exact O|]. exists s1, s2. split; [exact H1|]. split; [exact H2|]. right. auto.
Qed.
Print Assumptions C84_missing_outputs.
(** ... but, refuted: "the recording it is missing in is the one named".  It is the other one, always. *)
Theorem C88_label_refuted r1 r2 t topic k : distinct r1 -> distinct r2 -> In (MissingOutput t topic k) (diff_recordings r1 r2) ->
  exists s, has (if k =? 1 then r1 else r2) t s /\ In topic (map fst (sn_out s)).
Proof.
  intros D1 D2 H. apply diff_missing_output in H as (_ & s1 & s2 & H1 & H2 & C); auto. destruct C as [(-> & I & _)|(-> & I & _)]; [exists s1|exists s2]; auto.
Qed.
Print Assumptions C88_label_refuted.
(** The differences are told in the order of the ticks. *)
Theorem C84_ordered r1 r2 : StronglySorted N.le (map diff_at (diff_recordings r1 r2)).
Proof. apply diff_sorted. Qed.
Print Assumptions C84_ordered.
(** Nothing is reported exactly if the recordings have the same ticks with the same outputs where they overlap. *)
Theorem C84_none r1 r2 : distinct r1 -> distinct r2 ->
  (diff_recordings r1 r2 = [] <-> forall t, in_overlap r1 r2 t ->
     (forall s1, has r1 t s1 -> exists s2, has r2 t s2 /\ same_outputs s1 s2) /\ (forall s2, has r2 t s2 -> exists s1, has r1 t s1 /\ same_outputs s1 s2)).
Proof. apply diff_nil. Qed.
Print Assumptions C84_none.
(** Refuted: "recordings without a difference are the same".  A recording and any continuation of it have none. *)
Theorem C88_same_refuted r1 r2 more : increasing r2 -> (forall s, In s (r_snaps r2) -> NoDup (map fst (sn_out s))) -> truthful r1 -> truthful r2 ->
  r_snaps r2 = r_snaps r1 ++ more -> diff_recordings r1 r2 = [].
Proof. apply diff_extension. Qed.
Print Assumptions C88_same_refuted.
Definition dsnap (t : N) (out : list (bytes * bytes)) : Snap := mkSnap t 0 [] out None 0.
Definition drec (l : list Snap) (a b : N) : Rec := mkRec (bs "1") (bs "n") (bs "s") None a b l.
Definition dr1 : Rec := drec [dsnap 1 [(bs "a", [1])]; dsnap 2 [(bs "a", [2]); (bs "b", [7])]; dsnap 3 [(bs "a", [3])]; dsnap 5 []] 1 5.
Definition dr2 : Rec := drec [dsnap 2 [(bs "a", [9; 9])]; dsnap 4 [(bs "a", [4])]; dsnap 5 []; dsnap 6 []] 2 6.
Example C84_ex : diff_recordings dr1 dr2 = [OutputDifference 2 (bs "a") 1 2; MissingOutput 2 (bs "b") 1; MissingTick 3 2; MissingTick 4 1] /\ distinct dr1 /\ distinct dr2.
Proof.
  split; [vm_compute; reflexivity|]. split; (split; [cbn; repeat constructor; cbn; intuition discriminate|]); intros s H; cbn in H;
    repeat (destruct H as [<-|H]; [cbn; repeat constructor; cbn; intuition discriminate|]); destruct H.
Qed.
Lemma increasing_list r : StronglySorted N.lt (map sn_tick (r_snaps r)) -> increasing r.
Proof.
  intros S i j s t L Hi Hj. unfold increasing in *. revert i j s t L Hi Hj. induction (r_snaps r) as [|x l IH]; intros i j s t L Hi Hj; [destruct i; discriminate|].
  cbn [map] in S. apply StronglySorted_inv in S as [S F]. destruct j as [|j]; [lia|]. destruct i as [|i].
  - cbn in Hi, Hj. injection Hi as <-. rewrite Forall_forall in F. apply F, in_map. eapply nth_error_In; eauto.
  - cbn in Hi, Hj. apply (IH S i j); auto. lia.
Qed.
Example C88_ex_same : let r := drec [dsnap 2 [(bs "a", [9])]] 2 2 in let r' := drec [dsnap 2 [(bs "a", [9])]; dsnap 3 [(bs "a", [1])]] 2 3 in
  diff_recordings r r' = [] /\ increasing r' /\ truthful r /\ truthful r'.
Proof.
  cbv zeta. split; [vm_compute; reflexivity|]. split; [apply increasing_list; cbn; repeat constructor|].
  split; [exists (dsnap 2 [(bs "a", [9])]), (dsnap 2 [(bs "a", [9])]), [], []; repeat split|].
  exists (dsnap 2 [(bs "a", [9])]), (dsnap 3 [(bs "a", [1])]), [dsnap 3 [(bs "a", [1])]], [dsnap 2 [(bs "a", [9])]]; repeat split.
Qed.

(** ** C85: the debugger *)
(** [continue] stops at the first later snapshot at which an enabled breakpoint's condition is met, tells the first such breakpoint and raises the count of
    all of them by one; if there is none, it runs to the end and says so. *)
Theorem C85_continue err d : let d' := continue_execution err d in
  (exists j b s, breaks err d j b /\ nth_error (snaps d) j = Some s /\ (forall k b', (k < j)%nat -> ~ breaks err d k b') /\
     (exists l1 l2, d_bps d = l1 ++ b :: l2 /\ forall b', In b' l1 -> ~ breaks err d j b') /\
     pos d' = j /\ rp_tick (d_rp d') = sn_tick s /\ snaps d' = snaps d /\ d_state d' = Paused /\ told d' (EHit (b_id b) (sn_tick s)) /\
     forall i b0, nth_error (d_bps d) i = Some b0 -> exists n, nth_error (d_bps d') i = Some (mkBp (b_id b0) (b_cond b0) (b_on b0) n) /\
       (breaks err d j b0 -> n = b_hits b0 + 1) /\ (~ breaks err d j b0 -> n = b_hits b0)) \/
  ((forall j b, ~ breaks err d j b) /\ d_state d' = Stopped /\ pos d' = Nat.max (pos d) (length (snaps d) - 1) /\ snaps d' = snaps d /\ d_bps d' = d_bps d /\
   told d' (EFinished (rp_tick (d_rp d')))).
Proof.
  cbv zeta. destruct (continue_spec err d) as [(j & b & s & (A & N & K & F & R & Sd & T & H))|(A & Sd & P & R & B & T)].
  - left. exists j, b, s. repeat (split; [assumption|]). unfold pos, snaps. rewrite R. cbn [rp_idx rp_tick rp_rec]. repeat (split; [reflexivity|]). split; [exact Sd|]. split; [exact T|exact H].
  - right. unfold snaps. rewrite R. repeat (split; [assumption || reflexivity|]). assumption.
Qed.
Print Assumptions C85_continue.
(** Refuted: "a breakpoint stops the replay wherever its condition is met".  The first snapshot is never looked at: a breakpoint at the recording's first tick does nothing. *)
Theorem C89_first_refuted err d s : fresh d -> increasing (rp_rec (d_rp d)) -> nth_error (snaps d) 0 = Some s ->
  (forall b, In b (d_bps d) -> b_cond b = AtTick (sn_tick s)) -> d_state (continue_execution err d) = Stopped.
Proof.
  intros F I H B. destruct (continue_spec err d) as [(j & b & s' & (A & _))|(_ & Sd & _)]; [|exact Sd]. exfalso.
  destruct A as (L & Ib & _ & s1 & prev & N & _ & M). rewrite (B b Ib) in M. inversion M as [t E| | | | | |]; subst.
  assert (sn_tick s < sn_tick s1) by (apply (I 0%nat j s s1); [lia|exact H|exact N]). lia.
Qed.
Print Assumptions C89_first_refuted.
(** Refuted: "AfterTicks(n) stops n ticks after the current position".  It compares with the tick of the last step: in a recording without gaps, for [n] of two or more, it never stops. *)
Theorem C89_after_refuted err d t0 : synced d -> consecutive t0 (map sn_tick (snaps d)) ->
  (forall b, In b (d_bps d) -> exists n, b_cond b = AfterTicks n /\ 2 <= n) -> d_state (continue_execution err d) = Stopped.
Proof.
  intros (s0 & H0 & T0) C B. destruct (continue_spec err d) as [(j & b & s' & (A & _))|(_ & Sd & _)]; [|exact Sd]. exfalso.
  destruct A as (L & Ib & _ & s1 & prev & N & P & M). destruct (B b Ib) as (n & E & Hn). rewrite E in M. inversion M as [| | | | |? M'|]; subst.
  assert (X : forall i s, nth_error (snaps d) i = Some s -> sn_tick s = t0 + N.of_nat i) by (intros i s Hi; apply C; rewrite nth_error_map, Hi; reflexivity).
  apply X in N. destruct (j =? S (pos d))%nat eqn:Ej.
  - apply Nat.eqb_eq in Ej. apply X in H0. subst. lia.
  - apply Nat.eqb_neq in Ej. destruct P as (s2 & N2 & ->). apply X in N2. lia.
Qed.
Print Assumptions C89_after_refuted.
(** A step forward goes to the next snapshot, if there is one; a step backward to the one before, if there is one. *)
Theorem C85_steps err d : increasing (rp_rec (d_rp d)) -> synced d ->
  (if snd (step_forward err d) then pos (fst (step_forward err d)) = S (pos d) /\ synced (fst (step_forward err d)) else (length (snaps d) <= S (pos d))%nat /\ d_rp (fst (step_forward err d)) = d_rp d) /\
  (if snd (step_backward d) then S (pos (fst (step_backward d))) = pos d /\ synced (fst (step_backward d)) else pos d = 0%nat /\ d_rp (fst (step_backward d)) = d_rp d).
Proof.
  intros I S. split.
  - pose proof (forward_spec err d) as F. destruct (step_forward err d) as [d' ok]. cbn [fst snd]. destruct F as (A & B & C). destruct ok; [destruct (B eq_refl) as (X & Y & _); auto|].
    split; [|auto]. destruct (Nat.le_gt_cases (length (snaps d)) (Datatypes.S (pos d))) as [L|L]; [exact L|]. apply A in L. discriminate.
  - pose proof (backward_spec d I S) as B. destruct (pos d) as [|k]; [destruct B as [-> B]; auto|]. destruct B as [-> (s & N & B)]. unfold pos, synced, snaps, pos. rewrite B. cbn [rp_idx rp_rec rp_tick]. split; [reflexivity|]. exists s. auto.
Qed.
Print Assumptions C85_steps.
(** A step back after a step forward, and a step forward after a step back, restore the position and the tick shown. *)
Theorem C85_back_and_forth err d : increasing (rp_rec (d_rp d)) -> synced d ->
  (snd (step_forward err d) = true -> snd (step_backward (fst (step_forward err d))) = true /\ d_rp (fst (step_backward (fst (step_forward err d)))) = d_rp d) /\
  (snd (step_backward d) = true -> snd (step_forward err (fst (step_backward d))) = true /\ d_rp (fst (step_forward err (fst (step_backward d)))) = d_rp d).
Proof.
  intros I (s & Hs & Ht). assert (Sy : synced d) by (exists s; auto). assert (Rp : d_rp d = mkReplayer (rp_rec (d_rp d)) (pos d) (sn_tick s)) by (unfold pos; rewrite <- Ht; destruct (d_rp d); reflexivity). split; intros Ok.
  - pose proof (forward_spec err d) as F. destruct (step_forward err d) as [d' ok]. cbn [fst snd] in *. subst ok. destruct F as (_ & F & _). destruct (F eq_refl) as (P & S' & R).
    assert (I' : increasing (rp_rec (d_rp d'))) by (rewrite R; exact I). pose proof (backward_spec d' I' S') as B. rewrite P in B. destruct B as [-> (s' & N & ->)]. split; [reflexivity|].
    unfold snaps in N. rewrite R in N. fold (snaps d) in N. rewrite Hs in N. injection N as <-. rewrite R. symmetry. exact Rp.
  - pose proof (backward_spec d I Sy) as B. destruct (pos d) as [|k] eqn:Ep; [destruct B as [B _]; congruence|]. destruct B as [_ (s' & N & B)]. set (d' := fst (step_backward d)) in *.
    pose proof (forward_frame err d') as F. destruct (step_forward err d') as [d'' ok]. cbn [fst snd]. destruct F as (R & _ & _ & Eo). rewrite B in R, Eo. unfold advance in R, Eo. cbn [rp_idx rp_rec rp_tick] in R, Eo.
    assert (L : (S k < length (snaps d))%nat) by (apply nth_error_Some; congruence). replace (k + 1)%nat with (S k) in * by lia. fold (snaps d) in R, Eo.
    replace (S k <? length (snaps d))%nat with true in * by (symmetry; apply Nat.ltb_lt; exact L). cbn [fst snd] in R, Eo. rewrite Hs in R. split; [exact Eo|]. rewrite R. symmetry. exact Rp.
Qed.
Print Assumptions C85_back_and_forth.
(** A debugger made from a saved session has the position, the breakpoints with their counts and the watches of the one that was saved. *)
Theorem C85_session d : increasing (rp_rec (d_rp d)) -> synced d \/ fresh d ->
  let d' := create_debugger (session_of d) in pos d' = pos d /\ snaps d' = snaps d /\ d_bps d' = d_bps d /\ d_watches d' = d_watches d.
Proof.
  intros I H. cbv zeta. destruct (restore_pos d I H) as [A B]. destruct (restore_frame d) as (C & D & _). unfold snaps. rewrite B. auto.
Qed.
Print Assumptions C85_session.
(** Refuted for the recordings of real-time, compute and async nodes, whose ticks are all 0: no step back succeeds and every saved session resumes at the beginning. *)
Theorem C89_rt_refuted d : (forall s, In s (snaps d) -> sn_tick s = 0) -> rp_tick (d_rp d) = 0 ->
  snd (step_backward d) = false /\ pos (create_debugger (session_of d)) = 0%nat.
Proof.
  intros Z T. split.
  - destruct (backward_rp d) as [_ ->]. rewrite T, prev_tick_none; [reflexivity|]. intros s H. rewrite (Z s H). lia.
  - unfold pos. rewrite restore_rp, T. unfold seek. cbn [replayer_new rp_rec]. destruct (r_snaps (rp_rec (d_rp d))) as [|s l]; [reflexivity|]. cbn [seek_from].
    replace (0 <=? sn_tick s) with true by (symmetry; apply N.leb_le; lia). reflexivity.
Qed.
Print Assumptions C89_rt_refuted.
(** Whatever a user does, saving and resuming included, a new breakpoint gets a number no other one has. *)
Theorem C85_ids err rp ops c : let d := fold_left (dop_do err) ops (dbg_new rp) in
  NoDup (map b_id (d_bps d)) /\ ~ In (snd (add_breakpoint c d)) (map b_id (d_bps d)).
Proof.
  cbv zeta. destruct (ids_run err ops (dbg_new rp)) as [A B]; [split; cbn; [constructor|intros b []]|]. split; [exact A|]. cbn [add_breakpoint snd]. intros X. apply in_map_iff in X as (b & E & X). apply B in X. lia.
Qed.
Print Assumptions C85_ids.
(** The history holds the newest 1000 events, whatever a user does. *)
Theorem C85_history err rp ops o : o <> DRestore -> let d := fold_left (dop_do err) ops (dbg_new rp) in
  (length (d_events d) <= 1000)%nat /\ exists new, d_events (dop_do err d o) = newest 1000 (d_events d ++ new).
Proof.
  intros Ho. cbv zeta. assert (L : (length (d_events (fold_left (dop_do err) ops (dbg_new rp))) <= MAX_EVENTS)%nat) by (apply history_run; cbn; pose proof max_pos; lia).
  split; [exact L|]. apply (grown_dop err _ o Ho L).
Qed.
Print Assumptions C85_history.
(** Evaluating the watches gives the value of each at the current snapshot and tells exactly those that are new or differ from the last evaluation. *)
Theorem C85_watches d s : current (d_rp d) = Some s -> NoDup (map w_id (d_watches d)) -> (length (d_events d) <= 1000)%nat ->
  let d' := fst (evaluate_watches d) in
  snd (evaluate_watches d) = flat_map (fun w => match evaluate w s with Some v => [(w_id w, v)] | None => [] end) (d_watches d) /\
  d_events d' = newest 1000 (d_events d ++ flat_map (fun w => match evaluate w s with
    | Some v => match lookup beqb (w_id w) (d_last d) with Some o => if beqb o v then [] else [EWatch (w_id w) (Some o) v] | None => [EWatch (w_id w) None v] end
    | None => [] end) (d_watches d)) /\
  forall w, In w (d_watches d) -> lookup beqb (w_id w) (d_last d') = match evaluate w s with Some v => Some v | None => lookup beqb (w_id w) (d_last d) end.
Proof.
  intros C N L. cbv zeta. unfold evaluate_watches. rewrite C. pose proof (watch_pass_spec s (d_watches d) (d_last d) N) as P.
  destruct (watch_pass s (d_watches d) (d_last d)) as [[last es] vs]. destruct P as (A & B & D & _). cbn [fst snd]. split; [exact A|]. split.
  - rewrite emits_newest by exact L. cbn [with_last d_events]. rewrite B. reflexivity.
  - intros w Hw. destruct (emits_frame es (with_last last d)) as (_ & _ & _ & _ & E & _). rewrite E. cbn [with_last d_last]. apply D, Hw.
Qed.
Print Assumptions C85_watches.
Definition no_err (_ : bytes) : bool := false.
Definition dbg_ex : Dbg := fold_left (dop_do no_err) [DAdd (TickEquals 2); DAdd (OutputMatches (bs "a") [3]); DAdd (AfterTicks 2); DWatch (mkWatch (bs "w") (bs "a") true None None)] (dbg_new (replayer_new dr1)).
(** Three continues: tick 2, tick 3, tick 5 (two after tick 3); then the end. *)
Example C85_ex : map (fun n => let d := Nat.iter n (continue_execution no_err) dbg_ex in (rp_tick (d_rp d), d_state d, map b_hits (d_bps d))) [1; 2; 3; 4]%nat =
  [(2, Paused, [1; 0; 1]); (3, Paused, [1; 1; 1]); (5, Paused, [1; 1; 2]); (5, Stopped, [1; 1; 2])].
Proof. vm_compute. reflexivity. Qed.
Example C85_ex_steps : let d := continue_execution no_err dbg_ex in increasing (rp_rec (d_rp d)) /\ synced d /\ pos d = 1%nat /\ snd (step_forward no_err d) = true /\ snd (step_backward d) = true /\
  fresh dbg_ex /\ pos (create_debugger (session_of d)) = 1%nat.
Proof.
  cbv zeta. split; [apply increasing_list; vm_compute; repeat constructor|]. split; [exists (dsnap 2 [(bs "a", [2]); (bs "b", [7])]); vm_compute; split; reflexivity|]. vm_compute. repeat split.
Qed.
(** Ticks 1, 2, 3: a breakpoint at tick 1 and one after 2 ticks never stop the replay. *)
Definition dr3 : Rec := drec [dsnap 1 []; dsnap 2 []; dsnap 3 []] 1 3.
Example C89_ex_never : let d := fold_left (dop_do no_err) [DReset; DAdd (AfterTicks 2)] (dbg_new (replayer_new dr3)) in
  synced d /\ consecutive 1 (map sn_tick (snaps d)) /\ d_state (continue_execution no_err d) = Stopped.
Proof.
  cbv zeta. split; [exists (dsnap 1 []); vm_compute; split; reflexivity|]. split; [|vm_compute; reflexivity]. intros i t H. change (nth_error [1; 2; 3] i = Some t) in H.
  do 3 (destruct i as [|i]; [injection H as <-; reflexivity|]). destruct i; discriminate.
Qed.

(** ** More on C85 *)
(** The value of a watch: of the message of its topic, the [n] bytes from [o] on if there are that many, the bytes from [o] on if there are any, or all of it. *)
Theorem C85_value w s v : evaluate w s = Some v <-> exists d, lookup beqb (w_topic w) (if w_output w then sn_out s else sn_in s) = Some d /\
  match w_off w, w_len w with
  | Some o, Some n => exists before after, d = before ++ v ++ after /\ length before = o /\ length v = n
  | Some o, None => exists before, d = before ++ v /\ length before = o /\ v <> []
  | None, _ => v = d
  end.
Proof.
  unfold evaluate. destruct (lookup beqb (w_topic w) _) as [d|]; [|split; [discriminate|intros (d & X & _); discriminate]]. split.
  - intros H. exists d. split; [reflexivity|]. destruct (w_off w) as [o|]; [|destruct (w_len w); congruence]. destruct (w_len w) as [n|].
    + destruct (Nat.leb_spec (o + n) (length d)); [|discriminate]. injection H as <-. exists (firstn o d), (skipn n (skipn o d)). rewrite firstn_skipn, firstn_skipn. split; [reflexivity|]. rewrite !firstn_length, skipn_length. lia.
    + destruct (Nat.ltb_spec o (length d)); [|discriminate]. injection H as <-. exists (firstn o d). rewrite firstn_skipn. split; [reflexivity|]. rewrite firstn_length. split; [lia|]. intros X. apply (f_equal (@length N)) in X. rewrite skipn_length in X. cbn in X. lia.
  - intros (d' & E & H). injection E as <-. destruct (w_off w) as [o|]; [|subst; destruct (w_len w); reflexivity]. destruct (w_len w) as [n|].
    + destruct H as (b & a & -> & <- & <-). rewrite !app_length. replace (length b + length v <=? length b + (length v + length a))%nat with true by (symmetry; apply Nat.leb_le; lia).
      rewrite skipn_app, skipn_all, Nat.sub_diag. cbn [skipn app]. rewrite firstn_app, firstn_all, Nat.sub_diag. cbn [firstn]. rewrite app_nil_r. reflexivity.
    + destruct H as (b & -> & <- & Nv). rewrite app_length. replace (length b <? length b + length v)%nat with true by (symmetry; apply Nat.ltb_lt; destruct v; [congruence|cbn; lia]).
      rewrite skipn_app, skipn_all, Nat.sub_diag. reflexivity.
Qed.
Print Assumptions C85_value.
Example C85_ex_value : let s := mkSnap 1 0 [] [(bs "a", [1; 2; 3; 4])] None 0 in
  map (fun p => evaluate (mkWatch (bs "w") (bs "a") true (fst p) (snd p)) s) [(Some 1, Some 3); (Some 1, Some 4); (Some 3, None); (Some 4, None); (None, Some 1)]%nat =
  [Some [2; 3; 4]; None; Some [4]; None; Some [1; 2; 3; 4]].
Proof. reflexivity. Qed.
(** In every history: switching a breakpoint switches that one and nothing else, removing it removes that one and nothing else. *)
Theorem C85_switch err rp ops id on : let d := fold_left (dop_do err) ops (dbg_new rp) in
  d_bps (set_enabled id on d) = map (fun b => if b_id b =? id then mkBp (b_id b) (b_cond b) on (b_hits b) else b) (d_bps d) /\
  d_bps (remove_breakpoint id d) = filter (fun b => negb (b_id b =? id)) (d_bps d).
Proof.
  cbv zeta. destruct (ids_run err ops (dbg_new rp)) as [A _]; [split; cbn; [constructor|intros b []]|]. cbn [set_enabled remove_breakpoint with_bps d_bps].
  revert A. generalize (d_bps (fold_left (dop_do err) ops (dbg_new rp))) as l. induction l as [|b l IH]; cbn [map]; intros A; [split; reflexivity|]. apply NoDup_cons_iff in A as [A1 A2]. destruct (IH A2) as [I1 I2].
  cbn [set_first remove_first filter]. destruct (N.eqb_spec (b_id b) id) as [E|E]; cbn [negb]; [|split; congruence].
  assert (Q : forall x, In x l -> (b_id x =? id) = false) by (intros x I; apply N.eqb_neq; intros X; apply A1; rewrite E, <- X; apply in_map, I). split.
  - f_equal. symmetry. erewrite map_ext_in; [apply map_id|]. intros x I. cbn beta. rewrite (Q x I). reflexivity.
  - symmetry. clear - Q. induction l as [|x l IH]; cbn [filter]; [reflexivity|]. rewrite (Q x (or_introl eq_refl)). cbn [negb]. f_equal. apply IH. intros y I. apply Q. right. exact I.
Qed.
Print Assumptions C85_switch.
(** A switched-off breakpoint never stops a replay. *)
Theorem C85_off err d : (forall b, In b (d_bps d) -> b_on b = false) -> d_state (continue_execution err d) = Stopped.
Proof.
  intros Off. destruct (continue_spec err d) as [(j & b & s' & (A & _))|(_ & Sd & _)]; [|exact Sd]. destruct A as (_ & Ib & On & _). rewrite (Off b Ib) in On. discriminate.
Qed.
Print Assumptions C85_off.
(** Seeking: it succeeds exactly if some snapshot is at or after the tick, goes to the first such, and otherwise changes nothing. *)
Theorem C85_seek t d :
  (snd (dbg_seek t d) = true <-> exists s, In s (snaps d) /\ t <= sn_tick s) /\ (snd (dbg_seek t d) = false -> fst (dbg_seek t d) = d) /\
  (snd (dbg_seek t d) = true -> synced (fst (dbg_seek t d)) /\ t <= rp_tick (d_rp (fst (dbg_seek t d))) /\
     forall i s, (i < pos (fst (dbg_seek t d)))%nat -> nth_error (snaps d) i = Some s -> sn_tick s < t).
Proof.
  assert (G : forall l k, match seek_from k l t with
    | Some (i, u) => exists j s, i = (k + j)%nat /\ nth_error l j = Some s /\ u = sn_tick s /\ t <= u /\ forall m x, (m < j)%nat -> nth_error l m = Some x -> sn_tick x < t
    | None => forall s, In s l -> sn_tick s < t end).
  { induction l as [|x l IH]; intros k; cbn [seek_from]; [intros s []|]. destruct (N.leb_spec t (sn_tick x)) as [L|L].
    - exists 0%nat, x. split; [lia|]. split; [reflexivity|]. split; [reflexivity|]. split; [exact L|]. intros m y Hm. lia.
    - specialize (IH (S k)). destruct (seek_from (S k) l t) as [[i u]|].
      + destruct IH as (j & s & -> & A & B & C & D). exists (S j), s. split; [lia|]. split; [exact A|]. split; [exact B|]. split; [exact C|]. intros [|m] y Hm Y; [cbn in Y; injection Y as <-; exact L|]. apply (D m y); [lia|exact Y].
      + intros s [<-|I]; [exact L|apply IH, I]. }
  specialize (G (snaps d) 0%nat). unfold dbg_seek, seek. fold (snaps d). destruct (seek_from 0 (snaps d) t) as [[i u]|].
  - destruct G as (j & s & -> & A & B & C & D). cbn [fst snd Nat.add]. split; [split; [|reflexivity]; intros _; exists s; split; [eapply nth_error_In; eauto|lia]|]. split; [discriminate|]. intros _.
    set (d1 := with_rp (mkReplayer (rp_rec (d_rp d)) j u) d).
    assert (R : d_rp (emit (EPos (rp_tick (mkReplayer (rp_rec (d_rp d)) j u)) (rp_idx (mkReplayer (rp_rec (d_rp d)) j u))) (fst (evaluate_watches d1))) = mkReplayer (rp_rec (d_rp d)) j u).
    { unfold emit. cbn [d_rp]. unfold evaluate_watches. destruct (current (d_rp d1)) as [c|]; [|reflexivity]. destruct (watch_pass c (d_watches d1) (d_last d1)) as [[l es] vs]. cbn [fst].
      destruct (emits_frame es (with_last l d1)) as (X & _). rewrite X. reflexivity. }
    unfold synced, snaps, pos. rewrite R. cbn [rp_rec rp_idx rp_tick]. split; [exists s; auto|]. split; [exact C|]. exact D.
  - cbn [fst snd]. split; [split; [discriminate|]; intros (s & I & L); specialize (G s I); lia|]. split; [reflexivity|discriminate].
Qed.
Print Assumptions C85_seek.
(** Resetting goes to the beginning and forgets the values of the watches; removing a watch forgets its value: the next evaluation tells it as new. *)
Theorem C85_forget d id :
  (pos (dbg_reset d) = 0%nat /\ d_state (dbg_reset d) = Paused /\ snaps (dbg_reset d) = snaps d /\ d_bps (dbg_reset d) = d_bps d /\ d_watches (dbg_reset d) = d_watches d /\
   forall w, lookup beqb w (d_last (dbg_reset d)) = None) /\
  (In id (map w_id (d_watches d)) -> lookup beqb id (d_last (remove_watch id d)) = None) /\
  (forall other, other <> id -> lookup beqb other (d_last (remove_watch id d)) = lookup beqb other (d_last d)).
Proof.
  split; [repeat (split; [reflexivity|]); reflexivity|]. unfold remove_watch. split.
  - intros I. apply in_map_iff in I as (w & E & I). assert (X : existsb (fun w => beqb (w_id w) id) (d_watches d) = true) by (apply existsb_exists; exists w; split; [exact I|]; apply beqb_spec, E).
    rewrite X. cbn [d_last]. apply lookup_remove_eq; apply beqb_spec.
  - intros other Ne. destruct (existsb _ _); [|reflexivity]. cbn [d_last]. rewrite lookup_remove_neq; [reflexivity|apply beqb_spec|exact Ne].
Qed.
Print Assumptions C85_forget.
