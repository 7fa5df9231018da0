(** The log ring: whole calls, the drain thread, and interleaved processes. *)
From Verif Require Import Base.Prelude Base.Bytes Model.LogEntry Model.LogBuffer Spec.LogBufferSpec
  Proofs.LogEntryProofs.
Open Scope nat_scope.

Lemma put_same {A} (f : nat -> A) i x : put f i x i = x.
Proof. unfold put. rewrite Nat.eqb_refl. reflexivity. Qed.
Lemma put_other {A} (f : nat -> A) i j x : j <> i -> put f i x j = f j.
Proof. unfold put. intros. replace (j =? i) with false by (symmetry; apply Nat.eqb_neq; auto). reflexivity. Qed.

(** * Window arithmetic *)
Lemma seq_shift_map k a len : map (fun i => k + i) (seq a len) = seq (k + a) len.
Proof.
  revert a; induction len; intros a; cbn [seq map]; auto. f_equal.
  rewrite IHlen. f_equal. lia.
Qed.
Lemma visited_eq cap n after : 0 < cap ->
  visited cap n after = map (fun g => g mod cap) (seq (Nat.max after (n - cap)) (n - Nat.max after (n - cap))).
Proof.
  intros Hc. unfold visited, start_idx, skip, num_entries.
  destruct (Nat.ltb_spec cap n) as [L|G].
  - rewrite (Nat.min_r n cap) by lia.
    destruct (Nat.le_gt_cases n after) as [A|A].
    + rewrite (Nat.min_r _ cap) by lia. replace (cap - cap) with 0 by lia.
      replace (n - Nat.max after (n - cap)) with 0 by lia. reflexivity.
    + rewrite Nat.min_l by lia.
      replace (Nat.max after (n - cap)) with ((n - cap) + (after - (n - cap))) by lia.
      rewrite <- seq_shift_map, map_map.
      replace (n - (n - cap + (after - (n - cap)))) with (cap - (after - (n - cap))) by lia.
      apply map_ext. intros i.
      rewrite Nat.add_mod_idemp_l by lia.
      replace (n + i) with ((n - cap + i) + 1 * cap) by lia. apply Nat.mod_add; lia.
  - rewrite (Nat.min_l n cap) by lia. replace (n - cap) with 0 by lia.
    rewrite Nat.max_0_r, Nat.sub_diag, Nat.sub_0_r.
    destruct (Nat.le_gt_cases n after).
    + rewrite Nat.min_r by lia. replace (n - n) with 0 by lia. replace (n - after) with 0 by lia. reflexivity.
    + rewrite Nat.min_l by lia. apply map_ext. intros i. f_equal.
Qed.
Lemma mod_apart cap i j : 0 < cap -> i mod cap = j mod cap -> i < j -> i + cap <= j.
Proof.
  intros Hc E L. pose proof (Nat.div_mod i cap ltac:(lia)). pose proof (Nat.div_mod j cap ltac:(lia)).
  rewrite E in H. assert (i / cap < j / cap) by nia. nia.
Qed.

(** * Slots that hold what was pushed *)
Definition settled (cap : nat) (m : mem) (i : nat) (e : entry) : Prop :=
  sq m (i mod cap) = i * 2 + 2 /\ stored e = Some (cell m (i mod cap)).

Lemma even_odd_seq i : Nat.odd (i * 2 + 2) = false /\ Nat.odd (i * 2 + 1) = true.
Proof.
  split.
  - replace (i * 2 + 2) with (2 * (i + 1)) by lia. rewrite Nat.odd_mul. reflexivity.
  - replace (i * 2 + 1) with (1 + 2 * i) by lia. rewrite Nat.odd_add_mul_2. reflexivity.
Qed.
Lemma settled_read cap m i e : entry_ok e -> settled cap m i e ->
  read_slot m (i mod cap) = (m, [shorten e]).
Proof.
  intros Ok [A B]. unfold read_slot. rewrite A.
  replace (i * 2 + 2 =? 0) with false by (symmetry; apply Nat.eqb_neq; lia).
  rewrite (proj1 (even_odd_seq i)).
  destruct (stored_some e) as (d & Hd & _ & Hdec). rewrite B in Hd. injection Hd as <-.
  rewrite (Hdec Ok). reflexivity.
Qed.
Lemma read_settled cap m es : forall g,
  Forall entry_ok es ->
  (forall k e, nth_error es k = Some e -> settled cap m (g + k) e) ->
  read_slots m (map (fun g => g mod cap) (seq g (length es))) = (m, map shorten es).
Proof.
  induction es as [|e es IH]; intros g Ok H; [reflexivity|].
  cbn [length seq map read_slots]. inv Ok.
  rewrite (settled_read cap m g e); auto.
  2:{ replace g with (g + 0) by lia. apply H. reflexivity. }
  rewrite IH; auto.
  intros k x Hk. replace (S g + k) with (g + S k) by lia. apply H. exact Hk.
Qed.
Lemma skipn_nth_error {A} n (l : list A) k : nth_error (skipn n l) k = nth_error l (n + k).
Proof. revert l; induction n; intros [|x l]; cbn [skipn nth_error Nat.add]; auto. destruct k; reflexivity. Qed.
Lemma get_since_settled cap m log after : 0 < cap -> Forall entry_ok log -> widx m = length log ->
  (forall i e, nth_error log i = Some e -> length log <= i + cap -> settled cap m i e) ->
  get_since cap m after = (m, map shorten (kept cap after log)).
Proof.
  intros Hc Ok W H. unfold get_since, kept. rewrite W, visited_eq by auto.
  set (g := Nat.max after (length log - cap)).
  replace (length log - g) with (length (skipn g log)) by (apply skipn_length).
  apply read_settled.
  - rewrite <- (firstn_skipn g log) in Ok. apply Forall_app in Ok. tauto.
  - intros k e Hk. rewrite skipn_nth_error in Hk. apply H; auto. lia.
Qed.

(** * Whole calls *)
Definition holds (cap : nat) (m : mem) (log : list entry) : Prop :=
  widx m = length log /\
  (forall i e, nth_error log i = Some e -> length log <= i + cap -> settled cap m i e).

Lemma holds_blank cap : holds cap blank [].
Proof. split; [reflexivity|]. intros [|i]; discriminate. Qed.
Lemma holds_push cap m log e : 0 < cap -> holds cap m log -> holds cap (push cap m e) (log ++ [e]).
Proof.
  intros Hc [W H]. unfold push. destruct (stored_some e) as (d & Hd & _). rewrite Hd.
  split; cbn [set_sq set_cell claim widx sq cell].
  - rewrite app_length, W. cbn. lia.
  - rewrite app_length. cbn [length]. intros i x Hx L.
    assert (Hi : i < length (log ++ [e])) by (apply nth_error_Some; congruence).
    rewrite app_length in Hi; cbn in Hi.
    unfold settled; cbn [set_sq set_cell claim widx sq cell]. rewrite W.
    destruct (Nat.eq_dec i (length log)) as [->|Ne].
    + rewrite nth_error_app2, Nat.sub_diag in Hx by lia. injection Hx as <-.
      rewrite !put_same. auto.
    + rewrite nth_error_app1 in Hx by lia.
      assert (i mod cap <> length log mod cap).
      { intros E. apply mod_apart in E; try lia. }
      rewrite !put_other by auto. apply H; auto. lia.
Qed.
Lemma holds_pushes cap es : forall m log, 0 < cap -> holds cap m log ->
  holds cap (fold_left (push cap) es m) (log ++ es).
Proof.
  induction es as [|e es IH]; intros m log Hc H; cbn [fold_left]; [rewrite app_nil_r; auto|].
  replace (log ++ e :: es) with ((log ++ [e]) ++ es) by (rewrite <- app_assoc; reflexivity).
  apply IH; auto. apply holds_push; auto.
Qed.
Lemma holds_read cap m log after : 0 < cap -> Forall entry_ok log -> holds cap m log ->
  get_since cap m after = (m, map shorten (kept cap after log)).
Proof. intros Hc Ok [W H]. apply get_since_settled; auto. Qed.

Lemma publish_holds cap ecap es : forall b log elog, 0 < cap -> 0 < ecap ->
  holds cap (fst b) log -> holds ecap (snd b) elog ->
  let b' := fold_left (publish_log cap ecap) es b in
  holds cap (fst b') (log ++ es) /\ holds ecap (snd b') (elog ++ filter is_error es).
Proof.
  induction es as [|e es IH]; intros b log elog Hc He H1 H2; cbn [fold_left filter];
    [rewrite !app_nil_r; auto|].
  destruct b as [m er]. cbn [fst snd] in *. cbn [publish_log].
  specialize (IH (push cap m e, if is_error e then push ecap er e else er)
    (log ++ [e]) (elog ++ if is_error e then [e] else []) Hc He).
  cbn [fst snd] in IH. repeat rewrite <- app_assoc in IH.
  destruct (is_error e); cbn [app] in IH; apply IH; auto using holds_push.
  rewrite app_nil_r; auto.
Qed.

(** * The drain thread *)
Lemma subseq_refl {A} (l : list A) : subseq l l.
Proof. induction l; constructor; auto. Qed.
Lemma subseq_app {A} (a a' b b' : list A) : subseq a a' -> subseq b b' -> subseq (a ++ b) (a' ++ b').
Proof.
  intros H. revert b b'. induction H; intros c c' Hc; cbn [app].
  - induction b; cbn [app]; [exact Hc|]. constructor; auto.
  - constructor; auto.
  - constructor; auto.
Qed.
Lemma subseq_firstn {A} n (l : list A) : subseq (firstn n l) l.
Proof. revert l; induction n; intros [|x l]; cbn [firstn]; constructor; auto. Qed.
Lemma pushed_by_app a b : pushed_by (a ++ b) = pushed_by a ++ pushed_by b.
Proof. induction a as [|[e| |] a IH]; cbn [app pushed_by]; auto. f_equal; auto. Qed.
Lemma drained_app cap d a b : drained cap d (a ++ b) = drained cap (drained cap d a) b.
Proof. unfold drained. apply fold_left_app. Qed.

Record dinv (cap : nat) (log0 : list entry) (d : drain) (out : list entry) : Prop := {
  di_holds : holds cap (d_mem d) (log0 ++ out);
  di_last : length log0 <= d_last d <= length log0 + length out;
  di_cur : forall c, d_cur d = Some c -> d_last d <= c <= length log0 + length out;
  di_file : subseq (map shorten (firstn (d_last d - length log0) out)) (d_file d) }.
Lemma skipn_past {A} n (a b : list A) : length a <= n -> skipn n (a ++ b) = skipn (n - length a) b.
Proof. intros. rewrite skipn_app, skipn_all2 by auto. reflexivity. Qed.
Lemma firstn_split {A} n m (l : list A) : n <= m -> firstn m l = firstn n l ++ firstn (m - n) (skipn n l).
Proof.
  revert m l; induction n; intros m l H; cbn [firstn skipn app].
  - rewrite Nat.sub_0_r. reflexivity.
  - destruct m as [|m]; [lia|]. destruct l; cbn [firstn app]; [rewrite firstn_nil; reflexivity|].
    cbn [Nat.sub]. f_equal. apply IHn. lia.
Qed.
Lemma map_firstn {A B} (f : A -> B) n l : map f (firstn n l) = firstn n (map f l).
Proof. revert l; induction n; intros [|x l]; cbn [firstn map]; auto. f_equal; auto. Qed.

Lemma dinv_step cap log0 d out o : 0 < cap -> Forall entry_ok (log0 ++ out) ->
  dinv cap log0 d out ->
  (o = DRead -> widx (d_mem d) <= d_last d + cap) ->
  dinv cap log0 (dstep cap d o) (out ++ pushed_by [o]).
Proof.
  intros Hc Ok I K. destruct I as [H L C F]. destruct o as [e| |]; cbn [dstep pushed_by].
  - constructor; cbn [d_mem d_last d_cur d_file].
    + rewrite app_assoc. apply holds_push; auto.
    + rewrite app_length. cbn. lia.
    + intros c E. apply C in E. rewrite app_length. cbn. lia.
    + rewrite firstn_app. replace (d_last d - length log0 - length out) with 0 by lia.
      cbn [firstn]. rewrite app_nil_r. auto.
  - rewrite app_nil_r. destruct (d_cur d) as [c|] eqn:Ec; [constructor; auto; rewrite Ec; auto|].
    constructor; cbn [d_mem d_last d_cur d_file]; auto.
    intros c E. destruct (widx (d_mem d) =? d_last d); [discriminate|]. injection E as <-.
    rewrite (proj1 H), app_length. lia.
  - rewrite app_nil_r. destruct (d_cur d) as [c|] eqn:Ec; [|constructor; auto; rewrite Ec; auto].
    rewrite (holds_read cap _ (log0 ++ out)); auto.
    specialize (C c eq_refl). specialize (K eq_refl). rewrite (proj1 H), app_length in K.
    constructor; cbn [d_mem d_last d_cur d_file]; auto; [lia|discriminate|].
    unfold kept. rewrite app_length. replace (Nat.max (d_last d) (length log0 + length out - cap)) with (d_last d) by lia.
    rewrite skipn_past by lia.
    rewrite (firstn_split (d_last d - length log0) (c - length log0)) by lia.
    rewrite map_app. apply subseq_app; auto.
    rewrite map_firstn. apply subseq_firstn.
Qed.
Lemma dinv_run cap log0 l : forall d out, 0 < cap -> Forall entry_ok (log0 ++ out ++ pushed_by l) ->
  dinv cap log0 d out -> keeps_up cap d l ->
  dinv cap log0 (drained cap d l) (out ++ pushed_by l).
Proof.
  induction l as [|o l IH]; intros d out Hc Ok I K.
  - cbn. rewrite app_nil_r. auto.
  - change (pushed_by (o :: l)) with (pushed_by ([o] ++ l)) in *. rewrite pushed_by_app in *.
    rewrite app_assoc. apply (IH (dstep cap d o)); auto.
    + rewrite <- (app_assoc out). exact Ok.
    + apply dinv_step; auto.
      * rewrite !app_assoc in Ok. apply Forall_app in Ok as [Ok _]. apply Forall_app in Ok as [Ok _]. exact Ok.
      * intros ->. apply (K [] l). reflexivity.
    + intros l1 l2 ->. apply (K (o :: l1) l2). reflexivity.
Qed.

(** Polls that are not interrupted. *)
Definition batch (es : list entry) : list dop := map DPush es ++ [DPeek; DRead].
Lemma drained_pushes cap es : forall d,
  drained cap d (map DPush es) =
  {| d_mem := fold_left (push cap) es (d_mem d); d_last := d_last d; d_cur := d_cur d; d_file := d_file d |}.
Proof. induction es as [|e es IH]; intros d; [destruct d; reflexivity|]. exact (IH (dstep cap d (DPush e))). Qed.
Lemma batches cap : forall bs d log, 0 < cap -> Forall entry_ok (log ++ concat bs) ->
  holds cap (d_mem d) log -> d_last d = length log -> d_cur d = None ->
  (forall b, In b bs -> length b <= cap) ->
  d_file (drained cap d (concat (map batch bs))) = d_file d ++ map shorten (concat bs).
Proof.
  induction bs as [|b bs IH]; intros d log Hc Ok H L C Hb; cbn [map concat].
  - cbn. rewrite app_nil_r. reflexivity.
  - unfold batch at 1. rewrite !drained_app, drained_pushes.
    pose proof (holds_pushes cap b _ _ Hc H) as H'.
    cbn [drained fold_left dstep d_cur d_mem d_last d_file]. rewrite C. cbn [d_cur d_mem d_last d_file].
    assert (W : widx (fold_left (push cap) b (d_mem d)) = length log + length b) by (rewrite (proj1 H'), app_length; reflexivity).
    rewrite W, L.
    cbn [concat] in Ok. rewrite app_assoc in Ok.
    destruct (Nat.eqb_spec (length log + length b) (length log)) as [E|E]; cbn [d_cur d_mem d_last d_file].
    + assert (b = []) as -> by (destruct b; auto; cbn in E; lia).
      cbn [fold_left concat app]. rewrite (IH _ log); auto.
      * rewrite app_nil_r in Ok. exact Ok.
      * intros x Hx. apply Hb. right; auto.
    + rewrite (holds_read cap _ (log ++ b)); auto.
      2:{ apply Forall_app in Ok. tauto. }
      rewrite (IH _ (log ++ b)); cbn [d_file d_mem d_last d_cur]; auto.
      * unfold kept. rewrite app_length.
        assert (length b <= cap) by (apply Hb; left; auto).
        replace (Nat.max (length log) (length log + length b - cap)) with (length log) by lia.
        rewrite skipn_past, Nat.sub_diag by lia. cbn [skipn].
        rewrite map_app, app_assoc. reflexivity.
      * rewrite app_length. reflexivity.
      * intros x Hx. apply Hb. right; auto.
Qed.

(** * Interleaved processes *)
Definition writing (x : pstate) (i : nat) (d : bytes) : Prop :=
  x = WClaimed i d \/ exists k, x = WCopy i d k.
Lemma writing_inj x i d j d' : writing x i d -> writing x j d' -> i = j /\ d = d'.
Proof. intros [->|[k ->]] [E|[k' E]]; inv E; auto. Qed.
Record inv_ (cap : nat) (s : st) (log : list entry) : Prop := {
  v_w : widx (shm s) = length log;
  v_wr : forall p i d, writing (procs s p) i d -> exists e, nth_error log i = Some e /\ stored e = Some d;
  v_un : forall p q i d d', writing (procs s p) i d -> writing (procs s q) i d' -> p = q;
  v_set : forall i e, nth_error log i = Some e -> length log <= i + cap ->
    settled cap (shm s) i e \/ exists p d, writing (procs s p) i d;
  v_first : forall p i d, procs s p = WClaimed i d -> i < cap -> sq (shm s) i = 0;
  v_copy : forall p i d k, procs s p = WCopy i d k ->
    sq (shm s) (i mod cap) = i * 2 + 1 /\ firstn k (cell (shm s) (i mod cap)) = firstn k d /\ k <= length d;
  v_zero : forall c, length log <= c -> c < cap -> sq (shm s) c = 0;
  v_len : forall c, length (cell (shm s) c) = SLOT_DATA_SIZE }.

Lemma inv_boot cap : inv_ cap boot [].
Proof.
  constructor; cbn; auto; try (intros; discriminate).
  - intros p i d [E|[k E]]; discriminate.
  - intros p q i d d' [E|[k E]]; discriminate.
  - intros [|i] e E; discriminate.
Qed.
Lemma writing_pushing s p i d : writing (procs s p) i d -> pushing s p i.
Proof. intros [E|[k E]]; exists d; [left|right; exists k]; auto. Qed.
Lemma in_window cap s log p i d : inv_ cap s log -> no_straggler cap s -> writing (procs s p) i d ->
  i < length log /\ length log <= i + cap.
Proof.
  intros I N W. destruct (v_wr _ _ _ I _ _ _ W) as (e & E & _).
  split; [apply nth_error_Some; congruence|]. rewrite <- (v_w _ _ _ I). eapply N, writing_pushing; eauto.
Qed.
Lemma window_apart cap n i j : 0 < cap -> i < n -> n <= i + cap -> j < n -> n <= j + cap -> i <> j ->
  i mod cap <> j mod cap.
Proof.
  intros Hc A B C D E M. destruct (Nat.lt_ge_cases i j).
  - apply mod_apart in M; lia.
  - symmetry in M. apply mod_apart in M; lia.
Qed.

(** A step of [p] that changes no memory and leaves it outside any push. *)
Lemma inv_outside cap s log p x : inv_ cap s log ->
  (forall i d, ~ writing (procs s p) i d) -> (forall i d, ~ writing x i d) ->
  inv_ cap (at_ s (shm s) p x) log.
Proof.
  intros I A B.
  assert (W : forall q i d, writing (procs (at_ s (shm s) p x) q) i d -> q <> p /\ writing (procs s q) i d).
  { intros q i d H. cbn [at_ procs] in H. destruct (Nat.eq_dec q p) as [->|Ne].
    - rewrite put_same in H. destruct (B _ _ H).
    - rewrite put_other in H; auto. }
  destruct I. constructor; cbn [at_ shm]; auto.
  - intros q i d H. apply W in H as [_ H]. eauto.
  - intros q q' i d d' H H'. apply W in H as [_ H]. apply W in H' as [_ H']. eauto.
  - intros i e H L. destruct (v_set0 i e H L) as [S|(q & d & S)]; auto. right. exists q, d.
    cbn [at_ procs]. rewrite put_other; auto. intros ->. destruct (A _ _ S).
  - intros q i d H. assert (writing (procs (at_ s (shm s) p x) q) i d) as W' by (left; auto).
    apply W in W' as [Ne _]. cbn [at_ procs] in H. rewrite put_other in H by auto. eauto.
  - intros q i d k H. assert (writing (procs (at_ s (shm s) p x) q) i d) as W' by (right; eauto).
    apply W in W' as [Ne _]. cbn [at_ procs] in H. rewrite put_other in H by auto. eauto.
Qed.

Lemma set_byte_length l k b : k < length l -> length (set_byte l k b) = length l.
Proof. intros. unfold set_byte. rewrite app_length, firstn_length. cbn [length]. rewrite skipn_length. lia. Qed.
Lemma firstn_S_nth {A} k (l : list A) b : nth_error l k = Some b -> firstn (S k) l = firstn k l ++ [b].
Proof. revert l; induction k; intros [|x l] H; try discriminate; cbn in *; [congruence|]. f_equal. auto. Qed.
Lemma set_byte_firstn l d k b : k < length l -> firstn k l = firstn k d -> nth_error d k = Some b ->
  firstn (S k) (set_byte l k b) = firstn (S k) d.
Proof.
  intros L F N. rewrite (firstn_S_nth k d b N). unfold set_byte.
  assert (length (firstn k l) = k) by (rewrite firstn_length; lia).
  rewrite firstn_app, H. replace (S k - k) with 1 by lia.
  rewrite firstn_all2 by lia. rewrite F. reflexivity.
Qed.
Lemma stored_length e d : stored e = Some d -> length d = SLOT_DATA_SIZE.
Proof. intros H. destruct (stored_some e) as (d' & H' & L & _). congruence. Qed.

Lemma inv_step cap s a s' evs log : 0 < cap ->
  inv_ cap s log -> no_straggler cap s -> (forall p, a <> ATimeout p) ->
  step (fun _ => cap) s a = (s', evs) -> inv_ cap s' (log ++ claimed evs).
Proof.
  intros Hc I N NT E. destruct a as [p e|p after|p|p]; [| | |destruct (NT p); auto].
  - (* push *)
    cbn [step] in E. destruct (procs s p) eqn:Ep; try (inv E; cbn [claimed]; rewrite app_nil_r; exact I).
    destruct (stored e) as [d|] eqn:Ed; [|inv E; cbn [claimed]; rewrite app_nil_r; exact I].
    inv E. cbn [claimed].
    assert (W : forall q i d', writing (procs (at_ s (claim (shm s)) p (WClaimed (widx (shm s)) d)) q) i d' ->
      (q = p /\ i = length log /\ d' = d) \/ (q <> p /\ i < length log /\ writing (procs s q) i d')).
    { intros q i d' H. cbn [at_ procs] in H. destruct (Nat.eq_dec q p) as [->|Ne].
      - rewrite put_same in H. left. rewrite (v_w _ _ _ I) in H. destruct H as [H|[k H]]; inv H; auto.
      - rewrite put_other in H by auto. right. repeat split; auto. apply (in_window cap s log q i d'); auto. }
    destruct I. constructor; cbn [at_ shm claim widx sq cell].
    + rewrite app_length, v_w0. cbn. lia.
    + intros q i d' H. apply W in H as [(-> & -> & ->)|(Ne & L & H)].
      * exists e. rewrite nth_error_app2, Nat.sub_diag by lia. auto.
      * destruct (v_wr0 _ _ _ H) as (x & X & Y). exists x. rewrite nth_error_app1; auto.
    + intros q q' i d1 d2 H1 H2. apply W in H1 as [(-> & -> & ->)|(Ne & L & H1)];
        apply W in H2 as [(-> & E2 & ->)|(Ne' & L' & H2)]; auto; try lia. eauto.
    + rewrite app_length. cbn [length]. intros i x Hx L.
      assert (Hi : i < length (log ++ [e])) by (apply nth_error_Some; congruence).
      rewrite app_length in Hi; cbn in Hi.
      destruct (Nat.eq_dec i (length log)) as [->|Ne].
      * right. exists p, d. cbn [at_ procs]. rewrite put_same, v_w0. left; auto.
      * rewrite nth_error_app1 in Hx by lia. destruct (v_set0 i x Hx ltac:(lia)) as [S|(q & d' & S)]; auto.
        right. exists q, d'. cbn [at_ procs]. rewrite put_other; auto. intros ->. rewrite Ep in S.
        destruct S as [S|[k S]]; discriminate.
    + intros q i d' H L. destruct (Nat.eq_dec q p) as [->|Ne].
      * cbn [at_ procs] in H. rewrite put_same in H. inv H. apply v_zero0; lia.
      * cbn [at_ procs] in H. rewrite put_other in H by auto. eauto.
    + intros q i d' k H. destruct (Nat.eq_dec q p) as [->|Ne].
      * cbn [at_ procs] in H. rewrite put_same in H. discriminate.
      * cbn [at_ procs] in H. rewrite put_other in H by auto. eauto.
    + rewrite app_length. cbn. intros c L1 L2. apply v_zero0; lia.
    + auto.
  - cbn [step] in E. destruct (procs s p) eqn:Ep; inv E; cbn [claimed]; rewrite app_nil_r; auto.
    apply inv_outside; auto; intros i d [H|[k H]]; rewrite ?Ep in H; discriminate.
  - cbn [step] in E. destruct (procs s p) as [|i d|i d k|todo acc|c q todo acc|c buf todo acc] eqn:Ep.
    + inv E. cbn [claimed]. rewrite app_nil_r; auto.
    + (* mark *)
      inv E. cbn [claimed]. rewrite app_nil_r.
      assert (Wp : writing (procs s p) i d) by (left; auto).
      destruct (in_window _ _ _ _ _ _ I N Wp) as [Li Wi].
      assert (O : forall q j d', q <> p -> writing (procs s q) j d' -> j mod cap <> i mod cap).
      { intros q j d' Ne H. destruct (in_window _ _ _ _ _ _ I N H). apply (window_apart cap (length log)); auto.
        intros ->. apply Ne. eapply v_un; eauto. }
      destruct I. constructor; cbn [at_ shm set_sq widx sq cell procs]; auto.
      * intros q j d' H. destruct (Nat.eq_dec q p) as [->|Ne].
        -- rewrite put_same in H. destruct H as [H|[k H]]; inv H. eauto.
        -- rewrite put_other in H by auto. eauto.
      * intros q q' j d1 d2 H1 H2. destruct (Nat.eq_dec q p) as [->|Ne]; destruct (Nat.eq_dec q' p) as [->|Ne']; auto.
        -- rewrite put_same in H1. rewrite put_other in H2 by auto. destruct H1 as [H1|[k H1]]; inv H1. eapply v_un0; eauto.
        -- rewrite put_same in H2. rewrite put_other in H1 by auto. destruct H2 as [H2|[k H2]]; inv H2. eapply v_un0; eauto.
        -- rewrite put_other in H1, H2 by auto. eauto.
      * intros j e Hj L. destruct (Nat.eq_dec j i) as [->|Ne].
        -- right. exists p, d. rewrite put_same. right; eauto.
        -- assert (j < length log) by (apply nth_error_Some; congruence).
           destruct (v_set0 j e Hj L) as [[S1 S2]|(q & d' & S)].
           ++ left. split; cbn [at_ shm set_sq set_cell sq cell]; auto. rewrite put_other; auto.
              apply (window_apart cap (length log)); auto.
           ++ right. exists q, d'. rewrite put_other; auto. intros ->. destruct (writing_inj _ _ _ _ _ Wp S); congruence.
      * intros q j d' H L. destruct (Nat.eq_dec q p) as [->|Ne]; [rewrite put_same in H; discriminate|].
        rewrite put_other in H by auto. rewrite put_other; eauto.
        intros Ej. apply (O q j d' Ne); [left; eauto|]. rewrite Nat.mod_small by lia. exact Ej.
      * intros q j d' k H. destruct (Nat.eq_dec q p) as [->|Ne].
        -- rewrite put_same in H. inv H. rewrite put_same. repeat split; auto. lia.
        -- rewrite put_other in H by auto. rewrite put_other; eauto. eapply O; eauto. right; eauto.
      * intros c L1 L2. rewrite put_other; auto. intros ->. rewrite Nat.mod_small in L1 by lia. lia.
    + (* copy or finish *)
      assert (Wp : writing (procs s p) i d) by (right; eauto).
      destruct (in_window _ _ _ _ _ _ I N Wp) as [Li Wi].
      assert (O : forall q j d', q <> p -> writing (procs s q) j d' -> j mod cap <> i mod cap).
      { intros q j d' Ne H. destruct (in_window _ _ _ _ _ _ I N H). apply (window_apart cap (length log)); auto.
        intros ->. apply Ne. eapply v_un; eauto. }
      destruct (v_wr _ _ _ I _ _ _ Wp) as (e0 & He0 & Hd0).
      pose proof (stored_length _ _ Hd0) as Ld.
      destruct (v_copy _ _ _ I _ _ _ _ Ep) as (Q1 & Q2 & Q3).
      pose proof (v_len _ _ _ I (i mod cap)) as Lc.
      destruct (nth_error d k) as [b|] eqn:Eb; inv E; cbn [claimed]; rewrite app_nil_r.
      * assert (Hk : k < length d) by (apply nth_error_Some; congruence).
        destruct I. constructor; cbn [at_ shm set_cell widx sq cell procs]; auto.
        -- intros q j d' H. destruct (Nat.eq_dec q p) as [->|Ne].
           ++ rewrite put_same in H. destruct H as [H|[k' H]]; inv H. eauto.
           ++ rewrite put_other in H by auto. eauto.
        -- intros q q' j d1 d2 H1 H2. destruct (Nat.eq_dec q p) as [->|Ne]; destruct (Nat.eq_dec q' p) as [->|Ne']; auto.
           ++ rewrite put_same in H1. rewrite put_other in H2 by auto. destruct H1 as [H1|[k' H1]]; inv H1. eapply v_un0; eauto.
           ++ rewrite put_same in H2. rewrite put_other in H1 by auto. destruct H2 as [H2|[k' H2]]; inv H2. eapply v_un0; eauto.
           ++ rewrite put_other in H1, H2 by auto. eauto.
        -- intros j e Hj L. destruct (Nat.eq_dec j i) as [->|Ne].
           ++ right. exists p, d. rewrite put_same. right; eauto.
           ++ assert (j < length log) by (apply nth_error_Some; congruence).
              destruct (v_set0 j e Hj L) as [[S1 S2]|(q & d' & S)].
              ** left. split; cbn [at_ shm set_sq set_cell sq cell]; auto. rewrite put_other; auto.
                 apply (window_apart cap (length log)); auto.
              ** right. exists q, d'. rewrite put_other; auto. intros ->. destruct (writing_inj _ _ _ _ _ Wp S); congruence.
        -- intros q j d' H L. destruct (Nat.eq_dec q p) as [->|Ne]; [rewrite put_same in H; discriminate|].
           rewrite put_other in H by auto. eauto.
        -- intros q j d' k' H. destruct (Nat.eq_dec q p) as [->|Ne].
           ++ rewrite put_same in H. inv H. rewrite put_same. split; auto. split; [|lia].
              apply set_byte_firstn; auto. lia.
           ++ rewrite put_other in H by auto. rewrite put_other; eauto. eapply O; eauto. right; eauto.
        -- intros c. unfold put. destruct (c =? i mod cap); auto. rewrite set_byte_length; auto. lia.
      * apply nth_error_None in Eb. assert (k = length d) as -> by lia.
        rewrite firstn_all, firstn_all2 in Q2 by lia.
        destruct I. constructor; cbn [at_ shm set_sq widx sq cell procs]; auto.
        -- intros q j d' H. destruct (Nat.eq_dec q p) as [->|Ne].
           ++ rewrite put_same in H. destruct H as [H|[k' H]]; inv H.
           ++ rewrite put_other in H by auto. eauto.
        -- intros q q' j d1 d2 H1 H2. destruct (Nat.eq_dec q p) as [->|Ne]; destruct (Nat.eq_dec q' p) as [->|Ne']; auto.
           ++ rewrite put_same in H1. destruct H1 as [H1|[k' H1]]; inv H1.
           ++ rewrite put_same in H2. destruct H2 as [H2|[k' H2]]; inv H2.
           ++ rewrite put_other in H1, H2 by auto. eauto.
        -- intros j e Hj L. destruct (Nat.eq_dec j i) as [->|Ne].
           ++ left. split; cbn [at_ shm set_sq set_cell sq cell]; [rewrite put_same; reflexivity|]. rewrite Q2. congruence.
           ++ assert (j < length log) by (apply nth_error_Some; congruence).
              destruct (v_set0 j e Hj L) as [[S1 S2]|(q & d' & S)].
              ** left. split; cbn [at_ shm set_sq set_cell sq cell]; auto. rewrite put_other; auto.
                 apply (window_apart cap (length log)); auto.
              ** right. exists q, d'. rewrite put_other; auto. intros ->. destruct (writing_inj _ _ _ _ _ Wp S); congruence.
        -- intros q j d' H L. destruct (Nat.eq_dec q p) as [->|Ne]; [rewrite put_same in H; discriminate|].
           rewrite put_other in H by auto. rewrite put_other; eauto.
           intros Ej. apply (O q j d' Ne); [left; eauto|]. rewrite Nat.mod_small by lia. exact Ej.
        -- intros q j d' k' H. destruct (Nat.eq_dec q p) as [->|Ne]; [rewrite put_same in H; discriminate|].
           rewrite put_other in H by auto. rewrite put_other; eauto. eapply O; eauto. right; eauto.
        -- intros c L1 L2. rewrite put_other; auto. intros ->. rewrite Nat.mod_small in L1 by lia. lia.
    + assert (R : forall i d, ~ writing (procs s p) i d) by (intros i d [H|[k H]]; rewrite Ep in H; discriminate).
      destruct todo as [|c todo]; [inv E; cbn [claimed]; rewrite app_nil_r; apply inv_outside; auto; intros i d [H|[k H]]; discriminate|].
      destruct (sq (shm s) c =? 0); [|destruct (Nat.odd (sq (shm s) c))];
        inv E; cbn [claimed]; rewrite app_nil_r; apply inv_outside; auto; intros i d [H|[k H]]; discriminate.
    + assert (R : forall i d, ~ writing (procs s p) i d) by (intros i d [H|[k H]]; rewrite Ep in H; discriminate).
      destruct (negb (sq (shm s) c =? 0) && negb (Nat.odd (sq (shm s) c)));
        inv E; cbn [claimed]; rewrite app_nil_r; auto; apply inv_outside; auto; intros i d [H|[k H]]; discriminate.
    + assert (R : forall i d, ~ writing (procs s p) i d) by (intros i d [H|[k H]]; rewrite Ep in H; discriminate).
      destruct (nth_error (cell (shm s) c) (length buf));
        inv E; cbn [claimed]; rewrite app_nil_r; auto; apply inv_outside; auto; intros i d [H|[k H]]; discriminate.
Qed.

(** * A read among running pushes *)
Lemma step_writing cap s a s' evs q i d : step cap s a = (s', evs) -> writing (procs s' q) i d ->
  writing (procs s q) i d \/ i = widx (shm s).
Proof.
  intros E H.
  assert (K : forall m p x, s' = at_ s m p x ->
    (forall i d, writing x i d -> writing (procs s p) i d \/ i = widx (shm s)) ->
    writing (procs s q) i d \/ i = widx (shm s)).
  { intros m p x -> F. cbn [at_ procs] in H. destruct (Nat.eq_dec q p) as [->|Ne].
    - rewrite put_same in H. auto.
    - rewrite put_other in H; auto. }
  destruct a as [p e|p after|p|p]; cbn [step] in E; destruct (procs s p) eqn:Ep;
    repeat match goal with
    | E : context [match ?x with _ => _ end] |- _ => destruct x
    end; injection E as <- _; auto;
    eapply K; try reflexivity; intros j d' [X|[k' X]]; inv X; auto; rewrite Ep; left; (left; reflexivity) || (right; eauto).
Qed.
Lemma step_claimed cap s a s' evs q i d : step cap s a = (s', evs) -> procs s' q = WClaimed i d ->
  procs s q = WClaimed i d \/ i = widx (shm s).
Proof.
  intros E H. destruct (step_writing _ _ _ _ _ q i d E (or_introl H)) as [[W|[k W]]|W]; auto.
  exfalso. destruct a as [p e|p after|p|p]; cbn [step] in E; destruct (procs s p) eqn:Ep;
    repeat match goal with
    | E : context [match ?x with _ => _ end] |- _ => destruct x
    end; injection E as <- _; cbn [at_ procs] in H; try congruence;
    (destruct (Nat.eq_dec q p) as [->|Ne]; [rewrite put_same in H; congruence|rewrite put_other in H by auto; congruence]).
Qed.
Lemma step_other cap s a s' evs p : step cap s a = (s', evs) ->
  (forall e, a <> APush p e) -> (forall n, a <> ARead p n) -> a <> AStep p -> a <> ATimeout p ->
  procs s' p = procs s p /\ forall l, ~ In (ERead p l) evs.
Proof.
  intros E A B C D.
  assert (K : exists q, q <> p /\ (a = AStep q \/ (exists n, a = ARead q n) \/ (exists e, a = APush q e) \/ a = ATimeout q)).
  { destruct a as [q e|q n|q|q]; exists q; (split; [intros ->|eauto 6]); [eapply A|eapply B|eapply C|eapply D]; eauto. }
  destruct K as (q & Ne & K).
  destruct K as [->|[[n ->]|[[e ->]| ->]]]; cbn [step] in E; destruct (procs s q) eqn:Ep;
    repeat match goal with
    | E : context [match ?x with _ => _ end] |- _ => destruct x
    end; injection E as <- <-; cbn [at_ procs]; rewrite ?put_other by auto; split; auto;
    intros l [X|[]]; inv X; auto.
Qed.
Lemma step_widx cap s a s' evs : step cap s a = (s', evs) ->
  widx (shm s') = widx (shm s) + length (claimed evs).
Proof.
  intros E. destruct a as [p e|p after|p|p]; cbn [step] in E; destruct (procs s p) eqn:Ep;
    repeat match goal with
    | E : context [match ?x with _ => _ end] |- _ => destruct x
    end; injection E as <- <-; cbn; lia.
Qed.
Lemma claimed_app a b : claimed (a ++ b) = claimed a ++ claimed b.
Proof. induction a as [|[| |] a IH]; cbn [app claimed]; auto. f_equal; auto. Qed.
Lemma run_widx cap l : forall s s' evs, run cap s l = (s', evs) ->
  widx (shm s') = widx (shm s) + length (claimed evs).
Proof.
  induction l as [|a l IH]; intros s s' evs E; cbn [run] in E; [inv E; cbn; lia|].
  destruct (step cap s a) as [s1 x] eqn:E1. destruct (run cap s1 l) as [s2 y] eqn:E2. injection E as <- <-.
  rewrite (IH _ _ _ E2), (step_widx _ _ _ _ _ E1), claimed_app, app_length. lia.
Qed.

Lemma chosen_snoc {A} f (l : list A) : forall i e,
  chosen f i (l ++ [e]) = chosen f i l ++ if f (i + length l) then [e] else [].
Proof.
  induction l as [|x l IH]; intros i e; cbn [app chosen length].
  - rewrite Nat.add_0_r. destruct (f i); reflexivity.
  - rewrite IH. replace (S i + length l) with (i + S (length l)) by lia. destruct (f i); reflexivity.
Qed.
Lemma chosen_ext {A} f g (l : list A) : forall i, (forall j, i <= j -> j < i + length l -> f j = g j) ->
  chosen f i l = chosen g i l.
Proof.
  induction l as [|x l IH]; intros i H; cbn [chosen]; auto. cbn [length] in H.
  rewrite (H i) by lia. rewrite (IH (S i)) by (intros; apply H; lia). reflexivity.
Qed.

Section Reader.
Variables (cap p start : nat) (log0 : list entry) (D : nat -> Prop).
Hypothesis Hc : 0 < cap.
Hypothesis Hok : Forall entry_ok log0.
Let n := length log0.

(** What the reader has collected once positions below [g] are done with. *)
Definition got (g : nat) (acc : list entry) : Prop :=
  start <= g /\ (g <= n \/ g = start) /\
  exists f, acc = map shorten (chosen f start (firstn (g - start) (skipn start log0)))
    /\ forall i, start <= i -> i < g -> i < n -> D i -> f i = true.
Definition slots (g : nat) : list nat := map (fun g => g mod cap) (seq g (n - g)).
Definition reading (s : st) : Prop :=
  match procs s p with
  | RNext todo acc => exists g, got g acc /\ todo = slots g
  | RSpin c q todo acc => exists g, got g acc /\ g < n /\ c = g mod cap /\ todo = slots (S g)
  | RBytes c buf todo acc => exists g e, got g acc /\ g < n /\ c = g mod cap /\ todo = slots (S g)
      /\ nth_error log0 g = Some e /\ settled cap (shm s) g e /\ buf = firstn (length buf) (cell (shm s) c)
  | _ => False
  end.

Lemma got_step g acc e b : got g acc -> g < n -> nth_error log0 g = Some e -> (D g -> b = true) ->
  got (S g) (acc ++ if b then [shorten e] else []).
Proof.
  intros (A & B & f & -> & F) L E Hb. split; [lia|]. split; [lia|].
  exists (fun i => if i =? g then b else f i). split.
  - replace (S g - start) with (S (g - start)) by lia.
    rewrite (firstn_S_nth (g - start) (skipn start log0) e) by (rewrite skipn_nth_error; replace (start + (g - start)) with g by lia; auto).
    rewrite chosen_snoc, map_app.
    assert (Hl : length (firstn (g - start) (skipn start log0)) = g - start)
      by (rewrite firstn_length, skipn_length; fold n; lia).
    rewrite Hl. replace (start + (g - start)) with g by lia. rewrite Nat.eqb_refl. f_equal.
    + f_equal. apply chosen_ext. intros j J1 J2. rewrite Hl in J2.
      replace (j =? g) with false by (symmetry; apply Nat.eqb_neq; lia). reflexivity.
    + destruct b; reflexivity.
  - intros i I1 I2 I3 I4. destruct (Nat.eqb_spec i g) as [->|Ne]; auto. apply F; auto; lia.
Qed.

Lemma no_writer s log g e : inv_ cap s log ->
  (forall q i d, procs s q = WClaimed i d -> start <= i -> i < n -> i < cap) ->
  start <= g -> g < n -> settled cap (shm s) g e -> forall q d, ~ writing (procs s q) g d.
Proof.
  intros I A1 Hs Hg [S1 S2] q d [W|[k W]].
  - pose proof (A1 _ _ _ W Hs Hg) as L. pose proof (v_first _ _ _ I _ _ _ W L).
    rewrite Nat.mod_small in S1 by lia. lia.
  - destruct (v_copy _ _ _ I _ _ _ _ W) as [Q _]. lia.
Qed.

Lemma reading_step s a s' evs log x :
  inv_ cap s log -> no_straggler cap s -> log = log0 ++ x -> inv_ cap s' (log ++ claimed evs) ->
  widx (shm s') <= start + cap -> (forall q, a <> ATimeout q) ->
  (forall q i d, procs s q = WClaimed i d -> start <= i -> i < n -> i < cap) ->
  (forall i, i < n -> D i -> forall q d, ~ writing (procs s q) i d) ->
  reading s -> step (fun _ => cap) s a = (s', evs) ->
  (reading s' /\ forall l, ~ In (ERead p l) evs)
  \/ exists acc, evs = [ERead p acc] /\ got (Nat.max start n) acc.
Proof.
  intros I N Hlog I' W' NT A1 A2 R E.
  assert (Hn : n <= length log) by (rewrite Hlog, app_length; lia).
  assert (Hnth : forall g e, nth_error log0 g = Some e -> nth_error log g = Some e).
  { intros g e H. rewrite Hlog, nth_error_app1; auto. apply nth_error_Some. congruence. }
  assert (Hget : forall g, g < n -> exists e, nth_error log0 g = Some e).
  { intros g H. destruct (nth_error log0 g) eqn:X; eauto. apply nth_error_None in X. unfold n in H. lia. }
  assert (Wm : widx (shm s) <= widx (shm s')) by (rewrite (step_widx _ _ _ _ _ E); lia).
  rewrite (v_w _ _ _ I) in Wm.
  assert (Own : (exists e, a = APush p e) \/ (exists k, a = ARead p k) \/ a = AStep p
    \/ ((forall e, a <> APush p e) /\ (forall k, a <> ARead p k) /\ a <> AStep p)).
  { destruct a as [q e|q k|q|q]; destruct (Nat.eq_dec q p) as [->|Ne]; eauto;
      right; right; right; repeat split; intros; congruence. }
  destruct Own as [[e ->]|[[k ->]|[->|(O1 & O2 & O3)]]].
  - cbn [step] in E. unfold reading in R. destruct (procs s p) eqn:Ep; try contradiction;
      injection E as <- <-; left; (split; [unfold reading; rewrite Ep; exact R|intros l []]).
  - cbn [step] in E. unfold reading in R. destruct (procs s p) eqn:Ep; try contradiction;
      injection E as <- <-; left; (split; [unfold reading; rewrite Ep; exact R|intros l []]).
  - cbn [step] in E. unfold reading in R. destruct (procs s p) as [|i d|i d k|todo acc|c q todo acc|c buf todo acc] eqn:Ep; try contradiction.
    + destruct R as (g & G & ->). destruct (Nat.lt_ge_cases g n) as [Lg|Gg].
      * unfold slots in E. replace (n - g) with (S (n - S g)) in E by lia. cbn [seq map] in E.
        destruct (Hget g Lg) as [e He].
        assert (Hst : start <= g) by apply G.
        destruct (v_set _ _ _ I g e (Hnth _ _ He) ltac:(lia)) as [S|(q & d & Wq)].
        -- destruct S as [S1 S2]. rewrite S1 in E.
           replace (g * 2 + 2 =? 0) with false in E by (symmetry; apply Nat.eqb_neq; lia).
           rewrite (proj1 (even_odd_seq g)) in E. injection E as <- <-. left. split; [|intros l []].
           unfold reading. cbn [at_ procs]. rewrite put_same. exists g, e. repeat split; auto; apply G.
        -- destruct Wq as [Wq|[k Wq]].
           ++ pose proof (A1 _ _ _ Wq Hst Lg) as L. pose proof (v_first _ _ _ I _ _ _ Wq L) as Z.
              rewrite Nat.mod_small in E by lia. rewrite Z in E. cbn [Nat.eqb] in E.
              injection E as <- <-. left. split; [|intros l []].
              unfold reading. cbn [at_ procs]. rewrite put_same. exists (S g). split; [|reflexivity].
              rewrite <- (app_nil_r acc). apply (got_step g acc e false); auto.
              intros Dg. destruct (A2 g Lg Dg q d). left; auto.
           ++ destruct (v_copy _ _ _ I _ _ _ _ Wq) as [Q _]. rewrite Q in E.
              replace (g * 2 + 1 =? 0) with false in E by (symmetry; apply Nat.eqb_neq; lia).
              rewrite (proj2 (even_odd_seq g)) in E. injection E as <- <-. left. split; [|intros l []].
              unfold reading. cbn [at_ procs]. rewrite put_same. exists g. repeat split; auto; apply G.
      * unfold slots in E. replace (n - g) with 0 in E by lia. cbn [seq map] in E. injection E as <- <-.
        right. exists acc. split; auto. destruct G as (G1 & G2 & f & -> & F).
        assert (g = Nat.max start n) as <- by lia. split; auto. split; auto. exists f; auto.
    + destruct R as (g & G & Lg & -> & ->). destruct (Hget g Lg) as [e He].
      assert (Hst : start <= g) by apply G.
      destruct (v_set _ _ _ I g e (Hnth _ _ He) ltac:(lia)) as [S|(q0 & d & Wq)].
      * destruct S as [S1 S2]. rewrite S1 in E.
        replace (g * 2 + 2 =? 0) with false in E by (symmetry; apply Nat.eqb_neq; lia).
        rewrite (proj1 (even_odd_seq g)) in E. cbn [negb andb] in E. injection E as <- <-. left. split; [|intros l []].
        unfold reading. cbn [at_ procs]. rewrite put_same. exists g, e. repeat split; auto; apply G.
      * assert (Z : negb (sq (shm s) (g mod cap) =? 0) && negb (Nat.odd (sq (shm s) (g mod cap))) = false).
        { destruct Wq as [Wq|[k Wq]].
          - pose proof (A1 _ _ _ Wq Hst Lg) as L. pose proof (v_first _ _ _ I _ _ _ Wq L) as Z.
            rewrite Nat.mod_small by lia. rewrite Z. reflexivity.
          - destruct (v_copy _ _ _ I _ _ _ _ Wq) as [Q _]. rewrite Q.
            rewrite (proj2 (even_odd_seq g)). apply andb_false_r. }
        rewrite Z in E. injection E as <- <-. left. split; [|intros l []].
        unfold reading. rewrite Ep. exists g. repeat split; auto; apply G.
    + destruct R as (g & e & G & Lg & -> & -> & He & [S1 S2] & Hb).
      pose proof (stored_length _ _ S2) as Lc.
      destruct (nth_error (cell (shm s) (g mod cap)) (length buf)) as [b|] eqn:Eb; injection E as <- <-; left; (split; [|intros l []]).
      * unfold reading. cbn [at_ procs]. rewrite put_same. exists g, e. repeat split; auto; try apply G.
        cbn [at_ shm]. rewrite app_length. cbn [length]. rewrite Nat.add_1_r, (firstn_S_nth _ _ _ Eb).
        rewrite <- Hb. reflexivity.
      * unfold reading. cbn [at_ procs]. rewrite put_same. exists (S g). split; [|reflexivity].
        apply nth_error_None in Eb. rewrite firstn_all2 in Hb by lia. rewrite Hb.
        destruct (stored_some e) as (d & Hd & _ & Hdec). rewrite S2 in Hd. injection Hd as <-.
        rewrite Hdec; [|rewrite Forall_forall in Hok; eapply Hok, nth_error_In; eauto].
        apply (got_step g acc e true); auto.
  - destruct (step_other _ _ _ _ _ p E O1 O2 O3 (NT p)) as [P Q]. left. split; auto.
    unfold reading in *. rewrite P. destruct (procs s p) as [|i d|i d k|todo acc|c q todo acc|c buf todo acc] eqn:Ep; auto.
    destruct R as (g & e & G & Lg & -> & -> & He & S & Hb).
    exists g, e. repeat split; auto; try apply G.
    all: assert (Hst : start <= g) by apply G.
    all: pose proof (no_writer s log g e I A1 Hst Lg S) as NW.
    all: assert (S' : settled cap (shm s') g e).
    1,3,5: destruct (v_set _ _ _ I' g e) as [S'|(q & d & Wq)]; auto;
      [rewrite nth_error_app1; [apply Hnth; auto|lia]
      |rewrite <- (v_w _ _ _ I'); lia
      |destruct (step_writing _ _ _ _ _ q g d E Wq) as [Z|Z]; [destruct (NW _ _ Z)|rewrite (v_w _ _ _ I) in Z; lia]].
    + apply S'.
    + apply S'.
    + destruct S as [_ S2]. destruct S' as [_ S2']. rewrite S2 in S2'. injection S2' as <-. exact Hb.
Qed.

Lemma reading_run l : forall s log x s' h acc,
  inv_ cap s log -> log = log0 ++ x -> throughout (fun _ => cap) (no_straggler cap) s l ->
  patient l ->
  (forall q i d, procs s q = WClaimed i d -> start <= i -> i < n -> i < cap) ->
  (forall i, i < n -> D i -> forall q d, ~ writing (procs s q) i d) ->
  reading s -> run (fun _ => cap) s l = (s', h ++ [ERead p acc]) -> (forall a, ~ In (ERead p a) h) ->
  widx (shm s') <= start + cap ->
  got (Nat.max start n) acc.
Proof.
  induction l as [|a l IH]; intros s log x s' h acc I Hl T P A1 A2 R E NR W; cbn [run] in E.
  - injection E as _ E. destruct h; discriminate.
  - destruct (step (fun _ => cap) s a) as [s1 e1] eqn:E1. destruct (run (fun _ => cap) s1 l) as [s2 e2] eqn:E2.
    injection E as <- E.
    assert (N : no_straggler cap s) by (apply (T [] (a :: l)); reflexivity).
    assert (NT : forall q, a <> ATimeout q) by (intros q ->; apply (P q); left; auto).
    pose proof (inv_step _ _ _ _ _ _ Hc I N NT E1) as I1.
    assert (Hn : n <= length log) by (rewrite Hl, app_length; unfold n; lia).
    assert (W1 : widx (shm s1) <= start + cap) by (rewrite (run_widx _ _ _ _ _ E2) in W; lia).
    destruct (reading_step s a s1 e1 log x I N Hl I1 W1 NT A1 A2 R E1) as [[R1 NR1]|(acc' & -> & G)].
    + assert (exists h', h = e1 ++ h' /\ e2 = h' ++ [ERead p acc]) as (h' & -> & E2').
      { clear - E NR1 NR. revert h E NR. induction e1 as [|y e1 IHe]; intros h E NR; cbn in E.
        - exists h. auto.
        - destruct h as [|z h]; cbn in E.
          + injection E as -> E. destruct (NR1 acc). left; auto.
          + injection E as -> E. destruct (IHe ltac:(intros k K; apply (NR1 k); right; auto) h E) as (h' & -> & ->).
            { intros k K; apply (NR k); right; auto. }
            exists h'. auto. }
      apply (IH s1 (log ++ claimed e1) (x ++ claimed e1) s2 h' acc); auto.
      * rewrite Hl, app_assoc. reflexivity.
      * intros l1 l2 ->. specialize (T (a :: l1) l2 eq_refl). cbn [run] in T. rewrite E1 in T.
        destruct (run (fun _ => cap) s1 l1); exact T.
      * intros q Hq. apply (P q). right; auto.
      * intros q i d H S1 S2. destruct (step_claimed _ _ _ _ _ _ _ _ E1 H) as [Z|Z]; eauto.
        rewrite (v_w _ _ _ I) in Z. lia.
      * intros i Hi Di q d H. destruct (step_writing _ _ _ _ _ _ _ _ E1 H) as [Z|Z]; [eapply A2; eauto|].
        rewrite (v_w _ _ _ I) in Z. lia.
      * rewrite E2', E2 in *. reflexivity.
      * intros k K. apply (NR k). apply in_or_app; auto.
    + destruct h as [|z h]; cbn [app] in E.
      * injection E as -> _. auto.
      * injection E as <- E. destruct (NR acc'). left; auto.
Qed.
End Reader.

Lemma throughout_head cap P s l : throughout cap P s l -> P s.
Proof. intros T. apply (T [] l). reflexivity. Qed.
Lemma throughout_tail cap P s a l s1 e1 : throughout cap P s (a :: l) -> step cap s a = (s1, e1) ->
  throughout cap P s1 l.
Proof.
  intros T E l1 l2 ->. specialize (T (a :: l1) l2 eq_refl). cbn [run] in T. rewrite E in T.
  destruct (run cap s1 l1); exact T.
Qed.
Lemma step_pushed cap s a s' evs q i : step cap s a = (s', evs) -> In (EPushed q i) evs ->
  exists d, writing (procs s q) i d /\ procs s' q = Idle.
Proof.
  intros E H. destruct a as [p e|p after|p|p]; cbn [step] in E; destruct (procs s p) eqn:Ep;
    repeat match goal with
    | E : context [match ?x with _ => _ end] |- _ => destruct x
    end; injection E as <- <-; cbn [In] in H; try (destruct H as [H|[]]; inv H); try contradiction.
  exists d. split; [right; eauto|]. cbn [at_ procs]. apply put_same.
Qed.
Lemma inv_run cap l : forall s log s' h, 0 < cap -> inv_ cap s log ->
  throughout (fun _ => cap) (no_straggler cap) s l -> patient l -> run (fun _ => cap) s l = (s', h) ->
  inv_ cap s' (log ++ claimed h)
  /\ (forall i, i < length log -> (forall q d, ~ writing (procs s q) i d) -> forall q d, ~ writing (procs s' q) i d)
  /\ (forall q i, In (EPushed q i) h -> i < length (log ++ claimed h) /\ forall q d, ~ writing (procs s' q) i d).
Proof.
  induction l as [|a l IH]; intros s log s' h Hc I T P E; cbn [run] in E.
  - injection E as <- <-. cbn [claimed]. rewrite app_nil_r. split; auto. split; auto. intros q i [].
  - destruct (step (fun _ => cap) s a) as [s1 e1] eqn:E1. destruct (run (fun _ => cap) s1 l) as [s2 e2] eqn:E2.
    injection E as <- <-.
    assert (NT : forall q, a <> ATimeout q) by (intros q ->; apply (P q); left; auto).
    pose proof (throughout_head _ _ _ _ T) as N.
    pose proof (inv_step _ _ _ _ _ _ Hc I N NT E1) as I1.
    destruct (IH s1 (log ++ claimed e1) s2 e2 Hc I1 (throughout_tail _ _ _ _ _ _ _ T E1)) as (J1 & J2 & J3); auto.
    { intros q Hq. apply (P q). right; auto. }
    rewrite claimed_app, app_assoc. split; auto. split.
    + intros i Hi H. apply J2.
      * rewrite app_length. lia.
      * intros q d Wq. destruct (step_writing _ _ _ _ _ _ _ _ E1 Wq) as [Z|Z]; [eapply H; eauto|].
        rewrite (v_w _ _ _ I) in Z. lia.
    + intros q i Hq. apply in_app_or in Hq as [Hq|Hq]; [|eauto].
      destruct (step_pushed _ _ _ _ _ _ _ E1 Hq) as (d & Wd & Id).
      destruct (in_window _ _ _ _ _ _ I N Wd) as [Li _].
      split; [rewrite !app_length; lia|]. apply J2; [rewrite app_length; lia|].
      intros q' d' W'. destruct (step_writing _ _ _ _ _ _ _ _ E1 W') as [Z|Z].
      * assert (q' = q) as -> by (eapply (v_un _ _ _ I); eauto). rewrite Id in W'. destruct W' as [X|[k X]]; discriminate.
      * rewrite (v_w _ _ _ I) in Z. lia.
Qed.

Lemma run_app cap a : forall s b, run cap s (a ++ b) =
  let (s1, x) := run cap s a in let (s2, y) := run cap s1 b in (s2, x ++ y).
Proof.
  induction a as [|o a IH]; intros s b; cbn [app run].
  - destruct (run cap s b); reflexivity.
  - destruct (step cap s o) as [s1 x]. rewrite IH. destruct (run cap s1 a) as [s2 y].
    destruct (run cap s2 b). rewrite app_assoc. reflexivity.
Qed.
Lemma throughout_app cap P s a b s1 x : throughout cap P s (a ++ b) -> run cap s a = (s1, x) ->
  throughout cap P s a /\ throughout cap P s1 b.
Proof.
  intros T E. split.
  - intros l1 l2 ->. apply (T l1 (l2 ++ b)). rewrite app_assoc. reflexivity.
  - intros l1 l2 ->. specialize (T (a ++ l1) l2). rewrite run_app, E in T.
    destruct (run cap s1 l1) eqn:E1. apply T. rewrite app_assoc. reflexivity.
Qed.
Lemma run_ok cap l : forall s s' h, pushes_ok l -> run cap s l = (s', h) -> Forall entry_ok (claimed h).
Proof.
  induction l as [|a l IH]; intros s s' h Ok E; cbn [run] in E; [injection E as <- <-; constructor|].
  destruct (step cap s a) as [s1 e1] eqn:E1. destruct (run cap s1 l) as [s2 e2] eqn:E2. injection E as <- <-.
  rewrite claimed_app. apply Forall_app. split.
  - destruct a as [p e|p after|p|p]; cbn [step] in E1; destruct (procs s p) eqn:Ep;
    repeat match goal with
    | E : context [match ?x with _ => _ end] |- _ => destruct x
    end; injection E1 as <- <-; cbn [claimed]; auto. constructor; [|auto]. apply (Ok p e). left; auto.
  - eapply IH; [|exact E2]. intros p e H. apply (Ok p e). right; auto.
Qed.

(** * The steps agree with the whole calls *)
Lemma cell_copy p i d c cap : forall k m, k <= length d -> length (cell m c) = length d -> c = i mod cap ->
  firstn k (cell m c) = firstn k d ->
  forall s, shm s = m -> procs s p = WCopy i d k ->
  exists s', run (fun _ => cap) s (repeat (AStep p) (length d - k + 1)) = (s', [EPushed p i])
  /\ procs s' p = Idle /\ (forall q, q <> p -> procs s' q = procs s q)
  /\ widx (shm s') = widx m /\ (forall j, sq (shm s') j = put (sq m) c (i * 2 + 2) j)
  /\ (forall j, cell (shm s') j = put (cell m) c d j).
Proof.
  intros k m Hk. remember (length d - k) as r eqn:Hr. revert k m Hk Hr.
  induction r as [|r IH]; intros k m Hk Hr L Hcc F s Hs Hp; cbn [Nat.add repeat run step]; rewrite Hp.
  - replace (nth_error d k) with (@None N) by (symmetry; apply nth_error_None; lia).
    cbn [run app]. eexists. split; [reflexivity|]. cbn [at_ procs shm set_sq widx sq cell].
    rewrite put_same, Hs, <- Hcc. split; auto. split; [intros; apply put_other; auto|]. split; auto. split; auto.
    intros j. unfold put. destruct (Nat.eqb_spec j c) as [->|]; auto.
    rewrite !firstn_all2 in F by lia. auto.
  - destruct (nth_error d k) as [b|] eqn:Eb; [|apply nth_error_None in Eb; lia].
    rewrite Hs, <- Hcc.
    set (m1 := set_cell m c (set_byte (cell m c) k b)).
    destruct (IH (S k) m1) with (s := at_ s m1 p (WCopy i d (S k))) as (s' & R1 & R2 & R3 & R4 & R5 & R6); auto.
    + lia.
    + lia.
    + unfold m1. cbn [set_cell cell]. rewrite put_same, set_byte_length; lia.
    + unfold m1. cbn [set_cell cell]. rewrite put_same. apply set_byte_firstn; auto. lia.
    + cbn [at_ procs]. apply put_same.
    + rewrite R1. exists s'. split; [reflexivity|]. split; auto. split; [|split; auto].
      * intros q Hq. rewrite R3 by auto. cbn [at_ procs]. apply put_other; auto.
      * split; auto. intros j. rewrite R6. unfold m1, put. cbn [set_cell cell]. unfold put.
        destruct (j =? c); reflexivity.
Qed.
Definition same (a b : mem) : Prop :=
  widx a = widx b /\ (forall j, sq a j = sq b j) /\ (forall j, cell a j = cell b j).
Lemma push_alone cap s p e : procs s p = Idle -> length (cell (shm s) (widx (shm s) mod cap)) = SLOT_DATA_SIZE ->
  exists s' k, run (fun _ => cap) s (APush p e :: repeat (AStep p) k) =
      (s', [EClaim p (widx (shm s)) e; EPushed p (widx (shm s))])
  /\ (forall q, procs s' q = procs s q) /\ same (shm s') (push cap (shm s) e).
Proof.
  intros Hp Hl. destruct (stored_some e) as (d & Hd & Ld & _).
  set (i := widx (shm s)) in *. set (c := i mod cap) in *.
  set (m1 := set_sq (claim (shm s)) c (i * 2 + 1)).
  destruct (cell_copy p i d c cap 0 m1) with (s := at_ (at_ s (claim (shm s)) p (WClaimed i d)) m1 p (WCopy i d 0))
    as (s' & R1 & R2 & R3 & R4 & R5 & R6); auto.
  - lia.
  - unfold m1. cbn. congruence.
  - cbn [at_ procs]. apply put_same.
  - exists s', (S (length d - 0 + 1)). cbn [run step]. rewrite Hp, Hd. cbn [repeat run step at_ procs shm].
    rewrite put_same. fold i c. change (set_sq (claim (shm s)) c (i * 2 + 1)) with m1.
    unfold at_ in R1 at 1. cbn [procs] in R1. unfold at_ at 1. cbn [procs]. rewrite R1. cbn [app]. split; [reflexivity|]. split.
    + intros q. destruct (Nat.eq_dec q p) as [->|Ne]; [congruence|]. rewrite R3 by auto. cbn [at_ procs].
      rewrite !put_other by auto. reflexivity.
    + unfold push. rewrite Hd. fold i c. split; [|split].
      * rewrite R4. reflexivity.
      * intros j. rewrite R5. unfold m1. cbn [set_sq set_cell claim sq]. unfold put. destruct (j =? c); reflexivity.
      * intros j. rewrite R6. reflexivity.
Qed.
Lemma bytes_alone cap p c todo acc s : forall r buf,
  procs s p = RBytes c buf todo acc -> buf = firstn (length buf) (cell (shm s) c) ->
  length (cell (shm s) c) = length buf + r ->
  exists s', run (fun _ => cap) s (repeat (AStep p) (r + 1)) = (s', [])
  /\ procs s' p = RNext todo (acc ++ match deserialize (cell (shm s) c) with Some e => [e] | None => [] end)
  /\ (forall q, q <> p -> procs s' q = procs s q) /\ shm s' = shm s.
Proof.
  intros r. revert s. induction r as [|r IH]; intros s buf Hp Hb Hl; cbn [Nat.add repeat run step]; rewrite Hp.
  - replace (nth_error (cell (shm s) c) (length buf)) with (@None N) by (symmetry; apply nth_error_None; lia).
    cbn [run app]. eexists. split; [reflexivity|]. cbn [at_ procs shm]. rewrite put_same.
    rewrite firstn_all2 in Hb by lia. rewrite Hb. split; auto. split; auto. intros; apply put_other; auto.
  - destruct (nth_error (cell (shm s) c) (length buf)) as [b|] eqn:Eb; [|apply nth_error_None in Eb; lia].
    destruct (IH (at_ s (shm s) p (RBytes c (buf ++ [b]) todo acc)) (buf ++ [b])) as (s' & R1 & R2 & R3 & R4).
    + cbn [at_ procs]. apply put_same.
    + cbn [at_ shm]. rewrite app_length. cbn [length]. rewrite Nat.add_1_r, (firstn_S_nth _ _ _ Eb), <- Hb. reflexivity.
    + cbn [at_ shm]. rewrite app_length. cbn. lia.
    + rewrite R1. exists s'. split; [reflexivity|]. cbn [at_ shm procs] in *. split; auto. split; auto.
      intros q Hq. rewrite R3 by auto. apply put_other; auto.
Qed.
Lemma repeat_app {A} (x : A) a b : repeat x a ++ repeat x b = repeat x (a + b).
Proof. induction a; cbn; congruence. Qed.
Lemma read_alone cap p : forall todo s acc,
  procs s p = RNext todo acc -> (forall c, In c todo -> Nat.odd (sq (shm s) c) = false) ->
  exists s' k, run (fun _ => cap) s (repeat (AStep p) k) = (s', [ERead p (acc ++ snd (read_slots (shm s) todo))])
  /\ procs s' p = Idle /\ (forall q, q <> p -> procs s' q = procs s q)
  /\ shm s' = shm s /\ fst (read_slots (shm s) todo) = shm s.
Proof.
  induction todo as [|c todo IH]; intros s acc Hp He.
  - eexists _, 1. cbn [repeat run step]. rewrite Hp. cbn [app read_slots snd fst]. rewrite app_nil_r.
    split; [reflexivity|]. cbn [at_ procs shm]. rewrite put_same. repeat split; auto. intros; apply put_other; auto.
  - cbn [read_slots]. unfold read_slot. rewrite (He c (or_introl eq_refl)).
    destruct (sq (shm s) c =? 0) eqn:E0.
    + destruct (IH (at_ s (shm s) p (RNext todo acc)) acc) as (s' & k & R1 & R2 & R3 & R4 & R5).
      * cbn [at_ procs]. apply put_same.
      * cbn [at_ shm]. intros; apply He; right; auto.
      * cbn [at_ shm procs] in *.
        exists s', (S k). cbn [repeat run step]. rewrite Hp, E0, R1. cbn [app].
        destruct (read_slots (shm s) todo) as [m l]. cbn [fst snd app] in *. split; [reflexivity|].
        repeat split; auto. intros q Hq. rewrite R3 by auto. apply put_other; auto.
    + destruct (bytes_alone cap p c todo acc (at_ s (shm s) p (RBytes c [] todo acc)) (length (cell (shm s) c)) [])
        as (s1 & B1 & B2 & B3 & B4); auto.
      { cbn [at_ procs]. apply put_same. }
      cbn [at_ shm procs] in *.
      destruct (IH s1 _ B2) as (s' & k & R1 & R2 & R3 & R4 & R5).
      { rewrite B4. intros; apply He; right; auto. }
      rewrite B4 in *.
      exists s', (S (length (cell (shm s) c) + 1 + k)). cbn [repeat run step]. rewrite Hp, E0, (He c (or_introl eq_refl)).
      rewrite <- repeat_app, run_app, B1, R1. cbn [app].
      destruct (read_slots (shm s) todo) as [m l]. cbn [fst snd] in *. rewrite app_assoc. split; [reflexivity|].
      repeat split; auto. intros q Hq. rewrite R3, B3 by auto. apply put_other; auto.
Qed.

(** * Witness executions *)
Lemma same_settled cap a b i e : same a b -> settled cap b i e -> settled cap a i e.
Proof. intros (_ & A & B) [C D]. split; [rewrite A; auto|rewrite B; auto]. Qed.
Definition quiet (l : list act) : Prop := forall a, In a l -> exists p, a = AStep p \/ (exists e, a = APush p e) \/ exists n, a = ARead p n.
Lemma quiet_patient l : quiet l -> patient l.
Proof. intros Q p H. destruct (Q _ H) as (q & [E|[[e E]|[n E]]]); discriminate. Qed.
Lemma quiet_app a b : quiet a -> quiet b -> quiet (a ++ b).
Proof. intros A B x H. apply in_app_or in H as [H|H]; auto. Qed.
Lemma quiet_steps p k : quiet (repeat (AStep p) k).
Proof. intros a H. apply repeat_spec in H. exists p. auto. Qed.
Lemma quiet_push p e k : quiet (APush p e :: repeat (AStep p) k).
Proof. intros a [<-|H]; [exists p; eauto|]. apply (quiet_steps p k a H). Qed.

(** One more push, by a process on its own. *)
Lemma push_more cap s p e log : 0 < cap -> holds cap (shm s) log -> (forall c, length (cell (shm s) c) = SLOT_DATA_SIZE) ->
  procs s p = Idle ->
  exists l s' h, run (fun _ => cap) s l = (s', h) /\ quiet l /\ claimed h = [e]
  /\ (forall q, procs s' q = procs s q)
  /\ holds cap (shm s') (log ++ [e]) /\ (forall c, length (cell (shm s') c) = SLOT_DATA_SIZE)
  /\ (forall q a, ~ In (ERead q a) h).
Proof.
  intros Hc H L Hp. destruct (push_alone cap s p e Hp (L _)) as (s' & k & R & Q & S).
  exists (APush p e :: repeat (AStep p) k), s', [EClaim p (widx (shm s)) e; EPushed p (widx (shm s))].
  split; [exact R|]. split; [apply quiet_push|]. split; [reflexivity|]. split; auto.
  pose proof (holds_push cap _ _ e Hc H) as [W' H']. split; [|split].
  - split; [destruct S as [-> _]; auto|]. intros i x Hx Hl. eapply same_settled; eauto.
  - intros c. destruct S as (_ & _ & ->). unfold push. destruct (stored e) as [d|] eqn:Ed; auto.
    cbn [set_sq set_cell claim cell]. unfold put. destruct (c =? _); auto. eapply stored_length; eauto.
  - intros q a [X|[X|[]]]; discriminate.
Qed.
Lemma fill (cap p : nat) (e : entry) : forall n, 0 < cap ->
  exists l s h, run (fun _ => cap) boot l = (s, h) /\ quiet l /\ claimed h = repeat e n
  /\ (forall q, procs s q = Idle) /\ holds cap (shm s) (repeat e n)
  /\ (forall c, length (cell (shm s) c) = SLOT_DATA_SIZE) /\ (forall q a, ~ In (ERead q a) h).
Proof.
  intros n Hc. induction n as [|n IH].
  - exists [], boot, []. split; [reflexivity|]. split; [intros a []|]. split; [reflexivity|]. split; [reflexivity|].
    split; [apply holds_blank|]. split; [reflexivity|]. intros q a [].
  - destruct IH as (l & s & h & R & Q & C & P & H & L & NR).
    destruct (push_more cap s p e _ Hc H L (P p)) as (l' & s' & h' & R' & Q' & C' & P' & H' & L' & NR').
    exists (l ++ l'), s', (h ++ h'). rewrite run_app, R, R'. split; [reflexivity|].
    assert (E : repeat e n ++ [e] = repeat e (S n)) by (change [e] with (repeat e 1); rewrite repeat_app; f_equal; lia).
    split; [apply quiet_app; auto|]. rewrite claimed_app, C, C', E. split; auto.
    split; [intros q; rewrite P'; auto|]. rewrite <- E. split; auto. split; auto.
    intros q a Hq. apply in_app_or in Hq as [Hq|Hq]; [eapply NR|eapply NR']; eauto.
Qed.

(** The first [k] bytes of a slot. *)
Lemma bytes_some cap p c todo acc : forall k s,
  procs s p = RBytes c [] todo acc -> k <= length (cell (shm s) c) ->
  exists s', run (fun _ => cap) s (repeat (AStep p) k) = (s', [])
  /\ procs s' p = RBytes c (firstn k (cell (shm s) c)) todo acc
  /\ (forall q, q <> p -> procs s' q = procs s q) /\ shm s' = shm s.
Proof.
  induction k as [|k IH]; intros s Hp Hk.
  - exists s. cbn. auto.
  - destruct (IH s Hp ltac:(lia)) as (s1 & R & P & Q & M).
    replace (S k) with (k + 1) by lia. rewrite <- repeat_app, run_app, R. cbn [repeat run step].
    rewrite P, M, firstn_length, Nat.min_l by lia.
    destruct (nth_error (cell (shm s) c) k) as [b|] eqn:Eb; [|apply nth_error_None in Eb; lia].
    eexists. split; [reflexivity|]. cbn [at_ procs shm]. rewrite put_same.
    rewrite Nat.add_1_r, (firstn_S_nth _ _ _ Eb). repeat split; auto.
    intros q Hq. rewrite put_other; auto.
Qed.
(** The remaining bytes, whatever was read before. *)
Lemma bytes_rest cap p c todo acc : forall r s buf,
  procs s p = RBytes c buf todo acc -> length (cell (shm s) c) = length buf + r ->
  exists s', run (fun _ => cap) s (repeat (AStep p) (r + 1)) = (s', [])
  /\ procs s' p = RNext todo (acc ++ match deserialize (buf ++ skipn (length buf) (cell (shm s) c)) with Some e => [e] | None => [] end)
  /\ (forall q, q <> p -> procs s' q = procs s q) /\ shm s' = shm s.
Proof.
  induction r as [|r IH]; intros s buf Hp Hl; cbn [Nat.add repeat run step]; rewrite Hp.
  - replace (nth_error (cell (shm s) c) (length buf)) with (@None N) by (symmetry; apply nth_error_None; lia).
    cbn [run app]. eexists. split; [reflexivity|]. cbn [at_ procs shm]. rewrite put_same.
    rewrite skipn_all2, app_nil_r by lia. repeat split; auto. intros; apply put_other; auto.
  - destruct (nth_error (cell (shm s) c) (length buf)) as [b|] eqn:Eb; [|apply nth_error_None in Eb; lia].
    destruct (IH (at_ s (shm s) p (RBytes c (buf ++ [b]) todo acc)) (buf ++ [b])) as (s' & R1 & R2 & R3 & R4).
    + cbn [at_ procs]. apply put_same.
    + cbn [at_ shm]. rewrite app_length. cbn. lia.
    + rewrite R1. exists s'. split; [reflexivity|]. cbn [at_ shm procs] in *. split; [|split; auto].
      * rewrite R2. do 2 f_equal. rewrite app_length, <- app_assoc. cbn [length app]. rewrite Nat.add_1_r.
        replace (skipn (length buf) (cell (shm s) c)) with (b :: skipn (S (length buf)) (cell (shm s) c)); [reflexivity|].
        clear - Eb. revert Eb. generalize (length buf) as k. induction (cell (shm s) c) as [|y l IHl]; intros [|k] E; try discriminate; cbn in *; [congruence|]. auto.
      * intros q Hq. rewrite R3 by auto. apply put_other; auto.
Qed.
Lemma even_slots cap m log : 0 < cap -> holds cap m log -> cap <= length log -> forall c, c < cap -> Nat.odd (sq m c) = false.
Proof.
  intros Hc [W H] L c Hcc.
  (* the newest position stored in slot c *)
  pose (n := length log). pose (i := n - 1 - (n - 1 + cap - c) mod cap).
  assert (B : (n - 1 + cap - c) mod cap < cap) by (apply Nat.mod_upper_bound; lia).
  assert (Hi : i < n) by (unfold i, n in *; lia).
  assert (M : i mod cap = c).
  { pose proof (Nat.div_mod (n - 1 + cap - c) cap ltac:(lia)) as X.
    set (r := (n - 1 + cap - c) mod cap) in *. set (k := (n - 1 + cap - c) / cap) in *.
    unfold i. fold r. fold n in L.
    assert (n - 1 - r + cap = c + k * cap) by nia.
    assert (1 <= k) by nia.
    replace (n - 1 - r) with (c + (k - 1) * cap) by nia.
    rewrite Nat.mod_add by lia. apply Nat.mod_small; auto. }
  destruct (nth_error log i) as [e|] eqn:E; [|apply nth_error_None in E; fold n in E; lia].
  destruct (H i e E) as [S _]; [fold n; unfold i; lia|]. rewrite M in S. rewrite S. apply even_odd_seq.
Qed.
Lemma visited_lt cap n after c : 0 < cap -> In c (visited cap n after) -> c < cap.
Proof.
  intros Hc H. rewrite visited_eq in H by auto. apply in_map_iff in H as (g & <- & _). apply Nat.mod_upper_bound. lia.
Qed.

(** A full ring; a reader copies [k] bytes of the oldest slot; a push replaces it; the
    reader goes on. *)
Lemma torn cap e0 e1 d0 d1 k x : 0 < cap -> k <= SLOT_DATA_SIZE ->
  stored e0 = Some d0 -> stored e1 = Some d1 -> deserialize (firstn k d0 ++ skipn k d1) = Some x ->
  exists l s h rest, run (fun _ => cap) boot l = (s, h ++ [ERead 2 (x :: rest)]) /\ quiet l
  /\ claimed h = repeat e0 cap ++ [e1].
Proof.
  intros Hc Hk E0 E1 Ex.
  destruct (fill cap 1 e0 cap Hc) as (l & s & h & R & Q & C & P & H & L & _).
  pose proof H as [W Hs]. rewrite repeat_length in *.
  assert (S0 : settled cap (shm s) 0 e0).
  { apply Hs; [|lia]. destruct cap; [lia|reflexivity]. }
  destruct S0 as [Sq Sc]. rewrite Nat.mod_0_l in Sq, Sc by lia.
  assert (d0 = cell (shm s) 0) as -> by congruence.
  assert (V : visited cap cap 0 = 0 :: map (fun g => g mod cap) (seq 1 (cap - 1))).
  { rewrite visited_eq by auto. replace (Nat.max 0 (cap - cap)) with 0 by lia.
    replace (cap - 0) with (S (cap - 1)) by lia. cbn [seq map]. rewrite Nat.mod_0_l by lia. reflexivity. }
  set (todo := map (fun g => g mod cap) (seq 1 (cap - 1))) in *.
  (* start the read, see an even field *)
  set (s1 := at_ (at_ s (shm s) 2 (RNext (0 :: todo) [])) (shm s) 2 (RBytes 0 [] todo [])).
  assert (R1 : run (fun _ => cap) s [ARead 2 0; AStep 2] = (s1, [])).
  { cbn [run step]. rewrite P, W, V. cbn [at_ procs shm]. rewrite put_same, Sq. cbn [Nat.mul Nat.add Nat.eqb Nat.odd Nat.even negb].
    reflexivity. }
  destruct (bytes_some cap 2 0 todo [] k s1) as (s2 & R2 & P2 & Q2 & M2).
  { unfold s1. cbn [at_ procs]. apply put_same. }
  { unfold s1. cbn [at_ shm]. rewrite L. auto. }
  assert (shm s1 = shm s) as Es1 by reflexivity. rewrite Es1 in *.
  (* the push *)
  destruct (push_more cap s2 1 e1 (repeat e0 cap)) as (l3 & s3 & h3 & R3 & Q3 & C3 & P3 & H3 & L3 & _).
  { auto. }
  { rewrite M2. exact H. }
  { rewrite M2. exact L. }
  { rewrite Q2 by lia. unfold s1. cbn [at_ procs]. rewrite !put_other by lia. apply P. }
  assert (S3 : settled cap (shm s3) cap e1).
  { apply H3; [|rewrite app_length, repeat_length; cbn; lia].
    rewrite nth_error_app2 by (rewrite repeat_length; lia). rewrite repeat_length, Nat.sub_diag. reflexivity. }
  destruct S3 as [_ Sc3]. rewrite Nat.mod_same in Sc3 by lia. assert (d1 = cell (shm s3) 0) as -> by congruence.
  (* the rest of the bytes *)
  assert (Lk : length (firstn k (cell (shm s) 0)) = k) by (rewrite firstn_length, L; lia).
  destruct (bytes_rest cap 2 0 todo [] (SLOT_DATA_SIZE - k) s3 (firstn k (cell (shm s) 0))) as (s4 & R4 & P4 & Q4 & M4).
  { rewrite P3. exact P2. }
  { rewrite Lk, L3. lia. }
  rewrite Lk, Ex in P4. cbn [app] in P4.
  destruct (read_alone cap 2 todo s4 [x] P4) as (s5 & k5 & R5 & _).
  { intros c Hcc. rewrite M4. apply (even_slots cap _ _ Hc H3).
    - rewrite app_length, repeat_length. lia.
    - unfold todo in Hcc. apply in_map_iff in Hcc as (g & <- & _). apply Nat.mod_upper_bound. lia. }
  exists (l ++ [ARead 2 0; AStep 2] ++ repeat (AStep 2) k ++ l3 ++ repeat (AStep 2) (SLOT_DATA_SIZE - k + 1) ++ repeat (AStep 2) k5).
  exists s5, (h ++ h3). eexists. rewrite run_app, R, run_app, R1, run_app, R2, run_app, R3, run_app, R4, R5. cbn [app]. split; [rewrite <- app_assoc; reflexivity|].
  split.
  - apply quiet_app; [exact Q|].
    apply (quiet_app [ARead 2 0; AStep 2]); [intros a [<-|[<-|[]]]; exists 2; eauto|].
    apply quiet_app; [apply quiet_steps|]. apply quiet_app; [exact Q3|]. apply quiet_app; apply quiet_steps.
  - rewrite claimed_app, C, C3. reflexivity.
Qed.

(** A full ring; the next push has claimed its position; a poll for what follows. *)
Lemma stale cap e0 e1 : 0 < cap -> entry_ok e0 ->
  exists l s h l' s' h' d, run (fun _ => cap) boot l = (s, h) /\ quiet (l ++ l') /\ claimed h = repeat e0 cap
  /\ widx (shm s) = cap /\ stored e1 = Some d
  /\ run (fun _ => cap) s (APush 1 e1 :: ARead 2 cap :: l') = (s', h' ++ [ERead 2 [shorten e0]])
  /\ claimed h' = [e1].
Proof.
  intros Hc Ok.
  destruct (fill cap 1 e0 cap Hc) as (l & s & h & R & Q & C & P & H & L & _).
  pose proof H as [W Hs]. rewrite repeat_length in *.
  assert (S0 : settled cap (shm s) 0 e0).
  { apply Hs; [|lia]. destruct cap; [lia|reflexivity]. }
  destruct (stored_some e1) as (d & Hd & _).
  set (s1 := at_ s (claim (shm s)) 1 (WClaimed cap d)).
  set (s2 := at_ s1 (shm s1) 2 (RNext [0] [])).
  assert (V : visited cap (S cap) cap = [0]).
  { rewrite visited_eq by auto. replace (Nat.max cap (S cap - cap)) with cap by lia.
    replace (S cap - cap) with 1 by lia. cbn [seq map]. rewrite Nat.mod_same by lia. reflexivity. }
  destruct (read_alone cap 2 [0] s2 []) as (s3 & k & R3 & _).
  { unfold s2. cbn [at_ procs]. apply put_same. }
  { intros c [<-|[]]. unfold s2, s1. cbn [at_ shm claim sq]. destruct S0 as [S0 _]. rewrite Nat.mod_0_l in S0 by lia. rewrite S0. reflexivity. }
  exists l, s, h, (repeat (AStep 2) k), s3, [EClaim 1 cap e1], d.
  split; auto. split; [apply quiet_app; auto using quiet_steps|]. split; auto. split; auto. split; auto. split; [|reflexivity].
  cbn [run step]. rewrite P, Hd, W. cbn [at_ procs]. rewrite put_other by lia. rewrite P. cbn [at_ shm claim widx]. rewrite W, V.
  fold s1. change (claim (shm s)) with (shm s1). fold s2. rewrite R3. cbn [app].
  assert (Rs : read_slots (shm s2) [0] = (shm s2, [shorten e0])).
  { cbn [read_slots]. replace 0 with (0 mod cap) at 1 by (apply Nat.mod_0_l; lia).
    rewrite (settled_read cap (shm s2) 0 e0); auto. }
  rewrite Rs. reflexivity.
Qed.
