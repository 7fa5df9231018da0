(** Proofs about recordings and replays. *)
From Coq Require Import String.
From Verif.Base Require Import Prelude Bytes AMap Str.
From Verif.Model Require Import Recording.
From Verif.Spec Require Import RecordingSpec.
Local Open Scope N_scope.
Local Open Scope list_scope.

(** ** The recorder *)
Definition snap_of (cfg : RecCfg) (t : Tick) : Snap :=
  mkSnap (t_tick t) (t_now t) (if cf_in cfg then rev (t_in t) else []) (if cf_out cfg then rev (t_out t) else []) None (if cf_timing cfg then t_dur t else 0).
Lemma snap_of_seen cfg t : seen cfg t (snap_of cfg t).
Proof.
  unfold seen, snap_of. cbn [sn_tick sn_time sn_in sn_out sn_state sn_dur]. repeat (split; [reflexivity|]).
  split; intros topic data; [destruct (cf_in cfg)|destruct (cf_out cfg)]; rewrite <- ?in_rev; (split; [intros X; try destruct X; auto|intros [X Y]; auto; discriminate X]).
Qed.
Lemma payload_app a b : payload (a ++ b) = payload a + payload b.
Proof. induction a as [|p a IH]; cbn [app payload fold_right]; [reflexivity|]. fold (payload (a ++ b)). fold (payload a). rewrite IH. lia. Qed.
Lemma payload_rev a : payload (rev a) = payload a.
Proof. induction a as [|p a IH]; cbn [rev]; [reflexivity|]. rewrite payload_app, IH. cbn [payload fold_right]. fold (payload a). lia. Qed.
Lemma snap_of_size cfg t : snap_size (snap_of cfg t) = charged cfg t.
Proof.
  unfold snap_size, charged, snap_of. cbn [sn_in sn_out]. change data_size with payload.
  destruct (cf_in cfg), (cf_out cfg); rewrite ?payload_rev; reflexivity.
Qed.
Lemma remove_not_in (k : bytes) (m : list (bytes * bytes)) : ~ In k (map fst m) -> remove beqb k m = m.
Proof. intros H. apply remove_absent. apply lookup_None_keys; [apply beqb_spec|exact H]. Qed.
Lemma inputs_go l : forall r cfg s on size, cf_in cfg = true -> NoDup (map fst l) -> (forall k, In k (map fst l) -> ~ In k (map fst (sn_in s))) ->
  fold_left (fun rc p => record_input (fst p) (snd p) rc) l (mkRecorder r cfg (Some s) on size) =
  mkRecorder r cfg (Some (mkSnap (sn_tick s) (sn_time s) (rev l ++ sn_in s) (sn_out s) (sn_state s) (sn_dur s))) on size.
Proof.
  induction l as [|[k v] l IH]; intros r cfg s on size Hc Nd Fr; cbn [fold_left rev app]; [destruct s; reflexivity|].
  inversion Nd as [|? ? N1 N2]; subst. unfold record_input at 2. cbn [rc_cfg rc_cur rc_rec rc_on rc_size fst snd]. rewrite Hc.
  rewrite IH; auto.
  - cbn [sn_tick sn_time sn_in sn_out sn_state sn_dur]. unfold insert. rewrite remove_not_in by (apply Fr; left; reflexivity). rewrite <- app_assoc. reflexivity.
  - cbn [sn_in]. unfold insert. rewrite remove_not_in by (apply Fr; left; reflexivity). intros k' H [X|X]; [cbn in X; subst; contradiction|].
    eapply Fr; [right; exact H|exact X].
Qed.
Lemma outputs_go l : forall r cfg s on size, cf_out cfg = true -> NoDup (map fst l) -> (forall k, In k (map fst l) -> ~ In k (map fst (sn_out s))) ->
  fold_left (fun rc p => record_output (fst p) (snd p) rc) l (mkRecorder r cfg (Some s) on size) =
  mkRecorder r cfg (Some (mkSnap (sn_tick s) (sn_time s) (sn_in s) (rev l ++ sn_out s) (sn_state s) (sn_dur s))) on size.
Proof.
  induction l as [|[k v] l IH]; intros r cfg s on size Hc Nd Fr; cbn [fold_left rev app]; [destruct s; reflexivity|].
  inversion Nd as [|? ? N1 N2]; subst. unfold record_output at 2. cbn [rc_cfg rc_cur rc_rec rc_on rc_size fst snd]. rewrite Hc.
  rewrite IH; auto.
  - cbn [sn_tick sn_time sn_in sn_out sn_state sn_dur]. unfold insert. rewrite remove_not_in by (apply Fr; left; reflexivity). rewrite <- app_assoc. reflexivity.
  - cbn [sn_out]. unfold insert. rewrite remove_not_in by (apply Fr; left; reflexivity). intros k' H [X|X]; [cbn in X; subst; contradiction|].
    eapply Fr; [right; exact H|exact X].
Qed.
Lemma inputs_off l : forall rc, cf_in (rc_cfg rc) = false -> fold_left (fun rc p => record_input (fst p) (snd p) rc) l rc = rc.
Proof. induction l as [|p l IH]; intros rc H; cbn [fold_left]; auto. unfold record_input at 2. rewrite H. apply IH; auto. Qed.
Lemma outputs_off l : forall rc, cf_out (rc_cfg rc) = false -> fold_left (fun rc p => record_output (fst p) (snd p) rc) l rc = rc.
Proof. induction l as [|p l IH]; intros rc H; cbn [fold_left]; auto. unfold record_output at 2. rewrite H. apply IH; auto. Qed.
Lemma inputs_none l : forall rc, rc_cur rc = None -> fold_left (fun rc p => record_input (fst p) (snd p) rc) l rc = rc.
Proof. induction l as [|p l IH]; intros rc H; cbn [fold_left]; auto. unfold record_input at 2. rewrite H. destruct (cf_in _); apply IH; auto. Qed.
Lemma outputs_none l : forall rc, rc_cur rc = None -> fold_left (fun rc p => record_output (fst p) (snd p) rc) l rc = rc.
Proof. induction l as [|p l IH]; intros rc H; cbn [fold_left]; auto. unfold record_output at 2. rewrite H. destruct (cf_out _); apply IH; auto. Qed.

Definition keep (cfg : RecCfg) (r : Rec) (s : Snap) : Rec := evict (cf_max_snaps cfg) (add_snapshot r s).
Lemma record_on r cfg size t : tidy t ->
  record_tick (mkRecorder r cfg None true size) t =
  if t_tick t mod N.max 1 (cf_interval cfg) =? 0 then
    if (0 <? cf_max_size cfg) && (cf_max_size cfg <? size + charged cfg t) then mkRecorder r cfg None false (size + charged cfg t)
    else mkRecorder (keep cfg r (snap_of cfg t)) cfg None true (size + charged cfg t)
  else mkRecorder r cfg None true size.
Proof.
  intros [T1 T2]. unfold record_tick, begin_tick. cbn [rc_on rc_cfg rc_rec rc_size negb].
  destruct (t_tick t mod N.max 1 (cf_interval cfg) =? 0); cbn [negb].
  2:{ rewrite inputs_none, outputs_none by reflexivity. reflexivity. }
  rewrite <- snap_of_size. unfold end_tick.
  assert (X : fold_left (fun rc p => record_output (fst p) (snd p) rc) (t_out t)
     (fold_left (fun rc p => record_input (fst p) (snd p) rc) (t_in t) (mkRecorder r cfg (Some (mkSnap (t_tick t) (t_now t) [] [] None 0)) true size)) =
     mkRecorder r cfg (Some (mkSnap (t_tick t) (t_now t) (if cf_in cfg then rev (t_in t) else []) (if cf_out cfg then rev (t_out t) else []) None 0)) true size).
  { destruct (cf_in cfg) eqn:Ei.
    - rewrite inputs_go by (auto; intros k _ []). cbn [sn_tick sn_time sn_in sn_out sn_state sn_dur]. rewrite app_nil_r.
      destruct (cf_out cfg) eqn:Eo; [rewrite outputs_go by (auto; intros k _ []); cbn [sn_tick sn_time sn_in sn_out sn_state sn_dur]; rewrite app_nil_r; reflexivity|].
      rewrite outputs_off by exact Eo. reflexivity.
    - rewrite inputs_off by exact Ei.
      destruct (cf_out cfg) eqn:Eo; [rewrite outputs_go by (auto; intros k _ []); cbn [sn_tick sn_time sn_in sn_out sn_state sn_dur]; rewrite app_nil_r; reflexivity|].
      rewrite outputs_off by exact Eo. reflexivity. }
  rewrite X. cbn [rc_cur rc_cfg rc_rec rc_on rc_size sn_tick sn_time sn_in sn_out sn_state sn_dur].
  unfold snap_of, keep. destruct (cf_timing cfg); reflexivity.
Qed.
Lemma record_off r cfg size t : record_tick (mkRecorder r cfg None false size) t = mkRecorder r cfg None false size.
Proof. unfold record_tick, begin_tick. cbn [rc_on negb]. rewrite inputs_none, outputs_none by reflexivity. reflexivity. Qed.
Lemma records_off r cfg size ts : fold_left record_tick ts (mkRecorder r cfg None false size) = mkRecorder r cfg None false size.
Proof. induction ts as [|t ts IH]; cbn [fold_left]; auto. rewrite record_off. exact IH. Qed.

Lemma newest_snoc {A} n (l : list A) x : (0 < n)%nat -> newest n (l ++ [x]) = newest n (newest n l ++ [x]).
Proof.
  intros Hn. destruct n as [|m]; [lia|]. unfold newest. rewrite !app_length, !skipn_length. cbn [length].
  rewrite !skipn_app. destruct (Nat.le_gt_cases (length l) (S m)) as [H|H].
  - replace (length l - S m)%nat with 0%nat by lia. cbn [skipn]. rewrite Nat.sub_0_r. reflexivity.
  - rewrite skipn_skipn. rewrite skipn_length. f_equal; [f_equal; lia|f_equal; lia].
Qed.
Lemma newest_evict n r : (length (r_snaps r) <= n)%nat \/ (0 < n)%nat \/ n = 0%nat -> r_snaps (evict n r) = newest n (r_snaps r).
Proof.
  intros _. unfold evict, newest. destruct n as [|m]; [reflexivity|]. change (0 <? S m)%nat with true. cbn [andb].
  destruct (S m <? length (r_snaps r))%nat eqn:E; [reflexivity|]. apply Nat.ltb_ge in E.
  replace (length (r_snaps r) - S m)%nat with 0%nat by lia. reflexivity.
Qed.
Lemma keep_newest cfg r l s : r_snaps r = newest (cf_max_snaps cfg) l -> r_snaps (keep cfg r s) = newest (cf_max_snaps cfg) (l ++ [s]).
Proof.
  intros H. unfold keep. rewrite newest_evict by lia. cbn [add_snapshot r_snaps]. rewrite H. destruct (cf_max_snaps cfg) as [|m] eqn:E; [reflexivity|].
  symmetry. apply newest_snoc. lia.
Qed.
(** The bounds told are those of the snapshots. *)
Definition bounded (r : Rec) : Prop :=
  match r_snaps r with [] => True | s :: _ => r_first r = sn_tick s end /\ forall l s, r_snaps r = l ++ [s] -> r_last r = sn_tick s.
Lemma keep_bounded cfg r s : bounded r -> bounded (keep cfg r s).
Proof.
  intros [B1 B2]. unfold keep, evict. set (r1 := add_snapshot r s).
  assert (B : bounded r1).
  { unfold r1, add_snapshot, bounded. cbn [r_snaps r_first r_last]. split.
    - destruct (r_snaps r); cbn [app]; auto.
    - intros l s' E. apply app_inj_tail in E as [_ ->]. reflexivity. }
  destruct B as [C1 C2]. destruct (_ && _) eqn:E; [|split; auto]. split; cbn [r_snaps r_first r_last].
  - destruct (skipn _ _); auto.
  - intros l s' H. apply (C2 (firstn (length (r_snaps r1) - cf_max_snaps cfg) (r_snaps r1) ++ l) s'). rewrite <- app_assoc, <- H, firstn_skipn. reflexivity.
Qed.
Lemma wanted_app cfg a b : wanted cfg (a ++ b) = wanted cfg a ++ wanted cfg b.
Proof. apply filter_app. Qed.
Lemma total_app cfg a b : total cfg (a ++ b) = total cfg a + total cfg b.
Proof. induction a as [|t a IH]; cbn [app total fold_right]; [reflexivity|]. fold (total cfg (a ++ b)). fold (total cfg a). rewrite IH. lia. Qed.
Lemma newest_map {A B} (f : A -> B) n l : newest n (map f l) = map f (newest n l).
Proof. destruct n; [reflexivity|]. cbn [newest]. rewrite map_length, skipn_map. reflexivity. Qed.

Definition over (cfg : RecCfg) (n : N) : bool := (0 <? cf_max_size cfg) && (cf_max_size cfg <? n).
Lemma over_fits cfg p : over cfg (total cfg p) = false <-> fits cfg p.
Proof. unfold over, fits. rewrite andb_false_iff, N.ltb_ge, N.ltb_ge. split; intros [H|H]; try (left; lia); right; lia. Qed.
(** While it is on. *)
Lemma run_inv cfg r0 ts : Forall tidy ts -> bounded r0 -> r_snaps r0 = [] ->
  let rc := fold_left record_tick ts (mkRecorder r0 cfg None true 0) in
  bounded (rc_rec rc) /\
  ((rc = mkRecorder (rc_rec rc) cfg None true (total cfg (wanted cfg ts)) /\ fits cfg (wanted cfg ts) /\
    r_snaps (rc_rec rc) = newest (cf_max_snaps cfg) (map (snap_of cfg) (wanted cfg ts))) \/
   exists p t q, wanted cfg ts = p ++ t :: q /\ fits cfg p /\ ~ fits cfg (p ++ [t]) /\
     rc = mkRecorder (rc_rec rc) cfg None false (total cfg (p ++ [t])) /\ r_snaps (rc_rec rc) = newest (cf_max_snaps cfg) (map (snap_of cfg) p)).
Proof.
  intros T B0 E0. induction ts as [|t ts IH] using rev_ind.
  - cbn. split; [exact B0|]. left. split; [reflexivity|]. split; [unfold fits; cbn; lia|]. rewrite E0. destruct (cf_max_snaps cfg); reflexivity.
  - apply Forall_app in T as [T1 T2]. inversion T2 as [|? ? T3 _]; subst. specialize (IH T1). cbv zeta in *. rewrite fold_left_app. cbn [fold_left].
    set (rc := fold_left record_tick ts (mkRecorder r0 cfg None true 0)) in *. destruct IH as [B [(Er & F & S)|(p & t' & q & W & F & NF & Er & S)]].
    + rewrite Er. rewrite record_on by exact T3. rewrite wanted_app.
      change (wanted cfg [t]) with (if t_tick t mod N.max 1 (cf_interval cfg) =? 0 then [t] else []).
      destruct (t_tick t mod N.max 1 (cf_interval cfg) =? 0) eqn:Ei.
      2:{ cbn [rc_rec]. rewrite app_nil_r. split; [exact B|]. left. auto. }
      fold (over cfg (total cfg (wanted cfg ts) + charged cfg t)).
      assert (Et : total cfg (wanted cfg ts) + charged cfg t = total cfg (wanted cfg ts ++ [t])) by (rewrite total_app; cbn [total fold_right]; lia).
      rewrite Et. destruct (over cfg (total cfg (wanted cfg ts ++ [t]))) eqn:Eo.
      * cbn [rc_rec]. split; [exact B|]. right. exists (wanted cfg ts), t, []. split; [reflexivity|]. split; [exact F|].
        split; [intros X; apply over_fits in X; congruence|]. split; [reflexivity|exact S].
      * cbn [rc_rec]. split; [apply keep_bounded; exact B|]. left. split; [reflexivity|]. split; [apply over_fits; exact Eo|].
        rewrite map_app. apply keep_newest. exact S.
    + rewrite Er, record_off. cbn [rc_rec]. split; [exact B|]. right. exists p, t', (q ++ wanted cfg [t]). rewrite wanted_app, W, <- app_assoc. auto.
Qed.
Lemma bounded_new name id session : bounded (rec_new name id session).
Proof. split; [exact I|]. intros l s H. destruct l; discriminate. Qed.
Lemma recording_spec name id session cfg ts : Forall tidy ts -> exists p q,
  wanted cfg ts = p ++ q /\ fits cfg p /\ (forall t q', q = t :: q' -> ~ fits cfg (p ++ [t])) /\
  r_snaps (recording_of name id session cfg ts) = newest (cf_max_snaps cfg) (map (snap_of cfg) p).
Proof.
  intros T. destruct (run_inv cfg (rec_new name id session) ts T (bounded_new _ _ _) eq_refl) as [_ [(_ & F & S)|(p & t & q & W & F & NF & _ & S)]].
  - exists (wanted cfg ts), []. rewrite app_nil_r. split; [reflexivity|]. split; [exact F|]. split; [discriminate|exact S].
  - exists p, (t :: q). split; [exact W|]. split; [exact F|]. split; [|exact S]. intros t0 q' H. injection H as <- <-. exact NF.
Qed.
Lemma recording_bounded name id session cfg ts : Forall tidy ts -> bounded (recording_of name id session cfg ts).
Proof. intros T. apply (run_inv cfg (rec_new name id session) ts T (bounded_new _ _ _) eq_refl). Qed.
Lemma unlimited_fits cfg l : cf_max_size cfg = 0 -> fits cfg l.
Proof. left. assumption. Qed.
Lemma recording_unlimited name id session cfg ts : Forall tidy ts -> cf_max_size cfg = 0 -> cf_max_snaps cfg = 0%nat ->
  r_snaps (recording_of name id session cfg ts) = map (snap_of cfg) (wanted cfg ts).
Proof.
  intros T M K. destruct (recording_spec name id session cfg ts T) as (p & q & W & _ & N & S). rewrite S, K. cbn [newest]. destruct q as [|t q].
  - rewrite app_nil_r in W. congruence.
  - exfalso. apply (N t q eq_refl). left. exact M.
Qed.
Lemma total_ge cfg l : 64 * N.of_nat (length l) <= total cfg l.
Proof. induction l as [|t l IH]; cbn [total fold_right length]; [lia|]. fold (total cfg l). unfold charged. lia. Qed.
Lemma recording_stops name id session cfg ts ts' : Forall tidy ts -> 0 < cf_max_size cfg -> cf_max_size cfg < 64 * N.of_nat (length (wanted cfg ts)) ->
  recording_of name id session cfg (ts ++ ts') = recording_of name id session cfg ts.
Proof.
  intros T M L. unfold recording_of, recorder_new. rewrite fold_left_app.
  destruct (run_inv cfg (rec_new name id session) ts T (bounded_new _ _ _) eq_refl) as [_ [(_ & F & _)|(p & t & q & _ & _ & _ & E & _)]].
  - exfalso. destruct F as [F|F]; [lia|]. pose proof (total_ge cfg (wanted cfg ts)). lia.
  - rewrite E, records_off. reflexivity.
Qed.

(** ** Replay *)
Lemma replay_tick_at ov rp s : current rp = Some s ->
  replay_tick ov rp = (fst (advance rp), map (fun p => (fst p, match lookup beqb (fst p) ov with Some v => v | None => snd p end)) (sn_out s)).
Proof. intros H. unfold replay_tick. rewrite H. reflexivity. Qed.
Lemma advance_rec rp : rp_rec (fst (advance rp)) = rp_rec rp.
Proof. unfold advance. destruct (_ <? _)%nat; reflexivity. Qed.
Lemma advance_idx rp : (rp_idx rp < length (r_snaps (rp_rec rp)))%nat -> rp_idx (fst (advance rp)) = Nat.min (rp_idx rp + 1) (length (r_snaps (rp_rec rp)) - 1).
Proof. intros H. unfold advance. destruct (rp_idx rp + 1 <? length (r_snaps (rp_rec rp)))%nat eqn:E; [apply Nat.ltb_lt in E|apply Nat.ltb_ge in E]; cbn [fst rp_idx]; lia. Qed.
Definition changed (ov : list (bytes * bytes)) (out : list (bytes * bytes)) : list (bytes * bytes) :=
  map (fun p => (fst p, match lookup beqb (fst p) ov with Some v => v | None => snd p end)) out.
Lemma replay_nth ov n : forall rp k, (rp_idx rp < length (r_snaps (rp_rec rp)))%nat -> (k < n)%nat ->
  exists s, nth_error (r_snaps (rp_rec rp)) (Nat.min (rp_idx rp + k) (length (r_snaps (rp_rec rp)) - 1)) = Some s /\
            nth_error (snd (replay_ticks ov n rp)) k = Some (changed ov (sn_out s)).
Proof.
  induction n as [|n IH]; intros rp k Hi Hk; [lia|]. cbn [replay_ticks].
  destruct (nth_error (r_snaps (rp_rec rp)) (rp_idx rp)) as [s|] eqn:Es; [|apply nth_error_None in Es; lia].
  rewrite (replay_tick_at ov rp s Es). destruct (replay_ticks ov n (fst (advance rp))) as [rp2 os] eqn:E. cbn [snd].
  destruct k as [|k].
  - exists s. rewrite Nat.add_0_r, Nat.min_l by lia. split; [exact Es|reflexivity].
  - assert (Hi' : (rp_idx (fst (advance rp)) < length (r_snaps (rp_rec (fst (advance rp)))))%nat).
    { rewrite advance_rec, advance_idx by exact Hi. lia. }
    destruct (IH (fst (advance rp)) k Hi' ltac:(lia)) as (s' & A & B). rewrite E in B. cbn [snd] in B. rewrite advance_rec, advance_idx in A by exact Hi.
    exists s'. split; [|exact B]. rewrite <- A. f_equal. lia.
Qed.
Lemma replay_length ov n : forall rp, length (snd (replay_ticks ov n rp)) = n.
Proof. induction n as [|n IH]; intros rp; cbn [replay_ticks]; [reflexivity|]. destruct (replay_tick ov rp) as [rp1 o]. specialize (IH rp1). destruct (replay_ticks ov n rp1). cbn [snd length] in *. congruence. Qed.
Lemma list_eq {A} (a b : list A) : length a = length b -> (forall k x, nth_error b k = Some x -> nth_error a k = Some x) -> a = b.
Proof.
  revert b. induction a as [|x a IH]; intros [|y b] L H; try discriminate; [reflexivity|].
  pose proof (H 0%nat y eq_refl) as X. cbn in X. injection X as ->. f_equal. apply IH; [cbn in L; lia|]. intros k z Hz. apply (H (S k) z Hz).
Qed.
Lemma changed_nil out : changed [] out = out.
Proof. unfold changed. cbn [lookup]. rewrite <- (map_id out) at 2. apply map_ext. intros []. reflexivity. Qed.
Lemma replay_all r n : r_snaps r <> [] -> snd (replay_ticks [] (length (r_snaps r) + n) (replayer_new r)) =
  map sn_out (r_snaps r) ++ repeat (match rev (r_snaps r) with s :: _ => sn_out s | [] => [] end) n.
Proof.
  intros Hn. apply list_eq.
  - rewrite replay_length, app_length, map_length, repeat_length. reflexivity.
  - intros k x Hx. assert (Hk : (k < length (r_snaps r) + n)%nat).
    { assert (k < length (map sn_out (r_snaps r) ++ repeat (match rev (r_snaps r) with s :: _ => sn_out s | [] => [] end) n))%nat by (apply nth_error_Some; congruence).
      rewrite app_length, map_length, repeat_length in H. exact H. }
    assert (Hl : (0 < length (r_snaps r))%nat) by (destruct (r_snaps r); [congruence|cbn; lia]).
    destruct (replay_nth [] (length (r_snaps r) + n) (replayer_new r) k Hl Hk) as (s & A & B). cbn [replayer_new rp_rec rp_idx] in *. rewrite B, changed_nil.
    f_equal. rewrite Nat.add_0_l in A. destruct (Nat.lt_ge_cases k (length (r_snaps r))) as [H|H].
    + rewrite Nat.min_l in A by lia. rewrite nth_error_app1 in Hx by (rewrite map_length; exact H). rewrite nth_error_map, A in Hx. injection Hx as <-. reflexivity.
    + rewrite Nat.min_r in A by lia. rewrite nth_error_app2 in Hx by (rewrite map_length; exact H).
      apply nth_error_In in Hx. apply repeat_spec in Hx. subst x.
      destruct (exists_last Hn) as (l & z & E). rewrite E in A |- *. rewrite rev_app_distr. cbn [rev app]. rewrite app_length in A. cbn [length] in A.
      rewrite nth_error_app2 in A by lia. replace (length l + 1 - 1 - length l)%nat with 0%nat in A by lia. cbn in A. injection A as ->. reflexivity.
Qed.
Lemma seek_none l : forall i tick, (forall s, In s l -> sn_tick s < tick) -> seek_from i l tick = None.
Proof.
  induction l as [|s l IH]; intros i tick H; cbn [seek_from]; [reflexivity|]. destruct (tick <=? sn_tick s) eqn:E.
  - apply N.leb_le in E. specialize (H s (or_introl eq_refl)). lia.
  - apply IH. intros s' Hs. apply H. right. exact Hs.
Qed.
Lemma seek_some l : forall i tick j t, seek_from i l tick = Some (j, t) ->
  (i <= j)%nat /\ exists s, nth_error l (j - i) = Some s /\ sn_tick s = t /\ tick <= t /\ forall k s', (k < j - i)%nat -> nth_error l k = Some s' -> sn_tick s' < tick.
Proof.
  induction l as [|s l IH]; intros i tick j t H; cbn [seek_from] in H; [discriminate|]. destruct (tick <=? sn_tick s) eqn:E.
  - injection H as <- <-. split; [lia|]. rewrite Nat.sub_diag. exists s. split; [reflexivity|]. split; [reflexivity|]. apply N.leb_le in E. split; [exact E|]. intros k s' Hk. lia.
  - apply IH in H as (L & s' & A & B & C & D). split; [lia|]. exists s'. replace (j - i)%nat with (S (j - S i)) by lia. split; [exact A|]. split; [exact B|]. split; [exact C|].
    intros k s2 Hk Hs. destruct k as [|k]; [cbn in Hs; injection Hs as <-; apply N.leb_gt in E; exact E|]. apply (D k s2); [lia|exact Hs].
Qed.
Lemma seek_exists l : forall i tick s, In s l -> tick <= sn_tick s -> seek_from i l tick <> None.
Proof.
  induction l as [|s0 l IH]; intros i tick s H L; [destruct H|]. cbn [seek_from]. destruct (tick <=? sn_tick s0) eqn:E; [discriminate|].
  destruct H as [->|H]; [apply N.leb_gt in E; lia|]. eapply IH; eauto.
Qed.
Lemma seek_consecutive snaps t0 t : consecutive t0 (map sn_tick snaps) -> t0 <= t -> t < t0 + N.of_nat (length snaps) ->
  seek_from 0 snaps t = Some (N.to_nat (t - t0), t).
Proof.
  intros C L U. destruct (nth_error snaps (N.to_nat (t - t0))) as [s|] eqn:Es; [|apply nth_error_None in Es; lia].
  assert (Ht : sn_tick s = t) by (rewrite (C (N.to_nat (t - t0)) (sn_tick s)); [lia|rewrite nth_error_map, Es; reflexivity]).
  destruct (seek_from 0 snaps t) as [[j u]|] eqn:E; [|exfalso; apply (seek_exists snaps 0 t s); [eapply nth_error_In; eauto|lia|exact E]].
  apply seek_some in E as (_ & s' & A & B & D & F). rewrite Nat.sub_0_r in *.
  assert (Hu : u = t0 + N.of_nat j) by (rewrite <- B; apply C; rewrite nth_error_map, A; reflexivity).
  destruct (Nat.lt_trichotomy j (N.to_nat (t - t0))) as [G|[G|G]]; [lia|subst j; f_equal; f_equal; lia|]. specialize (F _ _ G Es). lia.
Qed.
Lemma replay_aligned r ov t0 t n k : consecutive t0 (map sn_tick (r_snaps r)) -> t0 <= t -> t + N.of_nat k < t0 + N.of_nat (length (r_snaps r)) -> (k < n)%nat ->
  exists s, In s (r_snaps r) /\ sn_tick s = t + N.of_nat k /\
            nth_error (snd (replay_ticks ov n (start_at_tick t (replayer_new r)))) k = Some (changed ov (sn_out s)).
Proof.
  intros C L U Hk. unfold start_at_tick, seek. cbn [replayer_new rp_rec]. rewrite (seek_consecutive _ t0 t C L ltac:(lia)). cbn [fst].
  destruct (replay_nth ov n (mkReplayer r (N.to_nat (t - t0)) t) k) as (s & A & B); cbn [rp_idx rp_rec] in *; [lia|exact Hk|].
  rewrite Nat.min_l in A by lia. exists s. split; [eapply nth_error_In; eauto|]. split; [|exact B].
  rewrite (C (N.to_nat (t - t0) + k)%nat (sn_tick s)); [lia|rewrite nth_error_map, A; reflexivity].
Qed.
(** Every [m]-th tick. *)
Lemma consecutive_snoc t0 ts t : consecutive t0 (ts ++ [t]) -> consecutive t0 ts /\ t = t0 + N.of_nat (length ts).
Proof.
  intros C. split.
  - intros i x H. apply C. rewrite nth_error_app1; [exact H|]. apply nth_error_Some. congruence.
  - apply C. rewrite nth_error_app2, Nat.sub_diag; [reflexivity|lia].
Qed.
Lemma wanted_nth cfg ts : consecutive 0 (map t_tick ts) ->
  let m := N.to_nat (N.max 1 (cf_interval cfg)) in
  (length ts <= length (wanted cfg ts) * m < length ts + m)%nat /\ forall k t, nth_error ts (m * k) = Some t -> nth_error (wanted cfg ts) k = Some t.
Proof.
  intros C m. assert (Hm : (0 < m)%nat) by (unfold m; lia). induction ts as [|t ts IH] using rev_ind.
  - cbn. split; [lia|]. intros k t H. destruct (m * k)%nat; discriminate.
  - rewrite map_app in C. apply consecutive_snoc in C as [C Ct]. destruct (IH C) as [L N]. rewrite map_length in Ct. rewrite wanted_app.
    change (wanted cfg [t]) with (if t_tick t mod N.max 1 (cf_interval cfg) =? 0 then [t] else []).
    assert (Em : (t_tick t mod N.max 1 (cf_interval cfg) =? 0) = true <-> exists q, length ts = (m * q)%nat).
    { rewrite N.eqb_eq, N.mod_divide by lia. split.
      - intros [q Hq]. exists (N.to_nat q). unfold m. lia.
      - intros [q Hq]. exists (N.of_nat q). unfold m in Hq. lia. }
    destruct (t_tick t mod N.max 1 (cf_interval cfg) =? 0) eqn:E.
    + destruct Em as [Em _]. destruct (Em eq_refl) as [q Hq].
      assert (Lq : length (wanted cfg ts) = q) by nia. rewrite !app_length. cbn [length]. split; [nia|].
      intros k x H. destruct (Nat.lt_ge_cases (m * k) (length ts)) as [G|G].
      * rewrite nth_error_app1 in H by exact G. apply N in H. rewrite nth_error_app1; [exact H|]. apply nth_error_Some. congruence.
      * rewrite nth_error_app2 in H by exact G. destruct (m * k - length ts)%nat as [|d] eqn:Ed; [|destruct d; discriminate]. cbn in H. injection H as <-.
        assert (k = q) by nia. subst k. rewrite nth_error_app2 by lia. rewrite Lq, Nat.sub_diag. reflexivity.
    + rewrite app_nil_r, app_length. cbn [length].
      assert (X : ~ exists q, length ts = (m * q)%nat) by (intros X; apply Em in X; discriminate). split.
      * assert (length ts <> length (wanted cfg ts) * m)%nat by (intros Z; apply X; exists (length (wanted cfg ts)); lia). lia.
      * intros k x H. destruct (Nat.lt_ge_cases (m * k) (length ts)) as [G|G].
        -- rewrite nth_error_app1 in H by exact G. apply N. exact H.
        -- rewrite nth_error_app2 in H by exact G. destruct (m * k - length ts)%nat as [|d] eqn:Ed; [|destruct d; discriminate].
           exfalso. apply X. exists k. lia.
Qed.
Lemma replay_interval name id session cfg ts n k t : Forall tidy ts -> unlimited cfg -> consecutive 0 (map t_tick ts) ->
  nth_error ts (N.to_nat (N.max 1 (cf_interval cfg)) * k) = Some t -> (k < n)%nat ->
  exists out, nth_error (snd (replay_ticks [] n (replayer_new (recording_of name id session cfg ts)))) k = Some out /\
              (forall topic data, In (topic, data) out <-> In (topic, data) (t_out t)).
Proof.
  intros T (U1 & U2 & U3) C H Hk. destruct (wanted_nth cfg ts C) as [_ W]. apply W in H.
  pose proof (recording_unlimited name id session cfg ts T U1 U2) as S.
  assert (Hl : (k < length (r_snaps (recording_of name id session cfg ts)))%nat) by (rewrite S, map_length; apply nth_error_Some; congruence).
  destruct (replay_nth [] n (replayer_new (recording_of name id session cfg ts)) k) as (s & A & B); cbn [replayer_new rp_idx rp_rec] in *; [lia|exact Hk|].
  rewrite Nat.add_0_l, Nat.min_l in A by lia. rewrite S, nth_error_map, H in A. cbn in A. injection A as <-.
  rewrite changed_nil in B. eexists. split; [exact B|]. intros topic data. destruct (snap_of_seen cfg t) as (_ & _ & _ & _ & _ & Z). rewrite (Z topic data), U3. intuition.
Qed.
(** One topic. *)
Lemma node_ticks_tidy topic pubs : forall t nw, Forall tidy (node_ticks topic t nw pubs).
Proof.
  induction pubs as [|ms r IH]; intros t nw; cbn [node_ticks]; constructor; auto. split; cbn [t_in t_out map]; [constructor|].
  destruct (match rev ms with m :: _ => Some m | [] => nw end); cbn; repeat constructor. intros [].
Qed.
Lemma wanted_all cfg ts : cf_interval cfg <= 1 -> wanted cfg ts = ts.
Proof.
  intros H. unfold wanted. replace (N.max 1 (cf_interval cfg)) with 1 by lia. induction ts as [|t ts IH]; cbn [filter]; [reflexivity|].
  rewrite N.mod_1_r. cbn [N.eqb]. rewrite IH. reflexivity.
Qed.
Lemma replay_whole name id session cfg ts : Forall tidy ts -> unlimited cfg -> cf_interval cfg <= 1 ->
  snd (replay_ticks [] (length ts) (replayer_new (recording_of name id session cfg ts))) = map (fun t => rev (t_out t)) ts.
Proof.
  intros T (U1 & U2 & U3) I. pose proof (recording_unlimited name id session cfg ts T U1 U2) as S. rewrite wanted_all in S by exact I.
  destruct ts as [|t ts]; [reflexivity|].
  replace (length (t :: ts)) with (length (r_snaps (recording_of name id session cfg (t :: ts))) + 0)%nat by (rewrite S, map_length; lia).
  rewrite replay_all by (rewrite S; discriminate). cbn [repeat]. rewrite app_nil_r, S, map_map. apply map_ext. intros x. unfold snap_of. cbn [sn_out]. rewrite U3. reflexivity.
Qed.
Lemma messages_one topic pubs : forall t nw, (forall ms, In ms pubs -> length ms = 1%nat) ->
  messages (map (fun t => rev (t_out t)) (node_ticks topic t nw pubs)) = concat pubs.
Proof.
  induction pubs as [|ms r IH]; intros t nw H; cbn [node_ticks map]; [reflexivity|].
  assert (L : length ms = 1%nat) by (apply H; left; reflexivity). destruct ms as [|m [|m' ms]]; try discriminate. cbn [rev app t_out concat].
  unfold messages in *. cbn [concat app map snd]. f_equal. apply IH. intros x Hx. apply H. right. exact Hx.
Qed.
Lemma messages_count topic pubs : forall t m, length (messages (map (fun t => rev (t_out t)) (node_ticks topic t (Some m) pubs))) = length pubs.
Proof.
  induction pubs as [|ms r IH]; intros t m; cbn [node_ticks map]; [reflexivity|]. unfold messages in *. cbn [concat t_out]. destruct (rev ms) as [|m' ?]; cbn [rev app map length]; rewrite IH; reflexivity.
Qed.
Lemma messages_count0 topic pubs t : match pubs with [] => True | ms :: _ => ms <> [] end ->
  length (messages (map (fun t => rev (t_out t)) (node_ticks topic t None pubs))) = length pubs.
Proof.
  destruct pubs as [|ms r]; intros H; [reflexivity|]. cbn [node_ticks map]. unfold messages. cbn [concat t_out].
  destruct (rev ms) as [|m' l] eqn:E; [apply (f_equal (@rev _)) in E; rewrite rev_involutive in E; contradiction|].
  cbn [rev app map length]. f_equal. apply (messages_count topic r).
Qed.
Lemma node_ticks_length topic pubs : forall t nw, length (node_ticks topic t nw pubs) = length pubs.
Proof. induction pubs as [|ms r IH]; intros; cbn [node_ticks length]; auto. Qed.

(** ** Real-time, compute and async nodes *)
Lemma recorded_from name id session cfg ts s : Forall tidy ts -> In s (r_snaps (recording_of name id session cfg ts)) -> exists t, In t ts /\ s = snap_of cfg t.
Proof.
  intros T H. destruct (recording_spec name id session cfg ts T) as (p & q & W & _ & _ & S). rewrite S, newest_map in H. apply in_map_iff in H as (t & <- & H).
  exists t. split; [|reflexivity]. assert (In t (wanted cfg ts)).
  { rewrite W. apply in_or_app. left. unfold newest in H. destruct (cf_max_snaps cfg); [exact H|].
    rewrite <- (firstn_skipn (length p - Datatypes.S n) p). apply in_or_app. right. exact H. }
  unfold wanted in H0. apply filter_In in H0. tauto.
Qed.
Lemma silent_replay ov n : forall rp, (forall s, In s (r_snaps (rp_rec rp)) -> sn_out s = []) -> forall out, In out (snd (replay_ticks ov n rp)) -> out = [].
Proof.
  induction n as [|n IH]; intros rp H out Ho; cbn [replay_ticks] in Ho; [destruct Ho|]. unfold replay_tick in Ho.
  destruct (current rp) as [s|] eqn:E.
  - destruct (replay_ticks ov n (fst (advance rp))) as [rp2 os] eqn:E2. cbn [snd] in Ho. destruct Ho as [<-|Ho].
    + unfold current in E. apply nth_error_In in E. rewrite (H _ E). reflexivity.
    + apply (IH (fst (advance rp))); [rewrite advance_rec; exact H|]. rewrite E2. exact Ho.
  - destruct (replay_ticks ov n rp) as [rp2 os] eqn:E2. cbn [snd] in Ho. destruct Ho as [<-|Ho]; [reflexivity|]. apply (IH rp H). rewrite E2. exact Ho.
Qed.
Lemma tidy_rt t : tidy t -> tidy (rt_tick t).
Proof. intros [A B]. split; cbn; [exact A|constructor]. Qed.
Lemma tidy_pool t : tidy t -> tidy (pool_tick t).
Proof. intros [A B]. split; cbn; constructor. Qed.
Lemma zero_ticks_seek r t : (forall s, In s (r_snaps r) -> sn_tick s = 0) -> 0 < t -> forall rp, rp_rec rp = r -> start_at_tick t rp = rp.
Proof. intros H Ht rp E. unfold start_at_tick, seek. rewrite seek_none; [reflexivity|]. intros s Hs. rewrite E in Hs. rewrite (H s Hs). exact Ht. Qed.

(** ** The recording of a scheduler *)
Lemma srops_total ops : forall sr, sr_total (fold_left srop_do ops sr) = sr_total sr.
Proof. induction ops as [|o ops IH]; intros sr; cbn [fold_left]; [reflexivity|]. rewrite IH. destruct o; reflexivity. Qed.
Lemma clock_zero n : forall i, ck_now (Nat.iter n ck_advance (mkRClock [] i)) = 0.
Proof.
  intros i. assert (X : Nat.iter n ck_advance (mkRClock [] i) = mkRClock [] i) by (induction n as [|n IH]; [reflexivity|change (ck_advance (Nat.iter n ck_advance (mkRClock [] i)) = mkRClock [] i); rewrite IH; reflexivity]).
  rewrite X. unfold ck_now. cbn [ck_times ck_idx]. destruct i; reflexivity.
Qed.
Lemma position_In name o : forall i j, position name i o = Some j -> In name o.
Proof.
  induction o as [|x o IH]; intros i j H; cbn [position] in H; [discriminate|]. destruct (position name (i + 1) o) as [k|] eqn:E; [right; eapply IH; eauto|].
  destruct (beqb x name) eqn:E2; [|discriminate]. apply beqb_spec in E2. left. exact E2.
Qed.
Lemma priority_zero sr id : ids_apart sr -> In id (map fst (sr_nodes sr)) -> replay_priority sr id = 0.
Proof.
  intros A H. unfold replay_priority. destruct (sr_order sr) as [|o os] eqn:E; [reflexivity|]. destruct (position id 0 o) as [p|] eqn:Ep; [|reflexivity].
  apply position_In in Ep. exfalso. apply (A id o H); [rewrite E; left; reflexivity|exact Ep].
Qed.
Lemma put_zero {A} (x : A) l : (forall q, In q l -> fst q = 0) -> put 0 x l = l ++ [(0, x)].
Proof.
  induction l as [|[q y] l IH]; intros H; cbn [put app]; [reflexivity|]. pose proof (H _ (or_introl eq_refl)) as X. cbn in X. subst q. cbn [N.ltb]. 
  change (0 <? 0) with false. cbn iota. rewrite IH; [reflexivity|]. intros q Hq. apply H. right. exact Hq.
Qed.
Lemma replay_order {A} (load : bytes -> option A) path_of sr : ids_apart sr ->
  replay_nodes load path_of sr = map (fun x => (0, x)) (flat_map (fun e => match load (path_of (snd e)) with Some x => [x] | None => [] end) (sr_nodes sr)).
Proof.
  intros H. unfold replay_nodes.
  assert (G : forall l acc, (forall e, In e l -> In e (sr_nodes sr)) -> (forall q, In q acc -> fst q = 0) ->
    fold_left (fun l e => match load (path_of (snd e)) with Some x => put (replay_priority sr (fst e)) x l | None => l end) l acc =
    acc ++ map (fun x => (0, x)) (flat_map (fun e => match load (path_of (snd e)) with Some x => [x] | None => [] end) l)).
  { induction l as [|e l IH]; intros acc Hl Ha; cbn [fold_left flat_map]; [rewrite app_nil_r; reflexivity|].
    assert (Hl' : forall e', In e' l -> In e' (sr_nodes sr)) by (intros; apply Hl; right; assumption).
    destruct (load (path_of (snd e))) as [x|] eqn:E; [|apply IH; auto].
    rewrite priority_zero; [|exact H|apply in_map, Hl; left; reflexivity]. rewrite put_zero by exact Ha.
    rewrite IH; [rewrite <- app_assoc; reflexivity|exact Hl'|]. intros q Hq. apply in_app_or in Hq as [Hq|[<-|[]]]; auto. }
  apply (G (sr_nodes sr) []); [auto|]. intros q [].
Qed.

(** ** Names *)
Lemma split_plain b : forall acc, ~ In 47 b -> split_slash acc b = [rev acc ++ b].
Proof.
  induction b as [|c b IH]; intros acc H; cbn [split_slash]; [rewrite app_nil_r; reflexivity|].
  destruct (c =? 47) eqn:E; [apply N.eqb_eq in E; subst; exfalso; apply H; left; reflexivity|].
  rewrite IH by (intros X; apply H; right; exact X). cbn [rev]. rewrite <- app_assoc. reflexivity.
Qed.
Lemma split_app a b : forall acc, split_slash acc (a ++ 47 :: b) = split_slash acc a ++ split_slash [] b.
Proof.
  induction a as [|c a IH]; intros acc; cbn [app split_slash].
  - cbn. reflexivity.
  - destruct (c =? 47); cbn [app]; rewrite IH; reflexivity.
Qed.
Lemma split_no_slash s : forall acc c, ~ In 47 acc -> In c (split_slash acc s) -> ~ In 47 c.
Proof.
  induction s as [|x s IH]; intros acc c Ha H; cbn [split_slash] in H.
  - destruct H as [<-|[]]. rewrite <- in_rev. exact Ha.
  - destruct (x =? 47) eqn:E.
    + destruct H as [<-|H]; [rewrite <- in_rev; exact Ha|]. apply (IH [] c); [intros []|exact H].
    + apply (IH (x :: acc) c); [|exact H]. intros [X|X]; [subst; discriminate|contradiction].
Qed.
Lemma last_slash s : ~ In 47 s \/ exists a b, s = a ++ 47 :: b /\ ~ In 47 b.
Proof.
  induction s as [|c s IH]; [left; intros []|]. destruct IH as [H|(a & b & -> & H)].
  - destruct (N.eq_dec c 47) as [->|Hc]; [right; exists [], s; split; [reflexivity|exact H]|left; intros [X|X]; auto].
  - right. exists (c :: a), b. split; [reflexivity|exact H].
Qed.
Lemma last_app1 {A} (l : list A) x d : last (l ++ [x]) d = x.
Proof. apply last_last. Qed.
Lemma normal_spec c : normal c = true <-> c <> [] /\ c <> bs "." /\ c <> bs "..".
Proof.
  unfold normal. rewrite negb_true_iff, !orb_false_iff.
  assert (X : forall x, beqb c x = false <-> c <> x).
  { intros x. split; intros H; [intros E; apply beqb_spec in E; congruence|]. destruct (beqb c x) eqn:E; [apply beqb_spec in E; contradiction|reflexivity]. }
  rewrite !X. tauto.
Qed.
Lemma last_In {A} (l : list A) d : l <> [] -> In (last l d) l.
Proof. intros H. destruct (exists_last H) as (l' & x & ->). rewrite last_last. apply in_or_app. right. left. reflexivity. Qed.
Lemma sanitize_plain s : plain_name (sanitize s).
Proof.
  unfold sanitize. destruct (filter normal (split_slash [] s)) as [|c l] eqn:E.
  - cbn [last]. repeat split; try discriminate. cbn. intuition discriminate.
  - assert (H : In (last (c :: l) (bs "unnamed")) (filter normal (split_slash [] s))) by (rewrite E; apply last_In; discriminate).
    apply filter_In in H as [H1 H2]. apply normal_spec in H2 as (A & B & C). repeat split; auto. eapply split_no_slash; [|exact H1]. intros [].
Qed.
Lemma sanitize_last a b : plain_name b -> sanitize (a ++ 47 :: b) = b.
Proof.
  intros (A & B & C & D). unfold sanitize. rewrite split_app, (split_plain b []) by exact D. cbn [rev app]. rewrite filter_app. cbn [filter].
  replace (normal b) with true by (symmetry; apply normal_spec; auto). apply last_last.
Qed.
Lemma sanitize_id b : plain_name b -> sanitize b = b.
Proof.
  intros (A & B & C & D). unfold sanitize. rewrite split_plain by exact D. cbn [rev app filter].
  replace (normal b) with true by (symmetry; apply normal_spec; auto). reflexivity.
Qed.
Lemma base_last a b : ~ In 47 b -> base_name (a ++ 47 :: b) = b.
Proof. intros H. unfold base_name. rewrite split_app, (split_plain b []) by exact H. apply last_last. Qed.
Lemma base_id b : ~ In 47 b -> base_name b = b.
Proof. intros H. unfold base_name. rewrite split_plain by exact H. reflexivity. Qed.
Lemma no_at_id s : ~ In 64 s -> no_at s = s.
Proof.
  intros H. unfold no_at. rewrite <- (map_id s) at 2. apply map_ext_in. intros c Hc. destruct (c =? 64) eqn:E; [apply N.eqb_eq in E; subst; contradiction|reflexivity].
Qed.
Lemma no_at_none s : ~ In 64 (no_at s).
Proof. unfold no_at. intros H. apply in_map_iff in H as (c & E & _). destruct (c =? 64) eqn:X; [discriminate|]. apply N.eqb_neq in X. contradiction. Qed.
Lemma hex_plain id : hex_id id -> plain_name id /\ ~ In 64 id.
Proof.
  intros [A B]. repeat split; auto; try (intros E; subst; specialize (B 46 (or_introl eq_refl)); lia); intros H; specialize (B _ H); lia.
Qed.
Lemma replay_file_is name id : hex_id id -> replay_file (name ++ bs "@" ++ id ++ bs ".horus") = base_name name ++ bs "@" ++ id ++ bs ".horus".
Proof.
  intros H. apply hex_plain in H as [(I1 & _ & _ & I2) _]. unfold replay_file. set (sfx := bs "@" ++ id ++ bs ".horus").
  assert (NS : ~ In 47 sfx).
  { unfold sfx. intros X. apply in_app_or in X as [X|X]; [cbn in X; intuition discriminate|]. apply in_app_or in X as [X|X]; [contradiction|]. cbn in X. intuition discriminate. }
  assert (P : forall b, ~ In 47 b -> plain_name (b ++ sfx)).
  { intros b Hb. unfold plain_name. assert (L : (length (b ++ sfx) >= 7)%nat) by (unfold sfx; rewrite !app_length; cbn; lia).
    repeat split; try (intros E; rewrite E in L; cbn in L; lia). intros X. apply in_app_or in X as [X|X]; contradiction. }
  destruct (last_slash name) as [N|(a & b & -> & N)].
  - rewrite base_id by exact N. apply sanitize_id, P, N.
  - rewrite base_last by exact N. rewrite <- app_assoc. cbn [app]. apply sanitize_last, P, N.
Qed.
Lemma node_file_is name id : hex_id id -> node_file name id = no_at (sanitize name) ++ bs "@" ++ id ++ bs ".horus".
Proof. intros H. apply hex_plain in H as [P N]. unfold node_file. rewrite (sanitize_id id P), (no_at_id id N). reflexivity. Qed.
Lemma sanitize_base name : plain_name (base_name name) -> sanitize name = base_name name.
Proof.
  intros P. destruct (last_slash name) as [N|(a & b & -> & N)].
  - rewrite base_id in * by exact N. apply sanitize_id, P.
  - rewrite base_last in * by exact N. apply sanitize_last, P.
Qed.
Lemma base_no_slash name : ~ In 47 (base_name name).
Proof. destruct (last_slash name) as [N|(a & b & -> & N)]; [rewrite base_id by exact N|rewrite base_last by exact N]; exact N. Qed.
Lemma replay_finds name id : hex_id id ->
  (replay_file (name ++ bs "@" ++ id ++ bs ".horus") = node_file name id <-> plain_name (base_name name) /\ ~ In 64 (base_name name)).
Proof.
  intros H. rewrite replay_file_is, node_file_is by exact H. split.
  - intros E. apply app_inv_tail in E. split; [|rewrite E; apply no_at_none].
    pose proof (sanitize_plain name) as (A & B & C & D). set (z := sanitize name) in *. split; [|split; [|split]].
    + rewrite E. intros X. apply A. destruct z; [reflexivity|discriminate].
    + rewrite E. intros X. apply B. destruct z as [|c [|? ?]]; try discriminate. cbn in X. destruct (c =? 64); [discriminate|]. injection X as ->. reflexivity.
    + rewrite E. intros X. apply C. destruct z as [|c [|c' [|? ?]]]; try discriminate. cbn in X. destruct (c =? 64), (c' =? 64); try discriminate. injection X as -> ->. reflexivity.
    + apply base_no_slash.
  - intros [P N]. rewrite sanitize_base by exact P. rewrite no_at_id by exact N. reflexivity.
Qed.

(** ** Files *)
Lemma tmp_of_neq p : tmp_of p <> p.
Proof. intros E. apply (f_equal (@length _)) in E. unfold tmp_of in E. rewrite app_length in E. cbn in E. lia. Qed.
Lemma writes_go tmp pieces : forall f old, lookup beqb tmp f = Some old ->
  lookup beqb tmp (fold_left fs_step (map (FsWrite tmp) pieces) f) = Some (old ++ concat pieces) /\
  forall p, p <> tmp -> lookup beqb p (fold_left fs_step (map (FsWrite tmp) pieces) f) = lookup beqb p f.
Proof.
  induction pieces as [|d ds IH]; intros f old H; cbn [map fold_left concat]; [rewrite app_nil_r; auto|].
  destruct (IH (fs_step f (FsWrite tmp d)) (old ++ d)) as [A B].
  - cbn [fs_step]. rewrite H. apply lookup_insert_eq. apply beqb_spec.
  - rewrite app_assoc. split; [exact A|]. intros p Hp. rewrite B by exact Hp. cbn [fs_step]. rewrite H. apply lookup_insert_neq; [apply beqb_spec|exact Hp].
Qed.
Lemma save_atomic f path pieces k :
  let f' := fold_left fs_step (firstn k (save_ops path pieces)) f in
  (lookup beqb path f' = lookup beqb path f \/ lookup beqb path f' = Some (concat pieces)) /\
  ((length (save_ops path pieces) <= k)%nat -> lookup beqb path f' = Some (concat pieces)) /\
  forall p, p <> path -> p <> tmp_of path -> lookup beqb p f' = lookup beqb p f.
Proof.
  cbv zeta. unfold save_ops. set (tmp := tmp_of path). pose proof (tmp_of_neq path) as Tn. fold tmp in Tn.
  destruct k as [|k].
  { cbn [firstn fold_left length]. split; [left; reflexivity|]. split; [lia|auto]. }
  cbn [firstn fold_left length]. rewrite app_length, map_length. cbn [length]. rewrite firstn_app, map_length, firstn_map.
  set (f1 := fs_step f (FsCreate tmp)).
  assert (L1 : lookup beqb tmp f1 = Some []) by (apply lookup_insert_eq; apply beqb_spec).
  assert (O1 : forall p, p <> tmp -> lookup beqb p f1 = lookup beqb p f) by (intros p Hp; apply lookup_insert_neq; [apply beqb_spec|exact Hp]).
  destruct (writes_go tmp (firstn k pieces) f1 [] L1) as [A B]. cbn [app] in A. rewrite fold_left_app.
  destruct (Nat.le_gt_cases k (length pieces)) as [G|G].
  - replace (k - length pieces)%nat with 0%nat by lia. cbn [firstn fold_left]. split; [left; rewrite B, O1 by congruence; reflexivity|]. split; [lia|].
    intros p Hp Ht. rewrite B, O1 by exact Ht. reflexivity.
  - rewrite (firstn_all2 pieces) in A, B |- * by lia. destruct (k - length pieces)%nat as [|d] eqn:Ed; [lia|]. cbn [firstn fold_left]. rewrite firstn_nil. cbn [fold_left fs_step]. rewrite A.
    assert (X : lookup beqb path (insert beqb path (concat pieces) (remove beqb tmp (fold_left fs_step (map (FsWrite tmp) pieces) f1))) = Some (concat pieces))
      by (apply lookup_insert_eq; apply beqb_spec).
    split; [right; exact X|]. split; [intros _; exact X|]. intros p Hp Ht.
    rewrite lookup_insert_neq; [|apply beqb_spec|exact Hp]. rewrite lookup_remove_neq; [|apply beqb_spec|exact Ht]. rewrite B, O1 by exact Ht. reflexivity.
Qed.
Lemma load_header {T} (dec dec_legacy : bytes -> option T) body :
  load dec dec_legacy (header ++ body) = if MAX_RECORDING_SIZE <? 10 + N.of_nat (length body) then None else dec body.
Proof.
  unfold load. rewrite app_length. replace (N.of_nat (length header + length body)) with (10 + N.of_nat (length body)) by (change (length header) with 10%nat; lia).
  destruct (MAX_RECORDING_SIZE <? 10 + N.of_nat (length body)); [reflexivity|]. change (length header) with 10%nat. reflexivity.
Qed.
Lemma load_version {T} (dec dec_legacy : bytes -> option T) v body : length v = 4%nat -> le_dec v <> 1 -> load dec dec_legacy (MAGIC ++ v ++ body) = None.
Proof.
  intros L V. destruct v as [|a [|b [|c [|d [|]]]]]; try discriminate. unfold load. destruct (_ <? _)%N; [reflexivity|].
  change ((if le_dec [a; b; c; d] =? 1 then dec body else None) = None).
  destruct (le_dec [a; b; c; d] =? 1) eqn:E; [apply N.eqb_eq in E; contradiction|reflexivity].
Qed.
