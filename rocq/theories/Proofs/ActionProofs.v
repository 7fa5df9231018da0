From Coq Require Import Sorting.Permutation.
From Verif Require Import Base.Prelude Base.AMap Model.Action Spec.ActionSpec.

(** ** Lists *)
Lemma min_by_in l b p : min_by l b = Some p -> In p l \/ b = Some p.
Proof.
  revert b. induction l as [|x l IH]; intros b H; [now right|]. cbn [min_by] in H.
  destruct (IH _ H) as [J|J]; [left; now right|].
  destruct b as [b|]; [|inv J; left; now left].
  case_match_in J; inv J; [left; now left|now right].
Qed.
Lemma min_by_none l b : min_by l b = None -> l = [] /\ b = None.
Proof.
  revert b. induction l as [|x l IH]; intros b H; auto. cbn [min_by] in H.
  apply IH in H as [_ H]. destruct b; [case_match_in H|]; discriminate.
Qed.
Lemma max_by_in l b p : max_by l b = Some p -> In p l \/ b = Some p.
Proof.
  revert b. induction l as [|x l IH]; intros b H; [now right|]. cbn [max_by] in H.
  destruct (IH _ H) as [J|J]; [left; now right|].
  destruct b as [b|]; [|inv J; left; now left].
  case_match_in J; inv J; [now right|left; now left].
Qed.

Notation NLook := (lookup N.eqb).
Definition keysN (l : list (N * goal)) : list N := map fst l.
Lemma keys_on_goal f id l : keysN (on_goal f id l) = keysN l.
Proof. unfold keysN, on_goal. rewrite map_map. apply map_ext. intros p. now destruct (fst p =? id)%N. Qed.
Lemma mem_in id (l : list (N * goal)) : mem N.eqb id l = true <-> In id (keysN l).
Proof.
  unfold mem, keysN. pose proof (lookup_None_keys N.eqb Neqb_spec' id l) as K. unfold keys in K.
  destruct (NLook id l) eqn:E.
  - split; auto. intros _. destruct (In_dec N.eq_dec id (map fst l)) as [|n]; auto.
    apply K in n. discriminate.
  - split; [discriminate|]. intros J. exfalso. now apply K.
Qed.
Lemma mem_out id (l : list (N * goal)) : mem N.eqb id l = false <-> ~ In id (keysN l).
Proof. rewrite <- mem_in. destruct (mem N.eqb id l); split; congruence. Qed.
Lemma keys_insert_new id g (l : list (N * goal)) : ~ In id (keysN l) ->
  insert N.eqb id g l = (id, g) :: l.
Proof.
  intros N. unfold insert. rewrite remove_absent; auto.
  now apply (lookup_None_keys N.eqb Neqb_spec').
Qed.
Lemma keys_rem k id (l : list (N * goal)) : In k (keysN (remove N.eqb id l)) <-> k <> id /\ In k (keysN l).
Proof. apply (keys_remove_In N.eqb Neqb_spec'). Qed.
Lemma nodup_rem id (l : list (N * goal)) : NoDup (keysN l) -> NoDup (keysN (remove N.eqb id l)).
Proof. apply (NoDup_remove_keys N.eqb). Qed.
Lemma in_without x id l : In x (without id l) <-> In x l /\ x <> id.
Proof.
  unfold without. rewrite filter_In, negb_true_iff, N.eqb_neq. reflexivity.
Qed.
Lemma nodup_without id l : NoDup l -> NoDup (without id l).
Proof. apply NoDup_filter. Qed.
Lemma existsb_in id l : existsb (N.eqb id) l = true <-> In id l.
Proof.
  rewrite existsb_exists. split.
  - intros (x & J & E). apply N.eqb_eq in E as ->. auto.
  - intros J. exists id. split; auto. apply N.eqb_refl.
Qed.

(** Counting goals with a given flag. *)
Definition cnt (P : goal -> bool) (l : list (N * goal)) : nat := length (filter (fun p => P (snd p)) l).
Lemma cnt_cons P p l : cnt P (p :: l) = (if P (snd p) then 1 else 0) + cnt P l.
Proof. unfold cnt. cbn [filter]. destruct (P (snd p)); reflexivity. Qed.
Lemma cnt_remove P id l : cnt P (remove N.eqb id l) <= cnt P l.
Proof.
  unfold remove. induction l as [|p l IH]; auto. cbn [filter].
  destruct (negb (id =? fst p)%N); rewrite ?cnt_cons; lia.
Qed.
Lemma cnt_on_goal P f id l : (forall g, P (f g) = P g) -> cnt P (on_goal f id l) = cnt P l.
Proof.
  intros K. induction l as [|p l IH]; auto. cbn [on_goal map]. rewrite !cnt_cons.
  unfold on_goal in IH. rewrite IH. destruct (fst p =? id)%N; cbn [snd]; now rewrite ?K.
Qed.
Lemma cnt_map_le P (f : goal -> goal) (l : list (N * goal)) :
  (forall g, P (f g) = true -> P g = true) ->
  cnt P (map (fun p => (fst p, f (snd p))) l) <= cnt P l.
Proof.
  intros K. induction l as [|p l IH]; auto. cbn [map]. rewrite !cnt_cons. cbn [snd].
  destruct (P (f (snd p))) eqn:E; [rewrite (K _ E)|]; lia.
Qed.
Lemma cnt_all P l : (forall p, In p l -> P (snd p) = true) -> cnt P l = length l.
Proof.
  induction l as [|p l IH]; intros K; auto. rewrite cnt_cons, (K p (or_introl eq_refl)).
  cbn [length]. rewrite IH; auto. intros q J. apply K. now right.
Qed.
Lemma cnt_split P l : cnt P l + cnt (fun g => negb (P g)) l = length l.
Proof.
  induction l as [|p l IH]; auto. rewrite !cnt_cons. cbn [length]. destruct (P (snd p)); cbn [negb]; lia.
Qed.
(** Flagging the one goal with a given key. *)
Lemma cnt_flag P f id l : NoDup (keysN l) -> In id (keysN l) ->
  (forall g, P (f g) = true) -> (forall p, In p l -> P (snd p) = false) ->
  cnt P (on_goal f id l) = 1.
Proof.
  induction l as [|p l IH]; intros ND J Kf Kn; [destruct J|].
  cbn [keysN map] in ND. inv ND. cbn [on_goal map]. rewrite cnt_cons.
  assert (forall m, ~ In id (map fst m) -> on_goal f id m = m) as Same.
  { clear. induction m as [|q m IH]; intros N; auto. cbn [on_goal map]. cbn in N.
    destruct (N.eqb_spec (fst q) id); [tauto|]. f_equal. apply IH. tauto. }
  destruct (N.eqb_spec (fst p) id) as [E|E].
  - cbn [snd]. rewrite Kf. assert (on_goal f id l = l) as Q by (apply Same; now rewrite <- E).
    unfold on_goal in Q. rewrite Q.
    enough (cnt P l = 0) by lia. clear - Kn.
    induction l as [|q l IH]; auto. rewrite cnt_cons, (Kn q) by (right; now left).
    apply IH. intros r Hr. apply Kn. destruct Hr; [now left|right; now right].
  - rewrite (Kn p) by now left. apply IH; auto.
    + destruct J; [contradiction|auto].
    + intros q Hq. apply Kn. now right.
Qed.

(** ** Counting messages *)
Lemma T_app id a b : terminals id (a ++ b) = terminals id a + terminals id b.
Proof. unfold terminals. now rewrite filter_app, app_length. Qed.
Lemma R_app id a b : results id (a ++ b) = results id a + results id b.
Proof. unfold results. now rewrite filter_app, app_length. Qed.
Lemma started_app a b : started (a ++ b) = started a ++ started b.
Proof. unfold started. now rewrite flat_map_app. Qed.
Lemma S_app id a b : starts id (a ++ b) = starts id a + starts id b.
Proof. unfold starts. now rewrite started_app, count_occ_app. Qed.
Lemma about_other id l : (forall m, In m l -> about m <> id) ->
  terminals id l = 0 /\ results id l = 0 /\ starts id l = 0.
Proof.
  induction l as [|m l IH]; intros K; [now repeat split|].
  destruct IH as (A & C & D); [intros; apply K; now right|].
  pose proof (K m (or_introl eq_refl)) as N.
  assert (terminals id [m] = 0 /\ results id [m] = 0 /\ starts id [m] = 0) as (A1 & C1 & D1).
  { unfold terminals, results, starts, started. destruct m as [i x|i st|i st]; cbn [about] in N; cbn [filter flat_map].
    - now repeat split.
    - destruct (N.eqb_spec i id); [contradiction|]. now repeat split.
    - destruct (N.eqb_spec i id); [contradiction|]. cbn [andb]. repeat split.
      destruct st; cbn; auto. destruct (N.eq_dec i id); [contradiction|auto]. }
  change (m :: l) with ([m] ++ l). rewrite T_app, R_app, S_app. lia.
Qed.
Lemma T_status id st : terminals id [MStatus id st] = if terminal st then 1 else 0.
Proof. unfold terminals. cbn. rewrite N.eqb_refl. now destruct st. Qed.

Section Server.
Variable cfg : config.
Variable wants : req -> bool.
Variable cancel_ok : N -> bool.
Variable has_exec : bool.
Variable spawns : req -> bool.
Variable order : list (N * goal) -> list (N * goal).
Hypothesis ord : hash_order order.

Notation has_slot := (has_slot cfg).
Notation accept := (accept has_exec spawns).
Notation start_queued := (start_queued cfg has_exec spawns).
Notation process_queue := (process_queue cfg has_exec spawns).
Notation complete := (complete cfg has_exec spawns).
Notation abort_silent := (abort_silent cfg has_exec spawns).
Notation dispatch := (dispatch cfg has_exec spawns).
Notation drain := (drain cfg has_exec spawns).
Notation handle_goal := (handle_goal cfg wants has_exec spawns order).
Notation check_timeouts := (check_timeouts cfg order).
Notation step := (step cfg wants cancel_ok has_exec spawns order).
Notation run := (run cfg wants cancel_ok has_exec spawns order).

Lemma run_app a : forall s b, run s (a ++ b) = match run s a with Some s' => run s' b | None => None end.
Proof.
  induction a as [|o a IH]; intros s b; auto. cbn [app Action.run]. destruct (step s o); auto.
Qed.
Lemma oldest_in s id : oldest order s = Some id -> In id (keysN (active s)).
Proof.
  unfold oldest. destruct (min_by _ None) as [p|] eqn:E; [|discriminate]. intros Q. inv Q.
  apply min_by_in in E as [J|J]; [|discriminate].
  apply in_map. now apply (Permutation_in _ (ord (active s))).
Qed.

Lemma cancel_pres (P : srv -> Prop) :
  (forall s id, P s -> P (cancel_one cancel_ok s id)) ->
  forall fuel s id s', handle_cancel cancel_ok order fuel s id = Some s' -> P s -> P s'.
Proof.
  intros K. induction fuel as [|fuel IH]; intros s id s' H Ps; [discriminate|].
  cbn [handle_cancel] in H. destruct (id =? 0)%N; [|inv H; auto].
  revert H. generalize (map fst (order (active s)) ++ map r_id (queue s)). intros ids. revert s Ps.
  induction ids as [|i ids IHi]; intros s Ps H; cbn [fold_left] in H; [now inv H|].
  destruct (handle_cancel cancel_ok order fuel s i) as [s1|] eqn:E.
  - apply (IHi s1); auto. now apply (IH s i).
  - exfalso. clear - H. induction ids; cbn [fold_left] in H; auto. discriminate.
Qed.

(** Projections of the field updates. *)
Ltac proj := cbn [active queue threads live inbox now out received accepted rejected succeeded aborted
  canceled preempted set_active set_queue set_threads send count advance].
Ltac proj_in H := cbn [active queue threads live inbox now out received accepted rejected succeeded aborted
  canceled preempted set_active set_queue set_threads send count advance] in H.

(** ** Slots *)
Notation free := (fun g => negb (g_abandoned g)).
Lemma occ_cnt s : occupied s = cnt free (active s).
Proof. reflexivity. Qed.
Definition fits (s : srv) : Prop := match max_goals cfg with None => True | Some m => occupied s <= m end.
Lemma accept_active s r :
  active (accept s r) = active s
  \/ exists g, active (accept s r) = (r_id r, g) :: active s /\ ~ In (r_id r) (keysN (active s))
       /\ g_preempt g = false /\ g_abandoned g = false /\ g_start g = now s /\ g_prio g = r_prio r.
Proof.
  unfold Action.accept. destruct (mem N.eqb (r_id r) (active s)) eqn:M; [now left|].
  apply mem_out in M. cbv zeta. proj. rewrite keys_insert_new by auto.
  destruct has_exec; [destruct (spawns r)|].
  - right. eexists. split; [reflexivity|]. auto.
  - left. proj. unfold remove. cbn [filter fst]. rewrite N.eqb_refl. cbn [negb].
    fold (remove N.eqb (r_id r) (active s)). apply remove_absent.
    now apply (lookup_None_keys N.eqb Neqb_spec').
  - right. eexists. split; [reflexivity|]. auto.
Qed.
Lemma accept_occ s r : occupied (accept s r) <= S (occupied s).
Proof.
  rewrite !occ_cnt. destruct (accept_active s r) as [->|(g & -> & _)]; [lia|].
  rewrite cnt_cons. destruct (free (snd (r_id r, g))); lia.
Qed.
Lemma accept_fits s r : has_slot s = true -> fits (accept s r).
Proof.
  unfold fits, Action.has_slot. destruct (max_goals cfg); auto. intros H. apply Nat.ltb_lt in H.
  pose proof (accept_occ s r). lia.
Qed.
Lemma fits_queued q : forall s, fits s -> fits (start_queued q s).
Proof.
  induction q as [|r q IH]; intros s F; auto. cbn [Action.start_queued].
  destruct (has_slot s) eqn:H; auto. apply IH, accept_fits. exact H.
Qed.
Lemma fits_remove s id f : fits s -> active f = remove N.eqb id (active s) -> fits f.
Proof.
  unfold fits. destruct (max_goals cfg); auto. rewrite !occ_cnt. intros L ->.
  pose proof (cnt_remove free id (active s)). lia.
Qed.
Lemma fits_same s f : fits s -> active f = active s -> fits f.
Proof. unfold fits. destruct (max_goals cfg); auto. rewrite !occ_cnt. now intros L ->. Qed.
Lemma fits_cancel s id : fits s -> fits (cancel_one cancel_ok s id).
Proof.
  intros F. unfold cancel_one. destruct (find _ _); [destruct (cancel_ok id); auto; now apply (fits_same s)|].
  destruct (_ && _); auto. unfold fits in *. destruct (max_goals cfg); auto. rewrite occ_cnt in *. proj.
  rewrite cnt_on_goal; auto.
Qed.
Lemma fits_dispatch e s : fits s -> fits (dispatch s e).
Proof.
  intros F. destruct e; cbn [Action.dispatch].
  - now apply (fits_same s).
  - unfold Action.complete, Action.process_queue. apply fits_queued.
    destruct o; apply (fits_remove s id); auto.
  - unfold Action.abort_silent, Action.process_queue. apply fits_queued.
    apply (fits_remove s id); auto.
Qed.
Lemma fits_drain s : fits s -> fits (drain s).
Proof.
  intros F. unfold Action.drain.
  assert (fits (set_threads s (threads s) (live s) [])) as F0 by now apply (fits_same s).
  revert F0. generalize (set_threads s (threads s) (live s) []). generalize (inbox s).
  induction l as [|e l IH]; intros s0 F0; auto. cbn [fold_left]. apply IH. now apply fits_dispatch.
Qed.
Lemma abandoned_time_out s g : free (time_out cfg s g) = true -> free g = true.
Proof. cbv beta. unfold time_out. destruct (g_abandoned g) eqn:E; intros H; [rewrite E in H; discriminate|auto]. Qed.
Lemma fits_timeouts s : fits s -> fits (check_timeouts s).
Proof.
  unfold fits. destruct (max_goals cfg); auto. rewrite !occ_cnt. unfold Action.check_timeouts. proj.
  intros L. pose proof (cnt_map_le free (time_out cfg s) (active s) (abandoned_time_out s)). cbv beta in *. lia.
Qed.
Lemma fits_step s o s' : match pol cfg with RejectNew | Queue _ => True | _ => False end ->
  fits s -> step s o = Some s' -> fits s'.
Proof.
  intros Pl F H. destruct o; cbn [Action.step] in H.
  - inv H. unfold Action.handle_goal. cbv zeta.
    assert (fits (count s 1 0 0 0 0 0 0)) as F1 by now apply (fits_same s).
    destruct (negb _); [now apply (fits_same s)|].
    destruct (has_slot _) eqn:Hs; [now apply accept_fits|].
    destruct (pol cfg); try (exfalso; exact Pl).
    { now apply (fits_same s). }
    destruct (_ <? _); now apply (fits_same s).
  - revert H F. apply cancel_pres. apply fits_cancel.
  - inv H. now apply fits_drain.
  - inv H. now apply fits_timeouts.
  - inv H. now apply (fits_same s).
  - inv H. destruct (existsb _ _); [now apply (fits_same s)|exact F].
  - inv H. destruct (existsb _ _); [now apply (fits_same s)|exact F].
  - inv H. unfold fits. destruct (max_goals cfg); auto. rewrite occ_cnt. cbn. lia.
Qed.
Lemma run_pres (P : srv -> Prop) : (forall s o s', P s -> step s o = Some s' -> P s') ->
  forall ops s s', P s -> run s ops = Some s' -> P s'.
Proof.
  intros K. induction ops as [|o ops IH]; intros s s' Ps H; cbn [Action.run] in H; [now inv H|].
  destruct (step s o) as [s1|] eqn:E; [|discriminate]. apply (IH s1); auto. now apply (K s o).
Qed.

(** ** Preempting the oldest *)
Definition fresh (g : goal) : bool := negb (g_preempt g).
Record pinv (s : srv) : Prop := {
  p_nd : NoDup (keysN (active s));
  p_abn : forall p, In p (active s) -> g_abandoned (snd p) = false;
  p_queue : queue s = [];
  p_pend : pending s <= 1;
  p_max : match max_goals cfg with None => True | Some m => cnt fresh (active s) <= m end }.
Lemma cnt_le_len P l : cnt P l <= length l.
Proof. pose proof (cnt_split P l). lia. Qed.
Lemma occ_all s : (forall p, In p (active s) -> g_abandoned (snd p) = false) -> occupied s = length (active s).
Proof.
  intros K. rewrite occ_cnt. apply cnt_all. intros p J. cbv beta. now rewrite (K p J).
Qed.
Lemma pinv_same s f : pinv s -> active f = active s -> queue f = queue s -> pinv f.
Proof.
  intros [A B C D E] Qa Qq. unfold pending in *. split; unfold pending; rewrite ?Qa, ?Qq; auto.
Qed.
Lemma in_remove_goal p id (l : list (N * goal)) : In p (remove N.eqb id l) -> In p l.
Proof. intros J. now apply (In_remove N.eqb Neqb_spec') in J. Qed.
Lemma pinv_remove s f id : pinv s -> active f = remove N.eqb id (active s) -> queue f = queue s -> pinv f.
Proof.
  intros [A B C D E] Qa Qq. unfold pending in *. split; unfold pending; rewrite ?Qa, ?Qq; auto.
  - now apply nodup_rem.
  - intros p J. apply B. now apply in_remove_goal in J.
  - pose proof (cnt_remove g_preempt id (active s)). unfold cnt in *. lia.
  - destruct (max_goals cfg); auto. pose proof (cnt_remove fresh id (active s)). lia.
Qed.
Lemma pinv_queued s : pinv s -> process_queue s = set_queue s [].
Proof. intros I. unfold Action.process_queue. now rewrite (p_queue s I). Qed.
Lemma accept_queue s r : queue (accept s r) = queue s.
Proof. unfold Action.accept. destruct (mem _ _ _); auto. destruct has_exec; auto. destruct (spawns r); auto. Qed.
(** Room for one more goal. *)
Lemma pinv_accept s r : pinv s -> match max_goals cfg with None => True | Some m => cnt fresh (active s) < m end ->
  pinv (accept s r).
Proof.
  intros I L. destruct (accept_active s r) as [Q|(g & Q & N & P & Ab & _)].
  - apply (pinv_same s); auto. apply accept_queue.
  - destruct I as [A B C D E]. unfold pending in *. split; unfold pending; rewrite ?Q; auto.
    + cbn [keysN map fst]. constructor; auto.
    + intros p [<-|J]; auto.
    + now rewrite accept_queue.
    + cbn [filter snd]. rewrite P. exact D.
    + destruct (max_goals cfg); auto. rewrite cnt_cons. cbn [snd]. unfold fresh at 1. rewrite P. cbn [negb]. lia.
Qed.
Lemma on_goal_in f id l p : In p (on_goal f id l) -> exists q, In q l /\ fst p = fst q /\ (p = q \/ snd p = f (snd q)).
Proof.
  unfold on_goal. rewrite in_map_iff. intros (q & <- & J). exists q. split; auto.
  destruct (fst q =? id)%N; auto.
Qed.
Lemma pinv_step s o s' : pol cfg = PreemptOld -> timeout cfg = None ->
  pinv s -> step s o = Some s' -> pinv s'.
Proof.
  intros Pl To I H. destruct o; cbn [Action.step] in H.
  - inv H. unfold Action.handle_goal. cbv zeta. rewrite Pl.
    set (s1 := count s 1 0 0 0 0 0 0).
    assert (pinv s1) as I1 by now apply (pinv_same s).
    destruct (negb _); [now apply (pinv_same s)|].
    destruct (has_slot s1) eqn:Hs.
    { apply pinv_accept; auto. unfold Action.has_slot in Hs. destruct (max_goals cfg); auto.
      apply Nat.ltb_lt in Hs. rewrite (occ_all s1 (p_abn s1 I1)) in Hs.
      pose proof (cnt_le_len fresh (active s1)). lia. }
    destruct (Nat.ltb_spec 0 (pending s1)) as [Pp|Pp]; [now apply (pinv_same s)|].
    destruct (oldest order s1) as [id|] eqn:O; [|now apply (pinv_same s)].
    apply oldest_in in O. destruct I1 as [A B C D E].
    assert (forall p, In p (active s1) -> g_preempt (snd p) = false) as NoP.
    { intros p J. destruct (g_preempt (snd p)) eqn:G; auto. exfalso. unfold pending in Pp.
      assert (In p (filter (fun p => g_preempt (snd p)) (active s1))) as J2 by (apply filter_In; auto).
      destruct (filter _ (active s1)); [destruct J2|cbn in Pp; lia]. }
    pose proof (cnt_flag g_preempt ask_preempt id (active s1) A O (fun _ => eq_refl) NoP) as One.
    pose proof (cnt_split g_preempt (on_goal ask_preempt id (active s1))) as Sp.
    assert (cnt (fun g => negb (g_preempt g)) (on_goal ask_preempt id (active s1)) =
            cnt fresh (on_goal ask_preempt id (active s1))) as Qf by reflexivity.
    assert (length (on_goal ask_preempt id (active s1)) = length (active s1)) as Ln
      by (unfold on_goal; apply map_length).
    assert (cnt fresh (active s1) = length (active s1)) as Fa.
    { apply cnt_all. intros p J. unfold fresh. now rewrite (NoP p J). }
    assert (1 <= length (active s1)) as L1 by (destruct (active s1); [destruct O|cbn; lia]).
    apply pinv_accept.
    + split; unfold pending, preempt; proj; auto.
      * now rewrite keys_on_goal.
      * intros p J. apply on_goal_in in J as (q & J & _ & [-> | ->]); auto. cbn. auto.
      * unfold cnt in One. lia.
      * destruct (max_goals cfg); auto. lia.
    + unfold preempt. proj. destruct (max_goals cfg); auto. lia.
  - revert H I. apply cancel_pres. intros s0 i I. unfold cancel_one. rewrite (p_queue s0 I). cbn [find].
    destruct (_ && _); auto. destruct I as [A B C D E].
    split; unfold pending in *; proj; auto.
    + now rewrite keys_on_goal.
    + intros p J. apply on_goal_in in J as (q & J & _ & [-> | ->]); auto. cbn. auto.
    + pose proof (cnt_on_goal g_preempt ask_cancel i (active s0) (fun _ => eq_refl)) as Q.
      unfold cnt in Q. lia.
    + rewrite cnt_on_goal; auto.
  - inv H. unfold Action.drain.
    assert (pinv (set_threads s (threads s) (live s) [])) as F0 by now apply (pinv_same s).
    revert F0. generalize (set_threads s (threads s) (live s) []). generalize (inbox s). clear I.
    induction l as [|e l IH]; intros s0 F0; auto. cbn [fold_left]. apply IH. destruct e; cbn [Action.dispatch].
    + now apply (pinv_same s0).
    + unfold Action.complete. cbv zeta. destruct o; (rewrite pinv_queued; [|apply (pinv_remove s0 _ id); auto]);
        apply (pinv_remove s0 _ id); auto; proj; now rewrite (p_queue s0 F0).
    + unfold Action.abort_silent. cbv zeta. rewrite pinv_queued; [|apply (pinv_remove s0 _ id); auto].
      apply (pinv_remove s0 _ id); auto; proj; now rewrite (p_queue s0 F0).
  - inv H. unfold Action.check_timeouts.
    assert (forall p, In p (active s) -> (fst p, time_out cfg s (snd p)) = p) as Id.
    { intros p J. unfold time_out, over. rewrite To, (p_abn s I p J).
      destruct p as [i g]. cbn [fst snd] in *. destruct (g_signalled g) eqn:Sg; auto.
      f_equal. pose proof (p_abn s I (i, g) J) as Z. cbn in Z. destruct g; cbn in *; congruence. }
    apply (pinv_same s); auto. proj.
    rewrite <- (map_id (active s)) at 2. apply map_ext_in. exact Id.
  - inv H. now apply (pinv_same s).
  - inv H. destruct (existsb _ _); [now apply (pinv_same s)|exact I].
  - inv H. destruct (existsb _ _); [now apply (pinv_same s)|exact I].
  - inv H. split; unfold pending; cbn; auto; try tauto; try constructor. destruct (max_goals cfg); lia.
Qed.

(** ** Threads *)
Definition ev_id (e : inbox_event) : N := match e with Feedback i _ | Completed i _ | Panicked i => i end.
Definition ending (e : inbox_event) : bool := match e with Feedback _ _ => false | _ => true end.
(** Nothing follows a goal's last event. *)
Fixpoint wf_ev (ev : list inbox_event) : Prop :=
  match ev with
  | [] => True
  | e :: r => (ending e = true -> forall e', In e' r -> ev_id e' <> ev_id e) /\ wf_ev r
  end.
Lemma wf_ev_snoc ev e : wf_ev ev -> (forall e', In e' ev -> ending e' = true -> ev_id e' <> ev_id e) ->
  wf_ev (ev ++ [e]).
Proof.
  induction ev as [|x ev IH]; intros W K; cbn [app wf_ev] in *; [split; auto; intros _ e' []|].
  destruct W as [W1 W2]. split.
  - intros E e' J. apply in_app_or in J as [J|[<-|[]]]; [auto|].
    intros Q. apply (K x); auto. now left.
  - apply IH; auto. intros e' J. apply K. now right.
Qed.
Record B (ev : list inbox_event) (s : srv) : Prop := {
  b_nd : NoDup (keysN (active s));
  b_live : NoDup (live s);
  b_lt : forall id, In id (live s) -> In id (threads s);
  b_et : forall e, In e ev -> In (ev_id e) (threads s);
  b_ta : forall id, In id (threads s) -> In id (keysN (active s));
  b_wf : wf_ev ev;
  b_le : forall e, In e ev -> ending e = true -> ~ In (ev_id e) (live s) }.
(** Steps that leave the goals' keys and threads alone. *)
Lemma B_same ev s f : B ev s -> keysN (active f) = keysN (active s) ->
  threads f = threads s -> live f = live s -> B ev f.
Proof. intros [A C D E F G H] Qa Qt Ql. split; rewrite ?Qa, ?Qt, ?Ql; auto. Qed.
Lemma B_accept ev s r : B ev s -> B ev (accept s r).
Proof.
  intros I. unfold Action.accept. destruct (mem N.eqb (r_id r) (active s)) eqn:M; [now apply (B_same ev s)|].
  apply mem_out in M. cbv zeta. proj. rewrite keys_insert_new by auto.
  assert (~ In (r_id r) (threads s)) as NT by (intros J; apply M, (b_ta ev s I), J).
  destruct has_exec; [destruct (spawns r)|].
  - destruct I as [A C D E F G H]. split; proj; auto.
    + cbn. constructor; auto.
    + constructor; auto.
    + intros id [<-|J]; [now left|right; auto].
    + intros e J. right; auto.
    + intros id [<-|J]; [now left|right; auto].
    + intros e J Z [Q|Q]; [|now apply (H e)]. apply NT. rewrite Q. auto.
  - apply (B_same ev s); auto. proj. unfold remove. cbn [filter fst]. rewrite N.eqb_refl. cbn [negb].
    fold (remove N.eqb (r_id r) (active s)). rewrite remove_absent; auto.
    now apply (lookup_None_keys N.eqb Neqb_spec').
  - destruct I as [A C D E F G H]. split; proj; auto.
    + cbn. constructor; auto.
    + intros id J. right; auto.
Qed.
Lemma B_queued ev q : forall s, B ev s -> B ev (start_queued q s).
Proof.
  induction q as [|r q IH]; intros s I; auto. cbn [Action.start_queued].
  destruct (has_slot s); [|now apply (B_same ev s)]. apply IH, B_accept, I.
Qed.
Lemma B_end ev e s f : ending e = true -> B (e :: ev) s ->
  active f = remove N.eqb (ev_id e) (active s) -> threads f = without (ev_id e) (threads s) ->
  live f = live s -> B ev f.
Proof.
  intros En [A C D E F G H] Qa Qt Ql. cbn [wf_ev] in G. destruct G as [G1 G2].
  split; rewrite ?Qa, ?Qt, ?Ql; auto.
  - now apply nodup_rem.
  - intros id J. apply in_without. split; auto. intros ->. apply (H e); auto. now left.
  - intros e' J. apply in_without. split; [apply E; now right|auto].
  - intros id J. apply in_without in J as [J N]. apply keys_rem. auto.
  - intros e' J. apply H. now right.
Qed.
Lemma B_dispatch ev e s : B (e :: ev) s -> B ev (dispatch s e).
Proof.
  intros I. destruct e; cbn [Action.dispatch].
  - destruct I as [A C D E F G H]. split; proj; auto.
    + intros e' J. apply E. now right.
    + apply G.
    + intros e' J. apply H. now right.
  - unfold Action.complete. cbv zeta. unfold Action.process_queue. apply B_queued.
    destruct o; (eapply B_end; [| exact I | | |]; reflexivity).
  - unfold Action.abort_silent. cbv zeta. unfold Action.process_queue. apply B_queued.
    eapply B_end; [| exact I | | |]; reflexivity.
Qed.
Lemma accept_inbox s r : inbox (accept s r) = inbox s.
Proof. unfold Action.accept. destruct (mem _ _ _); auto. destruct has_exec; auto. destruct (spawns r); auto. Qed.
Lemma queued_inbox q : forall s, inbox (start_queued q s) = inbox s.
Proof.
  induction q as [|r q IH]; intros s; auto. cbn [Action.start_queued].
  destruct (has_slot s); auto. now rewrite IH, accept_inbox.
Qed.
Lemma dispatch_inbox s e : inbox (dispatch s e) = inbox s.
Proof.
  destruct e; auto; cbn [Action.dispatch]; unfold Action.complete, Action.abort_silent, Action.process_queue;
    cbv zeta; rewrite queued_inbox; [destruct o|]; reflexivity.
Qed.
Lemma drain_inbox s : inbox (drain s) = [].
Proof.
  unfold Action.drain.
  assert (inbox (set_threads s (threads s) (live s) []) = []) as Q by reflexivity. revert Q.
  generalize (set_threads s (threads s) (live s) []). generalize (inbox s).
  induction l as [|e l IH]; intros s0 Q; auto. cbn [fold_left]. apply IH. now rewrite dispatch_inbox.
Qed.
Lemma drain_pres (P : list inbox_event -> srv -> Prop) :
  (forall e ev s, P (e :: ev) s -> P ev (dispatch s e)) ->
  (forall ev s, P ev s -> P ev (set_threads s (threads s) (live s) [])) ->
  forall s, P (inbox s) s -> P (inbox (drain s)) (drain s).
Proof.
  intros K L s H. rewrite drain_inbox. unfold Action.drain. apply L in H. revert H.
  generalize (set_threads s (threads s) (live s) []). generalize (inbox s).
  induction l as [|e l IH]; intros s0 Q; auto. cbn [fold_left]. apply IH. now apply K.
Qed.
Lemma cancel_one_keys s id : keysN (active (cancel_one cancel_ok s id)) = keysN (active s).
Proof.
  unfold cancel_one. destruct (find _ _); [now destruct (cancel_ok id)|].
  destruct (_ && _); auto. apply keys_on_goal.
Qed.
Lemma cancel_one_threads s id :
  threads (cancel_one cancel_ok s id) = threads s /\ live (cancel_one cancel_ok s id) = live s
  /\ inbox (cancel_one cancel_ok s id) = inbox s /\ now (cancel_one cancel_ok s id) = now s.
Proof.
  unfold cancel_one. destruct (find _ _); [now destruct (cancel_ok id)|]. now destruct (_ && _).
Qed.
Lemma B_step s o s' : B (inbox s) s -> step s o = Some s' -> B (inbox s') s'.
Proof.
  intros I H. destruct o; cbn [Action.step] in H.
  - inv H. unfold Action.handle_goal. cbv zeta.
    assert (B (inbox s) (count s 1 0 0 0 0 0 0)) as I1 by now apply (B_same (inbox s) s).
    assert (forall i, B (inbox s) (preempt (count s 1 0 0 0 0 0 0) i)) as I2.
    { intros i. apply (B_same (inbox s) s); auto. apply keys_on_goal. }
    assert (forall i, inbox (accept (preempt (count s 1 0 0 0 0 0 0) i) r) = inbox s) as Q by
      (intros; now rewrite accept_inbox).
    destruct (negb _); [now apply (B_same (inbox s) s)|].
    destruct (has_slot _); [rewrite accept_inbox; now apply B_accept|].
    destruct (pol cfg); [| | |].
    + now apply (B_same (inbox s) s).
    + destruct (0 <? _); [now apply (B_same (inbox s) s)|].
      destruct (oldest _ _); [rewrite Q; apply B_accept; auto|now apply (B_same (inbox s) s)].
    + destruct (lowest _ _) as [[i pr]|]; [|now apply (B_same (inbox s) s)].
      destruct (_ <? _)%N; [rewrite Q; apply B_accept; auto|now apply (B_same (inbox s) s)].
    + destruct (_ <? _); now apply (B_same (inbox s) s).
  - revert H I. apply (cancel_pres (fun s => B (inbox s) s)). intros s0 i I.
    destruct (cancel_one_threads s0 i) as (Qt & Ql & Qi & _). rewrite Qi.
    apply (B_same (inbox s0) s0); auto. apply cancel_one_keys.
  - inv H. revert I. apply (drain_pres B).
    + intros e ev s1. apply B_dispatch.
    + intros ev s1 I. now apply (B_same ev s1).
  - inv H. apply (B_same (inbox s) s); auto. unfold Action.check_timeouts. proj.
    unfold keysN. rewrite map_map. reflexivity.
  - inv H. now apply (B_same (inbox s) s).
  - inv H. destruct (existsb (N.eqb id) (live s)) eqn:L; [|exact I]. apply existsb_in in L.
    destruct I as [A C D E F G H]. split; proj; auto.
    + intros e J. apply in_app_or in J as [J|[<-|[]]]; cbn [ev_id]; auto.
    + apply wf_ev_snoc; auto. intros e J Z Q. apply (H e); auto. now rewrite Q.
    + intros e J Z. apply in_app_or in J as [J|[<-|[]]]; auto. discriminate.
  - inv H. destruct (existsb (N.eqb id) (live s)) eqn:L; [|exact I]. apply existsb_in in L.
    set (e0 := match o with Some o => Completed id o | None => Panicked id end).
    assert (ev_id e0 = id) as Qe by (unfold e0; now destruct o).
    destruct I as [A C D E F G H]. split; proj; auto.
    + now apply nodup_without.
    + intros i J. apply in_without in J as [J _]. auto.
    + intros e J. apply in_app_or in J as [J|[<-|[]]]; [auto|rewrite Qe; auto].
    + apply wf_ev_snoc; auto. intros e J Z Q. apply (H e); auto. now rewrite Q, Qe.
    + intros e J Z W. apply in_without in W as [W N].
      apply in_app_or in J as [J|[<-|[]]]; [now apply (H e)|auto].
  - inv H. split; cbn; try tauto; constructor.
Qed.

(** ** Every goal's account *)
Definition quiet (id : N) (o : list msg) : Prop := terminals id o = 0 /\ results id o = 0 /\ starts id o = 0.
Definition act_ok (id : N) (g : goal) (o : list msg) : Prop :=
  terminals id o = (if g_abandoned g then 1 else 0) /\ results id o = 0 /\ starts id o = 1
  /\ (timeout cfg = None -> g_abandoned g = false).
Definition done (id : N) (o : list msg) : Prop :=
  1 <= terminals id o <= 2 /\ results id o <= 1 /\ starts id o <= 1 /\ (timeout cfg = None -> terminals id o = 1).
Definition ok (ids w : list N) (a : list (N * goal)) (o : list msg) (id : N) : Prop :=
  (forall g, In (id, g) a -> act_ok id g o) /\ (In id w -> quiet id o)
  /\ (In id ids -> ~ In id (keysN a) -> ~ In id w -> done id o) /\ (~ In id ids -> quiet id o).
Lemma in_keysN id (a : list (N * goal)) : In id (keysN a) <-> exists g, In (id, g) a.
Proof.
  unfold keysN. rewrite in_map_iff. split.
  - intros ([i g] & <- & J). eauto.
  - intros (g & J). exists (id, g). auto.
Qed.
Lemma ok_other ids w a o ids' w' a' ms id :
  ok ids w a o id -> (forall g, In (id, g) a' <-> In (id, g) a) -> (In id w' <-> In id w) ->
  (In id ids' <-> In id ids) -> (forall m, In m ms -> about m <> id) -> ok ids' w' a' (o ++ ms) id.
Proof.
  intros (O1 & O2 & O3 & O4) Ka Kw Ki Km. destruct (about_other id ms Km) as (ZT & ZR & ZS).
  assert (In id (keysN a') <-> In id (keysN a)) as Kk.
  { rewrite !in_keysN. split; intros (g & J); exists g; now apply Ka. }
  unfold ok, act_ok, quiet, done in *. rewrite T_app, R_app, S_app, ZT, ZR, ZS, !Nat.add_0_r.
  split; [|split; [|split]].
  - intros g J. apply O1. now apply Ka.
  - intros J. now apply O2, Kw.
  - intros J N1 N2. apply O3; tauto.
  - intros J. apply O4. tauto.
Qed.
Definition wait (lim : list req) (s : srv) : list N := map r_id (queue s) ++ map r_id lim.
Record J (ids : list N) (lim : list req) (ev : list inbox_event) (s : srv) : Prop := {
  j_b : B ev s;
  j_nd : NoDup (keysN (active s) ++ wait lim s);
  j_in : forall id, In id (keysN (active s) ++ wait lim s) -> In id ids;
  j_ok : forall id, ok ids (wait lim s) (active s) (out s) id;
  j_sum : received s = rejected s + length (wait lim s) + length (active s)
            + succeeded s + aborted s + canceled s + preempted s }.
Lemma J_same ids lim ev s f : J ids lim ev s -> B ev f -> active f = active s -> queue f = queue s ->
  out f = out s -> received f = received s -> rejected f = rejected s -> succeeded f = succeeded s ->
  aborted f = aborted s -> canceled f = canceled s -> preempted f = preempted s -> J ids lim ev f.
Proof.
  intros [A C D E F] Bf Qa Qq Qo Q1 Q2 Q3 Q4 Q5 Q6. unfold wait in *.
  split; unfold wait; auto; try rewrite Qa, Qq; auto.
  - intros id. rewrite Qo. apply E.
  - lia.
Qed.
(** A new goal arrives. *)
Lemma J_receive ids lim ev s r : J ids lim ev s -> ~ In (r_id r) ids ->
  J (ids ++ [r_id r]) (r :: lim) ev (count s 1 0 0 0 0 0 0).
Proof.
  intros [A C D E F] N. split; unfold wait in *; proj; cbn [map].
  - now apply (B_same ev s).
  - rewrite app_assoc in *. apply NoDup_Add with (a := r_id r) (l := (keysN (active s) ++ map r_id (queue s)) ++ map r_id lim).
    + apply Add_app.
    + split; auto.
  - intros id J. rewrite app_assoc in J. apply in_or_app. apply in_app_or in J as [J|[<-|J]].
    + left. apply D. rewrite app_assoc. apply in_or_app. now left.
    + right. now left.
    + left. apply D. rewrite app_assoc. apply in_or_app. now right.
  - intros id. destruct (N.eq_dec id (r_id r)) as [->|Ne].
    + destruct (E (r_id r)) as (_ & _ & _ & Q). specialize (Q N).
      split; [|split; [|split]].
      * intros g J. exfalso. apply N, D. apply in_or_app. left. apply in_keysN. eauto.
      * auto.
      * intros _ _ K. exfalso. apply K. apply in_or_app. right. now left.
      * auto.
    + rewrite <- (app_nil_r (out s)). apply (ok_other ids (map r_id (queue s) ++ map r_id lim) (active s)); auto.
      * tauto.
      * assert (r_id r <> id) by congruence. rewrite !in_app_iff. cbn [In]. tauto.
      * assert (r_id r <> id) by congruence. rewrite in_app_iff. cbn [In]. tauto.
  - rewrite F, !app_length. cbn [length]. lia.
Qed.
Lemma J_lim_out ids r lim ev s : J ids (r :: lim) ev s ->
  ~ In (r_id r) (keysN (active s)) /\ ~ In (r_id r) (wait lim s) /\ NoDup (keysN (active s) ++ wait lim s)
  /\ In (r_id r) ids /\ quiet (r_id r) (out s).
Proof.
  intros [A C D E F]. unfold wait in *. cbn [map] in C. rewrite app_assoc in C.
  apply NoDup_remove in C as [C N]. rewrite <- app_assoc in C, N.
  assert (In (r_id r) (map r_id (queue s) ++ map r_id (r :: lim))) as Jw by (apply in_or_app; right; now left).
  split; [|split; [|split; [|split]]]; auto.
  - intros K. apply N. apply in_or_app. now left.
  - intros K. apply N. apply in_or_app. now right.
  - apply D. apply in_or_app. now right.
  - destruct (E (r_id r)) as (_ & Q & _). now apply Q.
Qed.
Lemma done_1 id o st : quiet id o -> terminal st = true -> done id (o ++ [MStatus id st]).
Proof.
  intros (Z1 & Z2 & Z3) T. unfold done. rewrite T_app, R_app, S_app, T_status, T, Z1, Z2, Z3.
  assert (starts id [MStatus id st] = 0) as -> by (unfold starts; now destruct st).
  cbn. lia.
Qed.
Lemma wait_lim r lim s id : id <> r_id r -> (In id (wait lim s) <-> In id (wait (r :: lim) s)).
Proof. intros N. unfold wait. rewrite !in_app_iff. cbn [map In]. assert (r_id r <> id) by congruence. tauto. Qed.
Lemma wait_len r lim s : length (wait (r :: lim) s) = S (length (wait lim s)).
Proof. unfold wait. rewrite !app_length. cbn. lia. Qed.
Lemma J_reject ids r lim ev s : J ids (r :: lim) ev s -> J ids lim ev (reject s (r_id r)).
Proof.
  intros I. destruct (J_lim_out _ _ _ _ _ I) as (N1 & N2 & Nd & Ji & Qt). destruct I as [A C D E F].
  split.
  - now apply (B_same ev s).
  - exact Nd.
  - intros id J. apply D. unfold reject in J; proj_in J. apply in_app_or in J as [J|J]; apply in_or_app; auto.
    right. unfold wait in *. cbn in J. rewrite in_app_iff in *. cbn [map In]. tauto.
  - intros id. unfold reject. proj. destruct (N.eq_dec id (r_id r)) as [->|Ne].
    + assert (done (r_id r) (out s ++ [MStatus (r_id r) Rejected])) as Dn by now apply done_1.
      split; [|split; [|split]].
      * intros g J. exfalso. apply N1. apply in_keysN. eauto.
      * intros J. exfalso. now apply N2.
      * auto.
      * intros J. contradiction.
    + apply (ok_other ids (wait (r :: lim) s) (active s)); auto; try tauto.
      * exact (wait_lim r lim s id Ne).
      * intros m [<-|[]]. cbn. congruence.
  - change (length (wait lim (reject s (r_id r)))) with (length (wait lim s)).
    rewrite wait_len in F. unfold reject. proj. lia.
Qed.
Lemma J_accept ids r lim ev s : J ids (r :: lim) ev s -> J ids lim ev (accept s r).
Proof.
  intros I. destruct (J_lim_out _ _ _ _ _ I) as (N1 & N2 & Nd & Ji & Qt).
  pose proof (B_accept ev s r (j_b _ _ _ _ I)) as Bf. destruct I as [A C D E F].
  assert (wait lim (accept s r) = wait lim s) as Qw by (unfold wait; now rewrite accept_queue).
  rewrite wait_len in F.
  assert (forall id, In id (wait lim s) -> In id ids) as Dw.
  { intros id J. apply D. apply in_or_app. right. unfold wait in *. rewrite in_app_iff in *. cbn [map In]. tauto. }
  assert (forall id, In id (keysN (active s)) -> In id ids) as Da by (intros; apply D; apply in_or_app; auto).
  split; rewrite ?Qw; auto; clear Bf; unfold Action.accept;
    (destruct (mem N.eqb (r_id r) (active s)) eqn:M; [apply mem_in in M; contradiction|]);
    cbv zeta; proj; rewrite keys_insert_new by auto;
    assert (remove N.eqb (r_id r) (active s) = active s) as Qr
      by (apply remove_absent; now apply (lookup_None_keys N.eqb Neqb_spec'));
    assert (forall g, remove N.eqb (r_id r) ((r_id r, g) :: active s) = active s) as Qr2
      by (intros g0; unfold remove; cbn [filter fst]; rewrite N.eqb_refl; cbn [negb]; exact Qr).
  - destruct has_exec; [destruct (spawns r)|]; proj; rewrite ?Qr2; auto; cbn [keysN map fst app];
      constructor; auto; rewrite in_app_iff; tauto.
  - intros id J. destruct has_exec; [destruct (spawns r)|]; proj_in J; rewrite ?Qr2 in J;
      cbn [keysN map fst] in J; rewrite in_app_iff in J; cbn [In] in J; intuition (subst; auto).
  - intros id. destruct (N.eq_dec id (r_id r)) as [->|Ne].
    + destruct Qt as (Z1 & Z2 & Z3).
      assert (starts (r_id r) [MStatus (r_id r) Active] = 1) as S1.
      { unfold starts. cbn. destruct (N.eq_dec (r_id r) (r_id r)); [auto|contradiction]. }
      assert (starts (r_id r) [MStatus (r_id r) Aborted] = 0) as S0 by reflexivity.
      assert (forall g, g_abandoned g = false -> act_ok (r_id r) g (out s ++ [MStatus (r_id r) Active])) as AO.
      { intros g Ab. unfold act_ok. rewrite T_app, R_app, S_app, T_status, Z1, Z2, Z3, S1, Ab. cbn. auto. }
      assert (forall g, g_abandoned g = false ->
        ok ids (wait lim s) ((r_id r, g) :: active s) (out s ++ [MStatus (r_id r) Active]) (r_id r)) as OO.
      { intros g Ab. split; [|split; [|split]].
        - intros g' [Q|J]; [inv Q; now apply AO|exfalso; apply N1; apply in_keysN; eauto].
        - contradiction.
        - intros _ K _. exfalso. apply K. now left.
        - contradiction. }
      destruct has_exec; [destruct (spawns r)|]; proj; rewrite ?Qr2; try (apply OO; reflexivity).
      split; [|split; [|split]]; try contradiction.
      * intros g J. exfalso. apply N1. apply in_keysN. eauto.
      * intros _ _ _. unfold done. rewrite !T_app, !R_app, !S_app, !T_status, Z1, Z2, Z3, S1, S0. cbn. lia.
    + assert (forall a ms, (a = active s \/ exists g, a = (r_id r, g) :: active s) ->
        (forall m, In m ms -> about m = r_id r) -> ok ids (wait lim s) a (out s ++ ms) id) as OO.
      { intros a ms Ha Hm. apply (ok_other ids (wait (r :: lim) s) (active s)); auto; try tauto.
        - intros g'. destruct Ha as [-> | [g ->]]; [tauto|]. cbn [In]. intuition. congruence.
        - now apply wait_lim.
        - intros m Jm. rewrite (Hm m Jm). congruence. }
      destruct has_exec; [destruct (spawns r)|]; proj; rewrite ?Qr2, <- ?app_assoc; cbn [app];
        (apply OO; [first [now left | right; eexists; reflexivity] | cbn [In]; intuition (subst; auto)]).
  - destruct has_exec; [destruct (spawns r)|]; proj; rewrite ?Qr2; cbn [length]; lia.
Qed.
Lemma J_enqueue ids r ev s : J ids [r] ev s -> J ids [] ev (set_queue s (queue s ++ [r])).
Proof.
  intros [A C D E F].
  assert (wait [] (set_queue s (queue s ++ [r])) = wait [r] s) as Q.
  { unfold wait. proj. cbn [map]. now rewrite map_app, app_nil_r. }
  split; rewrite ?Q; proj; auto. now apply (B_same ev s).
Qed.
Lemma J_unqueue ids ev s : J ids [] ev s -> J ids (queue s) ev (set_queue s []).
Proof.
  intros [A C D E F].
  assert (wait (queue s) (set_queue s []) = wait [] s) as Q.
  { unfold wait. proj. cbn [map app]. now rewrite app_nil_r. }
  split; rewrite ?Q; proj; auto. now apply (B_same ev s).
Qed.
Lemma J_requeue ids q ev s : queue s = [] -> J ids q ev s -> J ids [] ev (set_queue s q).
Proof.
  intros Qs [A C D E F].
  assert (wait [] (set_queue s q) = wait q s) as Q.
  { unfold wait. proj. rewrite Qs. cbn [map app]. now rewrite app_nil_r. }
  split; rewrite ?Q; proj; auto. now apply (B_same ev s).
Qed.
Lemma J_queued ids ev q : forall s, queue s = [] -> J ids q ev s -> J ids [] ev (start_queued q s).
Proof.
  induction q as [|r q IH]; intros s Qs I; auto. cbn [Action.start_queued].
  destruct (has_slot s); [|now apply J_requeue].
  apply IH; [now rewrite accept_queue|now apply J_accept].
Qed.
Lemma J_flag ids lim ev s f id : (forall g, g_abandoned (f g) = g_abandoned g) ->
  J ids lim ev s -> J ids lim ev (set_active s (on_goal f id (active s))).
Proof.
  intros Kf [A C D E F].
  split; unfold wait in *; proj; rewrite ?keys_on_goal; auto.
  - apply (B_same ev s); auto. apply keys_on_goal.
  - intros i. destruct (E i) as (O1 & O2 & O3 & O4). split; [|split; [|split]]; auto.
    + intros g Jg. apply on_goal_in in Jg as ([i' g'] & Jg & Qi & [Q|Q]); cbn [fst snd] in *; subst.
      * inv Q. now apply O1.
      * unfold act_ok. rewrite Kf. now apply O1.
    + now rewrite keys_on_goal.
  - unfold on_goal. now rewrite map_length.
Qed.
Lemma len_remove id (a : list (N * goal)) : NoDup (keysN a) -> In id (keysN a) ->
  length a = S (length (remove N.eqb id a)).
Proof.
  induction a as [|p a IH]; intros Nd Ji; [destruct Ji|]. unfold remove in *. cbn [keysN map] in Nd. inv Nd.
  cbn [filter]. destruct (N.eqb_spec id (fst p)) as [->|Ne]; cbn [negb length].
  - fold (remove N.eqb (fst p) a). rewrite remove_absent; auto. now apply (lookup_None_keys N.eqb Neqb_spec').
  - f_equal. apply IH; auto. destruct Ji; [congruence|auto].
Qed.
(** A goal ends: its account closes with one result at most, one terminal status. *)
Lemma J_end ids lim e ev s f ms : ending e = true -> J ids lim (e :: ev) s ->
  active f = remove N.eqb (ev_id e) (active s) -> threads f = without (ev_id e) (threads s) ->
  live f = live s -> queue f = queue s -> out f = out s ++ ms -> (forall m, In m ms -> about m = ev_id e) ->
  terminals (ev_id e) ms = 1 -> results (ev_id e) ms <= 1 -> starts (ev_id e) ms = 0 ->
  received f = received s -> rejected f = rejected s ->
  succeeded f + aborted f + canceled f + preempted f = S (succeeded s + aborted s + canceled s + preempted s) ->
  J ids lim ev f.
Proof.
  intros En I Qa Qt Ql Qq Qo Km T1 R1 S0 Qr Qj Qs.
  pose proof (B_end ev e s f En (j_b _ _ _ _ I) Qa Qt Ql) as Bf. destruct I as [A C D E F].
  assert (In (ev_id e) (keysN (active s))) as Ja.
  { apply (b_ta _ _ A), (b_et _ _ A). now left. }
  assert (NoDup (keysN (active s))) as Nda by apply (b_nd _ _ A).
  assert (wait lim f = wait lim s) as Qw by (unfold wait; now rewrite Qq).
  assert (forall id, In id (keysN (active s)) -> In id (wait lim s) -> False) as Dj.
  { intros id J1 J2. clear - C J1 J2. induction (keysN (active s)) as [|k l IH]; [destruct J1|].
    cbn [app] in C. inv C. destruct J1 as [->|J1]; [|auto]. apply H1. apply in_or_app. now right. }
  split; auto; rewrite ?Qw, ?Qa.
  - clear - C. induction (active s) as [|p l IH]; auto. unfold remove. cbn [filter]. cbn [keysN map app] in C. inv C.
    fold (remove N.eqb (ev_id e) l). destruct (negb _); [|now apply IH].
    cbn [keysN map app]. constructor; [|now apply IH]. intros K. apply H1.
    apply in_app_or in K as [K|K]; apply in_or_app; [left|now right].
    fold (keysN (remove N.eqb (ev_id e) l)) in K. apply keys_rem in K. apply K.
  - intros id K. apply D. apply in_app_or in K as [K|K]; apply in_or_app; [left|now right].
    apply keys_rem in K. apply K.
  - intros id. rewrite Qo. destruct (N.eq_dec id (ev_id e)) as [->|Ne].
    + destruct (E (ev_id e)) as (O1 & O2 & O3 & O4).
      apply in_keysN in Ja as (g & Jg). destruct (O1 g Jg) as (Z1 & Z2 & Z3 & Z4).
      split; [|split; [|split]].
      * intros g' K. exfalso. assert (In (ev_id e) (keysN (remove N.eqb (ev_id e) (active s)))) as K2
          by (apply in_keysN; eauto). apply keys_rem in K2. now apply K2.
      * intros K. exfalso. apply (Dj (ev_id e)); auto. apply in_keysN. eauto.
      * intros _ _ _. unfold done. rewrite T_app, R_app, S_app, T1, S0, Z1, Z2, Z3.
        repeat split; try lia; [destruct (g_abandoned g); lia..|].
        intros To. rewrite (Z4 To). reflexivity.
      * intros K. exfalso. apply K, D. apply in_or_app. left. apply in_keysN. eauto.
    + apply (ok_other ids (wait lim s) (active s)); auto; try tauto.
      * intros g. split; intros K.
        -- now apply in_remove_goal in K.
        -- unfold remove. apply filter_In. split; auto. cbn [fst]. destruct (N.eqb_spec (ev_id e) id); [congruence|auto].
      * intros m K. rewrite (Km m K). congruence.
  - rewrite (len_remove (ev_id e) (active s)) in F by auto. lia.
Qed.
Lemma queue_complete_sum s o : 
  let f := match o with OSucceeded => count s 0 0 0 1 0 0 0 | OAborted => count s 0 0 0 0 1 0 0
           | OCanceled => count s 0 0 0 0 0 1 0 | OPreempted => count s 0 0 0 0 0 0 1 end in
  succeeded f + aborted f + canceled f + preempted f = S (succeeded s + aborted s + canceled s + preempted s).
Proof. destruct o; cbn; lia. Qed.
Lemma J_dispatch ids e ev s : J ids [] (e :: ev) s -> J ids [] ev (dispatch s e).
Proof.
  intros I. destruct e; cbn [Action.dispatch].
  - pose proof (B_dispatch ev _ s (j_b _ _ _ _ I)) as Bf. cbn [Action.dispatch] in Bf. destruct I as [A C D E F].
    split; auto. intros i. proj.
    assert (terminals i [MFeedback id x] = 0 /\ results i [MFeedback id x] = 0 /\ starts i [MFeedback id x] = 0)
      as (Z1 & Z2 & Z3) by (repeat split).
    destruct (E i) as (O1 & O2 & O3 & O4). unfold ok, act_ok, quiet, done in *.
    rewrite T_app, R_app, S_app, Z1, Z2, Z3, !Nat.add_0_r. auto.
  - unfold Action.complete. cbv zeta. unfold Action.process_queue. apply J_queued; [reflexivity|].
    apply J_unqueue. eapply (J_end ids [] (Completed id o) ev s);
      [reflexivity|exact I|destruct o; reflexivity|destruct o; reflexivity|destruct o; reflexivity
      |destruct o; reflexivity|destruct o; reflexivity| | | | |destruct o; proj; lia|destruct o; proj; lia|].
    + cbn [ev_id In]. intuition (subst; auto).
    + cbn [ev_id]. unfold terminals. cbn. rewrite N.eqb_refl. now destruct o.
    + cbn [ev_id]. unfold results. cbn. rewrite N.eqb_refl. cbn. lia.
    + cbn [ev_id]. unfold starts. cbn. now destruct o.
    + destruct o; proj; lia.
  - unfold Action.abort_silent. cbv zeta. unfold Action.process_queue. apply J_queued; [reflexivity|].
    apply J_unqueue. eapply (J_end ids [] (Panicked id) ev s);
      [reflexivity|exact I|reflexivity|reflexivity|reflexivity|reflexivity|reflexivity| | | | |proj; lia|proj; lia|].
    + cbn [ev_id In]. intuition (subst; auto).
    + cbn [ev_id]. unfold terminals. cbn. now rewrite N.eqb_refl.
    + cbn. lia.
    + reflexivity.
    + proj; lia.
Qed.

Lemma cancel_one_eq s id :
  cancel_one cancel_ok s id =
  match find (fun r => (r_id r =? id)%N) (queue s) with
  | Some _ =>
      if cancel_ok id then send (count (set_queue s (drop_first id (queue s))) 0 0 0 0 0 1 0) [MStatus id Canceled]
      else s
  | None => if mem N.eqb id (active s) && cancel_ok id then set_active s (on_goal ask_cancel id (active s)) else s
  end.
Proof. reflexivity. Qed.
Lemma drop_split id q r : find (fun r => (r_id r =? id)%N) q = Some r ->
  exists a b, q = a ++ r :: b /\ r_id r = id /\ drop_first id q = a ++ b.
Proof.
  induction q as [|x q IH]; cbn [find drop_first]; [discriminate|].
  destruct (N.eqb_spec (r_id x) id) as [E|E].
  - intros Q. inv Q. now exists [], q.
  - intros H. destruct (IH H) as (a & b & -> & E2 & ->). now exists (x :: a), b.
Qed.
Lemma J_cancel ids ev s id : J ids [] ev s -> J ids [] ev (cancel_one cancel_ok s id).
Proof.
  intros I. rewrite cancel_one_eq. destruct (find _ (queue s)) as [r|] eqn:Fd.
  - destruct (cancel_ok id); auto.
    apply drop_split in Fd as (a & b & Qq & Er & ->).
    assert (J ids [r] ev (set_queue s (a ++ b))) as I1.
    { destruct I as [A C D E F].
      assert (forall i, In i (wait [r] (set_queue s (a ++ b))) <-> In i (wait [] s)) as Kw.
      { intros i. unfold wait. proj. rewrite Qq, !map_app, !in_app_iff. cbn [map In]. tauto. }
      split; proj; auto.
      - now apply (B_same ev s).
      - apply (Permutation_NoDup (l := keysN (active s) ++ wait [] s)); auto.
        apply Permutation_app_head. unfold wait. proj. rewrite Qq, !map_app. cbn [map]. rewrite app_nil_r, <- app_assoc.
        apply Permutation_app_head. change (r_id r :: map r_id b) with ([r_id r] ++ map r_id b).
        apply Permutation_app_comm.
      - intros i K. apply D. rewrite in_app_iff in *. now rewrite Kw in K.
      - intros i. rewrite <- (app_nil_r (out s)). apply (ok_other ids (wait [] s) (active s)); auto; try tauto.
      - rewrite F. unfold wait. proj. rewrite Qq, !map_app, !app_length. cbn [map length]. lia. }
    pose proof (J_reject ids r [] ev _ I1) as [A C D E F].
    unfold reject in *. rewrite Er in *. split; auto.
    + apply (B_same ev _ _ A); reflexivity.
    + intros i. specialize (E i). destruct E as (O1 & O2 & O3 & O4). proj_in O1; proj_in O2; proj_in O3; proj_in O4.
      unfold ok, act_ok, quiet, done in *. proj.
      assert (terminals i [MStatus id Canceled] = terminals i [MStatus id Rejected]) as Q1
        by (unfold terminals; cbn; now destruct (id =? i)%N).
      assert (results i [MStatus id Canceled] = results i [MStatus id Rejected]) as Q2 by reflexivity.
      assert (starts i [MStatus id Canceled] = starts i [MStatus id Rejected]) as Q3 by reflexivity.
      rewrite T_app, R_app, S_app in *. rewrite Q1, Q2, Q3. auto.
    + proj_in F. proj. unfold wait in *. proj_in F. proj. lia.
  - destruct (_ && _); auto. apply J_flag; auto.
Qed.
Lemma T_abandon id l : terminals id (map (fun i => MStatus i Aborted) l) = count_occ N.eq_dec l id.
Proof.
  induction l as [|x l IH]; auto. cbn [map count_occ].
  change (MStatus x Aborted :: map (fun i => MStatus i Aborted) l) with ([MStatus x Aborted] ++ map (fun i => MStatus i Aborted) l).
  rewrite T_app, IH. unfold terminals. cbn. destruct (N.eq_dec x id) as [->|n]; [now rewrite N.eqb_refl|].
  destruct (N.eqb_spec x id); [contradiction|reflexivity].
Qed.
Lemma to_abandon_in s id : NoDup (keysN (active s)) ->
  (In id (to_abandon cfg order s) <-> exists g, In (id, g) (active s) /\ g_abandoned g = false
     /\ g_abandoned (time_out cfg s g) = true).
Proof.
  intros Nd. unfold to_abandon. rewrite in_map_iff. split.
  - intros ([i g] & Q & Jg). cbn in Q. subst i. apply filter_In in Jg as [Jg K]. cbn [snd] in K.
    apply (Permutation_in _ (ord (active s))) in Jg. exists g. split; auto.
    unfold time_out. destruct (g_abandoned g); [discriminate|]. destruct (g_signalled g); [|discriminate].
    auto.
  - intros (g & Jg & Ab & T). exists (id, g). split; auto. apply filter_In. split.
    + apply (Permutation_in _ (Permutation_sym (ord (active s)))), Jg.
    + cbn [snd]. unfold time_out in T. rewrite Ab in T |- *. destruct (g_signalled g).
      * cbn in T. now rewrite T.
      * destruct (over cfg s 1 g); [discriminate|]. congruence.
Qed.
Lemma to_abandon_nodup s : NoDup (keysN (active s)) -> NoDup (to_abandon cfg order s).
Proof.
  intros Nd. unfold to_abandon.
  assert (NoDup (map fst (order (active s)))) as N2.
  { apply (Permutation_NoDup (l := keysN (active s))); auto. apply Permutation_map, Permutation_sym, ord. }
  revert N2. generalize (order (active s)). induction l as [|p l IH]; cbn [map filter]; auto.
  intros N2. inv N2. destruct (_ && _); auto. cbn [map]. constructor; auto.
  intros K. apply H1. rewrite in_map_iff in *. destruct K as (q & Q & K). exists q. split; auto.
  now apply filter_In in K.
Qed.
Lemma nodup_key s id g g' : NoDup (keysN (active s)) -> In (id, g) (active s) -> In (id, g') (active s) -> g = g'.
Proof.
  intros Nd J1 J2. apply (In_lookup N.eqb Neqb_spec') in J1; auto. apply (In_lookup N.eqb Neqb_spec') in J2; auto.
  congruence.
Qed.
Lemma J_timeouts ids lim ev s : J ids lim ev s -> J ids lim ev (check_timeouts s).
Proof.
  intros [A C D E F]. pose proof (b_nd _ _ A) as Nd.
  assert (keysN (map (fun p : N * goal => (fst p, time_out cfg s (snd p))) (active s)) = keysN (active s)) as Qk.
  { unfold keysN. rewrite map_map. reflexivity. }
  unfold Action.check_timeouts. split; unfold wait in *; proj; rewrite ?Qk; auto.
  - apply (B_same ev s); auto.
  - intros id. set (ms := map (fun i => MStatus i Aborted) (to_abandon cfg order s)).
    assert (results id ms = 0) as R0.
    { unfold ms. generalize (to_abandon cfg order s). induction l; auto. }
    assert (starts id ms = 0) as S0.
    { unfold ms. generalize (to_abandon cfg order s). induction l; auto. }
    assert (terminals id ms = count_occ N.eq_dec (to_abandon cfg order s) id) as T0 by apply T_abandon.
    destruct (in_dec N.eq_dec id (to_abandon cfg order s)) as [Ji|Ni].
    + pose proof (proj1 (NoDup_count_occ' N.eq_dec _) (to_abandon_nodup s Nd) id Ji) as T1. rewrite T1 in T0.
      apply (to_abandon_in s id Nd) in Ji as (g & Jg & Ab & Ab').
      destruct (E id) as (O1 & O2 & O3 & O4). destruct (O1 g Jg) as (Z1 & Z2 & Z3 & Z4).
      assert (In id (keysN (active s))) as Jk by (apply in_keysN; eauto).
      assert (timeout cfg = None -> False) as To.
      { intros To. unfold time_out, over in Ab'. rewrite To, Ab in Ab'. destruct (g_signalled g); cbn in Ab'; congruence. }
      split; [|split; [|split]].
      * intros g' K. apply in_map_iff in K as ([i g2] & Q & K). cbn [fst snd] in Q. inv Q.
        rewrite (nodup_key s id g2 g Nd K Jg) in *. unfold act_ok. rewrite T_app, R_app, S_app, T0, R0, S0, Z1, Z2, Z3, Ab, Ab'.
        repeat split. intros X. now apply To in X.
      * intros K. exfalso. apply O2 in K. destruct K as (_ & _ & K). lia.
      * rewrite Qk. intros _ K. contradiction.
      * intros K. exfalso. apply K, D. apply in_or_app. auto.
    + assert (terminals id ms = 0) as T1. { rewrite T0. now apply count_occ_not_In. }
      destruct (E id) as (O1 & O2 & O3 & O4).
      unfold ok, act_ok, quiet, done in *. rewrite Qk, T_app, R_app, S_app, T1, R0, S0, !Nat.add_0_r.
      split; [|split; [|split]]; auto.
      intros g' K. apply in_map_iff in K as ([i g] & Q & K). cbn [fst snd] in Q. inv Q.
      destruct (O1 g K) as (Z1 & Z2 & Z3 & Z4).
      assert (g_abandoned (time_out cfg s g) = g_abandoned g) as Qa.
      { destruct (g_abandoned g) eqn:Ab.
        - unfold time_out. now rewrite Ab.
        - destruct (g_abandoned (time_out cfg s g)) eqn:Ab'; auto. exfalso. apply Ni.
          apply to_abandon_in; eauto. }
      rewrite Qa. auto.
  - now rewrite map_length.
Qed.
Lemma J_step ids s o s' : J ids [] (inbox s) s -> step s o = Some s' -> o <> Shutdown ->
  (forall r, o = Goal r -> ~ In (r_id r) ids) ->
  J (ids ++ goal_ids [o]) [] (inbox s') s'.
Proof.
  intros I H Ns Nw.
  assert (goal_ids [o] = [] -> J ids [] (inbox s') s' -> J (ids ++ goal_ids [o]) [] (inbox s') s') as Nil.
  { intros ->. now rewrite app_nil_r. }
  pose proof (B_step s o s' (j_b _ _ _ _ I) H) as Bf.
  destruct o; cbn [Action.step] in H; try (apply Nil; [reflexivity|]); clear Nil.
  - inv H. specialize (Nw r eq_refl). change (goal_ids [Goal r]) with [r_id r].
    pose proof (J_receive ids [] (inbox s) s r I Nw) as I1. revert Bf.
    unfold Action.handle_goal. cbv zeta. set (s1 := count s 1 0 0 0 0 0 0) in *. intros Bf.
    assert (inbox s1 = inbox s) as Qi by reflexivity.
    assert (J (ids ++ [r_id r]) [] (inbox s) (reject s1 (r_id r))) as Ir by now apply J_reject.
    assert (forall i, J (ids ++ [r_id r]) [] (inbox (accept (preempt s1 i) r)) (accept (preempt s1 i) r)) as Ip.
    { intros i. rewrite accept_inbox. apply J_accept. now apply J_flag. }
    destruct (negb _); auto.
    destruct (has_slot s1); [rewrite accept_inbox; now apply J_accept|].
    destruct (pol cfg); auto.
    + destruct (0 <? _); auto. destruct (oldest _ _); auto.
    + destruct (lowest _ _) as [[i pr]|]; auto. destruct (_ <? _)%N; auto.
    + destruct (_ <? _); auto. now apply J_enqueue.
  - revert H I. clear Bf. apply (cancel_pres (fun s => J ids [] (inbox s) s)). intros s0 i I.
    destruct (cancel_one_threads s0 i) as (_ & _ & -> & _). now apply J_cancel.
  - inv H. revert I. clear Bf. apply (drain_pres (J ids [])).
    + intros e ev s1. apply J_dispatch.
    + intros ev s1 I. apply (J_same ids [] ev s1); auto. apply (B_same ev s1); auto. apply I.
  - inv H. now apply J_timeouts.
  - inv H. now apply (J_same ids [] (inbox s) s).
  - inv H. destruct (existsb _ _); [|exact I].
    destruct I as [A C D E F]. split; auto.
  - inv H. destruct (existsb _ _); [|exact I].
    destruct I as [A C D E F]. split; auto.
  - contradiction.
Qed.

Lemma goal_ids_cons o ops : goal_ids (o :: ops) = goal_ids [o] ++ goal_ids ops.
Proof. unfold goal_ids. cbn [flat_map]. now rewrite app_nil_r. Qed.
Lemma J_run ops : forall ids s s', J ids [] (inbox s) s -> run s ops = Some s' -> no_shutdown ops ->
  NoDup (ids ++ goal_ids ops) -> J (ids ++ goal_ids ops) [] (inbox s') s'.
Proof.
  induction ops as [|o ops IH]; intros ids s s' I H Ns Nd; cbn [Action.run] in H.
  - inv H. cbn. now rewrite app_nil_r.
  - destruct (step s o) as [s1|] eqn:E; [|discriminate]. rewrite goal_ids_cons, app_assoc in *.
    apply (IH _ s1); auto.
    + apply (J_step ids s o s1); auto.
      * intros ->. apply Ns. now left.
      * intros r -> K. rewrite <- app_assoc in Nd. apply NoDup_remove_2 in Nd. apply Nd.
        apply in_or_app. now left.
    + intros K. apply Ns. now right.
Qed.
Lemma B_start : B [] start.
Proof. split; cbn; try tauto; constructor. Qed.
Lemma J_start : J [] [] [] start.
Proof.
  split.
  - apply B_start.
  - constructor.
  - intros id [].
  - intros id. split; [intros g []|]. split; [intros []|]. split; [intros []|]. intros _. now repeat split.
  - reflexivity.
Qed.
Lemma B_run ops s' : run start ops = Some s' -> B (inbox s') s'.
Proof.
  apply (run_pres (fun s => B (inbox s) s)); [|apply B_start]. intros s o s1. apply B_step.
Qed.

(** ** A goal that is over stays over *)
Record Z (id : N) (o0 : list msg) (lim : list req) (ev : list inbox_event) (s : srv) : Prop := {
  z_a : ~ In id (keysN (active s));
  z_w : ~ In id (wait lim s);
  z_l : ~ In id (live s);
  z_e : forall e, In e ev -> ev_id e <> id;
  z_o : exists ms, out s = o0 ++ ms /\ forall m, In m ms -> about m <> id }.
Lemma Z_send id o0 lim ev s f ms : Z id o0 lim ev s -> keysN (active f) = keysN (active s) -> queue f = queue s ->
  live f = live s -> out f = out s ++ ms -> (forall m, In m ms -> about m <> id) -> Z id o0 lim ev f.
Proof.
  intros [A C D E (m0 & F & K)] Qa Qq Ql Qo Km. unfold wait in *. split; unfold wait; rewrite ?Qa, ?Qq, ?Ql; auto.
  exists (m0 ++ ms). split; [now rewrite Qo, F, app_assoc|].
  intros m Jm. apply in_app_or in Jm as [Jm|Jm]; auto.
Qed.
Lemma Z_accept id o0 r lim ev s : Z id o0 (r :: lim) ev s -> Z id o0 lim ev (accept s r).
Proof.
  intros [A C D E (m0 & F & K)].
  assert (r_id r <> id) as Ne.
  { intros Q. apply C. unfold wait. apply in_or_app. right. now left. }
  assert (~ In id (wait lim s)) as Cw.
  { intros Q. apply C. unfold wait in *. rewrite in_app_iff in *. cbn [map In]. tauto. }
  assert (wait lim (accept s r) = wait lim s) as Qw by (unfold wait; now rewrite accept_queue).
  split; rewrite ?Qw; auto; unfold Action.accept; destruct (mem N.eqb (r_id r) (active s)) eqn:M; proj; auto;
    try apply mem_out in M; cbv zeta; proj; rewrite ?keys_insert_new by auto.
  - assert (forall g, remove N.eqb (r_id r) ((r_id r, g) :: active s) = active s) as Qr2.
    { intros g0; unfold remove; cbn [filter fst]; rewrite N.eqb_refl; cbn [negb].
      fold (remove N.eqb (r_id r) (active s)). apply remove_absent. now apply (lookup_None_keys N.eqb Neqb_spec'). }
    destruct has_exec; [destruct (spawns r)|]; proj; rewrite ?Qr2; auto; cbn [keysN map fst In]; tauto.
  - destruct has_exec; [destruct (spawns r)|]; proj; auto. cbn [In]. tauto.
  - exists (m0 ++ [MStatus (r_id r) Rejected]). split; [now rewrite F, app_assoc|].
    intros m Jm. apply in_app_or in Jm as [Jm|[<-|[]]]; auto.
  - assert (forall ms, (forall m, In m ms -> about m = r_id r) ->
      exists ms', out s ++ ms = o0 ++ ms' /\ (forall m, In m ms' -> about m <> id)) as Ex.
    { intros ms Km. exists (m0 ++ ms). split; [now rewrite F, app_assoc|].
      intros m Jm. apply in_app_or in Jm as [Jm|Jm]; auto. rewrite (Km m Jm). auto. }
    destruct has_exec; [destruct (spawns r)|]; proj; rewrite <- ?app_assoc; cbn [app]; apply Ex; cbn [In];
      intuition (subst; auto).
Qed.
Lemma Z_lim id o0 lim lim' ev s f : Z id o0 lim ev s -> active f = active s -> live f = live s -> out f = out s ->
  (forall i, In i (wait lim' f) -> In i (wait lim s)) -> Z id o0 lim' ev f.
Proof. intros [A C D E F] Qa Ql Qo K. split; rewrite ?Qa, ?Ql, ?Qo; auto. Qed.
Lemma Z_queued id o0 ev q : forall s, queue s = [] -> Z id o0 q ev s -> Z id o0 [] ev (start_queued q s).
Proof.
  induction q as [|r q IH]; intros s Qs I; auto. cbn [Action.start_queued].
  destruct (has_slot s).
  - apply IH; [now rewrite accept_queue|now apply Z_accept].
  - apply (Z_lim id o0 (r :: q) _ ev s); auto. unfold wait. rewrite Qs. proj. intros i.
    cbn [map app]. now rewrite app_nil_r.
Qed.
Lemma Z_process id o0 ev s : Z id o0 [] ev s -> Z id o0 [] ev (process_queue s).
Proof.
  intros I. unfold Action.process_queue. apply Z_queued; [reflexivity|].
  apply (Z_lim id o0 [] _ ev s); auto. unfold wait. proj. cbn [map app]. intros i. now rewrite app_nil_r.
Qed.
Lemma Z_dispatch id o0 e ev s : Z id o0 [] (e :: ev) s -> Z id o0 [] ev (dispatch s e).
Proof.
  intros I. pose proof (z_e _ _ _ _ _ I e (or_introl eq_refl)) as Ne.
  assert (Z id o0 [] ev s) as I0.
  { destruct I as [A C D E F]. split; auto. intros e' K. apply E. now right. }
  assert (forall f ms, active f = remove N.eqb (ev_id e) (active s) -> queue f = queue s -> live f = live s ->
    out f = out s ++ ms -> (forall m, In m ms -> about m = ev_id e) -> Z id o0 [] ev f) as Rm.
  { intros f ms Qa Qq Ql Qo Km. destruct I0 as [A C D E (m0 & F & K)]. unfold wait in *. split; unfold wait; rewrite ?Qa, ?Qq, ?Ql; auto.
    - intros K2. apply A. apply keys_rem in K2. apply K2.
    - exists (m0 ++ ms). split; [now rewrite Qo, F, app_assoc|].
      intros m Jm. apply in_app_or in Jm as [Jm|Jm]; auto. rewrite (Km m Jm). auto. }
  destruct e; cbn [Action.dispatch ev_id] in *.
  - apply (Z_send id o0 [] ev s _ [MFeedback id0 x]); auto. intros m [<-|[]]. auto.
  - unfold Action.complete. cbv zeta. apply Z_process.
    apply (Rm _ [MResult id0 (outcome_status o); MStatus id0 (outcome_status o)]);
      try (destruct o; reflexivity). cbn [In]. intuition (subst; auto).
  - unfold Action.abort_silent. cbv zeta. apply Z_process. apply (Rm _ [MStatus id0 Aborted]); try reflexivity.
    intros m [<-|[]]. auto.
Qed.
Lemma Z_cancel id o0 ev s i : Z id o0 [] ev s -> Z id o0 [] ev (cancel_one cancel_ok s i).
Proof.
  intros I. rewrite cancel_one_eq. destruct (find _ (queue s)) as [r|] eqn:Fd.
  - destruct (cancel_ok i); auto.
    apply drop_split in Fd as (a & b & Qq & Er & ->).
    assert (i <> id) as Ne.
    { intros ->. apply (z_w _ _ _ _ _ I). unfold wait. rewrite Qq, map_app. apply in_or_app. left. apply in_or_app. right.
      left. auto. }
    assert (Z id o0 [] ev (set_queue s (a ++ b))) as I1.
    { apply (Z_lim id o0 [] _ ev s); auto. intros k. unfold wait. proj. rewrite Qq, !map_app, !in_app_iff. cbn [map In]. tauto. }
    apply (Z_send id o0 [] ev _ _ [MStatus i Canceled] I1); auto. intros m [<-|[]]. auto.
  - destruct (_ && _); auto. apply (Z_send id o0 [] ev s _ []); auto.
    + apply keys_on_goal.
    + proj. now rewrite app_nil_r.
Qed.
Lemma Z_step id o0 s o s' : B (inbox s) s -> Z id o0 [] (inbox s) s -> step s o = Some s' ->
  (forall r, o = Goal r -> r_id r <> id) -> Z id o0 [] (inbox s') s'.
Proof.
  intros Bs I H Nw. destruct o; cbn [Action.step] in H.
  - inv H. specialize (Nw r eq_refl).
    unfold Action.handle_goal. cbv zeta. set (s1 := count s 1 0 0 0 0 0 0) in *.
    assert (Z id o0 [r] (inbox s) s1) as I1.
    { destruct I as [A C D E F]. split; auto. unfold wait in *. rewrite in_app_iff in *. cbn [map In] in *. tauto. }
    assert (Z id o0 [] (inbox s) s1) as I0 by (apply (Z_lim id o0 [] _ (inbox s) s); auto).
    assert (Z id o0 [] (inbox s) (reject s1 (r_id r))) as Ir.
    { apply (Z_send id o0 [] (inbox s) s1 _ [MStatus (r_id r) Rejected]); auto. intros m [<-|[]]. auto. }
    assert (forall i, Z id o0 [] (inbox (accept (preempt s1 i) r)) (accept (preempt s1 i) r)) as Ip.
    { intros i. rewrite accept_inbox. apply Z_accept. apply (Z_send id o0 [r] (inbox s) s1 _ []); auto.
      - apply keys_on_goal.
      - proj. now rewrite app_nil_r. }
    destruct (negb _); auto.
    destruct (has_slot s1); [rewrite accept_inbox; now apply Z_accept|].
    destruct (pol cfg); auto.
    + destruct (0 <? _); auto. destruct (oldest _ _); auto.
    + destruct (lowest _ _) as [[i pr]|]; auto. destruct (_ <? _)%N; auto.
    + destruct (_ <? _); auto. apply (Z_lim id o0 [r] _ (inbox s) s1); auto.
      intros k. unfold wait. proj. rewrite map_app, app_nil_r. auto.
  - revert H I. apply (cancel_pres (fun s => Z id o0 [] (inbox s) s)). intros s0 i I.
    destruct (cancel_one_threads s0 i) as (_ & _ & -> & _). now apply Z_cancel.
  - inv H. revert I. apply (drain_pres (Z id o0 [])).
    + intros e ev s1. apply Z_dispatch.
    + intros ev s1 I. apply (Z_lim id o0 [] _ ev s1); auto.
  - inv H. unfold Action.check_timeouts. eapply (Z_send id o0 [] (inbox s) s); auto.
    + unfold keysN. proj. rewrite map_map. reflexivity.
    + proj. reflexivity.
    + intros m Jm. apply in_map_iff in Jm as (i & <- & Jm). cbn. intros ->.
      apply (to_abandon_in s id (b_nd _ _ Bs)) in Jm as (g & Jg & _). apply (z_a _ _ _ _ _ I).
      apply in_keysN. eauto.
  - inv H. apply (Z_lim id o0 [] _ (inbox s) s); auto.
  - inv H. destruct (existsb (N.eqb id0) (live s)) eqn:L; [|exact I]. apply existsb_in in L.
    destruct I as [A C D E F]. split; auto. proj. intros e K. apply in_app_or in K as [K|[<-|[]]]; auto.
    cbn. intros ->. auto.
  - inv H. destruct (existsb (N.eqb id0) (live s)) eqn:L; [|exact I]. apply existsb_in in L.
    destruct I as [A C D E F]. split; auto; proj.
    + intros K. apply in_without in K. tauto.
    + intros e K. apply in_app_or in K as [K|[<-|[]]]; auto. destruct o; cbn; intros ->; auto.
  - inv H. destruct I as [A C D E F]. split; cbn; auto.
Qed.
Lemma Z_run id o0 ops : forall s s', B (inbox s) s -> Z id o0 [] (inbox s) s -> run s ops = Some s' ->
  ~ In id (goal_ids ops) -> Z id o0 [] (inbox s') s'.
Proof.
  induction ops as [|o ops IH]; intros s s' Bs I H N; cbn [Action.run] in H; [now inv H|].
  destruct (step s o) as [s1|] eqn:E; [|discriminate]. rewrite goal_ids_cons, in_app_iff in N.
  apply (IH s1); auto.
  - now apply (B_step s o).
  - apply (Z_step id o0 s o); auto. intros r -> Q. apply N. left. now left.
Qed.
Lemma Z_intro id s : B (inbox s) s -> ~ In id (keysN (active s)) -> ~ In id (map r_id (queue s)) ->
  Z id (out s) [] (inbox s) s.
Proof.
  intros Bs Na Nq. split; auto.
  - unfold wait. cbn [map]. now rewrite app_nil_r.
  - intros K. apply Na, (b_ta _ _ Bs), (b_lt _ _ Bs), K.
  - intros e K <-. apply Na, (b_ta _ _ Bs), (b_et _ _ Bs), K.
  - exists []. split; [now rewrite app_nil_r|intros m []].
Qed.

(** ** Queued goals start in order *)
Lemma sub_refl {A} (l : list A) : sublist l l.
Proof. induction l; constructor; auto. Qed.
Lemma sub_app {A} (a b c d : list A) : sublist a b -> sublist c d -> sublist (a ++ c) (b ++ d).
Proof.
  intros H K. induction H as [m|x l m H IH|x l m H IH]; cbn [app]; try (constructor; auto).
  induction m as [|y m IH]; cbn [app]; [auto|now constructor].
Qed.
Lemma sub_nil_r {A} (l : list A) : sublist l [] -> l = [].
Proof. intros H. now inv H. Qed.
Lemma sub_trans {A} (a b c : list A) : sublist a b -> sublist b c -> sublist a c.
Proof.
  intros H K. revert a H. induction K as [m|x l m K IH|x l m K IH]; intros a H.
  - apply sub_nil_r in H as ->. constructor.
  - inv H; constructor; auto.
  - constructor; auto.
Qed.
Lemma sub_app_l {A} (a b : list A) : sublist a (a ++ b).
Proof. rewrite <- (app_nil_r a) at 1. apply sub_app; [apply sub_refl|constructor]. Qed.
Definition is_queue : Prop := match pol cfg with Queue _ => True | _ => False end.
Definition none_gone (s : srv) : Prop := forall p, In p (active s) -> g_abandoned (snd p) = false.
Definition fifo (ids : list N) (lim : list req) (s : srv) : Prop :=
  sublist (started (out s) ++ wait lim s) ids /\ none_gone s /\ (queue s <> [] -> is_queue).
Definition full_if (s : srv) : Prop := queue s <> [] -> has_slot s = false.
Lemma none_gone_accept s r : none_gone s -> none_gone (accept s r).
Proof.
  intros K p Jp. destruct (accept_active s r) as [Q|(g & Q & _ & _ & Ab & _)]; rewrite Q in Jp; auto.
  destruct Jp as [<-|Jp]; auto.
Qed.
Lemma fifo_accept ids r s lim : queue s = [] -> fifo ids (r :: lim) s -> fifo ids lim (accept s r).
Proof.
  intros Qs (Sb & Ng & Iq). split; [|split].
  - assert (exists x, started (out (accept s r)) = started (out s) ++ x /\ (x = [] \/ x = [r_id r])) as (x & Qx & Hx).
    { unfold Action.accept. destruct (mem _ _ _); [|destruct has_exec; [destruct (spawns r)|]]; proj;
        rewrite !started_app; cbn; eexists; split; rewrite <- ?app_assoc; try reflexivity; auto. }
    unfold wait in *. rewrite accept_queue, Qs, Qx, <- app_assoc in *. cbn [map app] in *.
    apply (sub_trans _ (started (out s) ++ r_id r :: map r_id lim)); auto.
    apply sub_app; [apply sub_refl|]. destruct Hx as [-> | ->]; cbn [app].
    + constructor. apply sub_refl.
    + apply sub_refl.
  - now apply none_gone_accept.
  - rewrite accept_queue. auto.
Qed.
Lemma fifo_queued ids q : (q <> [] -> is_queue) -> forall s, queue s = [] -> fifo ids q s ->
  fifo ids [] (start_queued q s) /\ full_if (start_queued q s).
Proof.
  induction q as [|r q IH]; intros Pq s Qs I.
  - cbn [Action.start_queued]. split; auto. unfold full_if. now rewrite Qs.
  - cbn [Action.start_queued]. destruct (has_slot s) eqn:Hs.
    + apply IH; [intros _; apply Pq; discriminate|now rewrite accept_queue|now apply fifo_accept].
    + split; [|intros _; exact Hs]. destruct I as (Sb & Ng & Iq). split; [|split]; auto.
      unfold wait in *. proj. rewrite Qs in Sb. cbn [map app] in *. now rewrite app_nil_r.
Qed.
Lemma fifo_process ids s : fifo ids [] s -> fifo ids [] (process_queue s) /\ full_if (process_queue s).
Proof.
  intros (Sb & Ng & Iq). unfold Action.process_queue. apply fifo_queued; auto; [].
  split; [|split]; auto. unfold wait in *. proj. cbn [map app] in *. now rewrite app_nil_r in Sb.
Qed.
Lemma fifo_same ids s f : fifo ids [] s -> active f = active s -> queue f = queue s ->
  started (out f) = started (out s) -> fifo ids [] f.
Proof.
  intros (Sb & Ng & Iq) Qa Qq Qo. unfold fifo, none_gone, wait in *. rewrite Qa, Qq, Qo. auto.
Qed.
Lemma full_same s f : full_if s -> active f = active s -> queue f = queue s -> full_if f.
Proof. unfold full_if, Action.has_slot. rewrite !occ_cnt. now intros K -> ->. Qed.
Lemma fifo_step ids s o s' : timeout cfg = None -> fifo ids [] s -> full_if s -> step s o = Some s' ->
  fifo (ids ++ goal_ids [o]) [] s' /\ full_if s'.
Proof.
  intros To I Fu H.
  assert (goal_ids [o] = [] -> fifo ids [] s' /\ full_if s' -> fifo (ids ++ goal_ids [o]) [] s' /\ full_if s') as Nil.
  { intros ->. now rewrite app_nil_r. }
  destruct o; cbn [Action.step] in H; try (apply Nil; [reflexivity|]); clear Nil.
  - inv H. change (goal_ids [Goal r]) with [r_id r].
    unfold Action.handle_goal. cbv zeta. set (s1 := count s 1 0 0 0 0 0 0) in *.
    assert (fifo (ids ++ [r_id r]) [] s1) as I0.
    { destruct I as (Sb & Ng & Iq). split; [|split]; auto.
      apply (sub_trans _ ids); auto. apply sub_app_l. }
    assert (fifo (ids ++ [r_id r]) [r] s1) as I1.
    { destruct I as (Sb & Ng & Iq). split; [|split]; auto. unfold wait in *. unfold s1. proj. cbn [map] in *.
      rewrite app_nil_r in Sb. rewrite app_assoc. apply sub_app; auto. apply sub_refl. }
    assert (full_if s1) as F1 by now apply (full_same s).
    assert (fifo (ids ++ [r_id r]) [] (reject s1 (r_id r)) /\ full_if (reject s1 (r_id r))) as Ir.
    { split; [|now apply (full_same s1)]. apply (fifo_same _ s1); auto. unfold reject. proj.
      rewrite started_app. cbn. now rewrite app_nil_r. }
    assert (forall s2, queue s2 = [] -> fifo (ids ++ [r_id r]) [r] s2 ->
      fifo (ids ++ [r_id r]) [] (accept s2 r) /\ full_if (accept s2 r)) as Ac.
    { intros s2 Q2 I2. split; [now apply fifo_accept|]. unfold full_if. rewrite accept_queue, Q2. tauto. }
    destruct (negb _); auto.
    destruct (has_slot s1) eqn:Hs.
    { apply Ac; auto. destruct (queue s1) eqn:Q; auto. rewrite F1 in Hs; [discriminate|]. rewrite Q. discriminate. }
    assert (forall i, queue s1 = [] -> fifo (ids ++ [r_id r]) [] (accept (preempt s1 i) r) /\ full_if (accept (preempt s1 i) r)) as Ip.
    { intros i Q. apply Ac; auto. destruct I1 as (Sb & Ng & Iq). split; [|split]; auto.
      intros p Jp. unfold preempt in Jp. proj_in Jp. apply on_goal_in in Jp as (q & Jq & _ & [-> | ->]); auto. now apply (Ng q). }
    assert (~ is_queue -> queue s1 = []) as Nq.
    { intros K. destruct I1 as (_ & _ & Iq). destruct (queue s1); auto. exfalso. apply K, Iq. discriminate. }
    unfold is_queue in Nq. destruct (pol cfg) eqn:Pl; auto.
    + destruct (0 <? _); auto. destruct (oldest _ _); auto.
    + destruct (lowest _ _) as [[i pr]|]; auto. destruct (_ <? _)%N; auto.
    + destruct (_ <? _); auto. split.
      * destruct I1 as (Sb & Ng & Iq). split; [|split]; auto.
        -- unfold wait in *. proj. rewrite map_app, app_nil_r. auto.
        -- intros _. unfold is_queue. now rewrite Pl.
      * intros _. exact Hs.
  - revert H. intros H. assert (fifo ids [] s /\ full_if s) as K by auto. revert H K.
    apply (cancel_pres (fun s => fifo ids [] s /\ full_if s)). clear. intros s i (I & Fu).
    rewrite cancel_one_eq. destruct (find _ (queue s)) as [r|] eqn:Fd.
    + destruct (cancel_ok i); auto. apply drop_split in Fd as (a & b & Qq & Er & ->).
      destruct I as (Sb & Ng & Iq). split; [split; [|split]|]; auto.
      * proj. rewrite started_app. cbn [started flat_map]. rewrite app_nil_r.
        apply (sub_trans _ (started (out s) ++ wait [] s)); auto. apply sub_app; [apply sub_refl|].
        unfold wait. proj. rewrite Qq, !map_app. cbn [map]. rewrite !app_nil_r. apply sub_app; [apply sub_refl|].
        constructor. apply sub_refl.
      * intros _. apply Iq. rewrite Qq. now destruct a.
      * intros _. apply Fu. rewrite Qq. now destruct a.
    + destruct (_ && _); auto. destruct I as (Sb & Ng & Iq). split; [split; [|split]|]; auto.
      * intros p Jp. proj_in Jp. apply on_goal_in in Jp as (q & Jq & _ & [-> | ->]); auto. now apply (Ng q).
      * intros K. specialize (Fu K). unfold Action.has_slot in *. rewrite occ_cnt in *. proj. rewrite cnt_on_goal; auto.
  - inv H. unfold Action.drain.
    assert (fifo ids [] (set_threads s (threads s) (live s) []) /\ full_if (set_threads s (threads s) (live s) []))
      as F0 by (split; [now apply (fifo_same ids s)|now apply (full_same s)]).
    revert F0. generalize (set_threads s (threads s) (live s) []). generalize (inbox s). clear I Fu.
    induction l as [|e l IH]; intros s0 F0; auto. cbn [fold_left]. apply IH. destruct F0 as (I & Fu).
    assert (forall f i, active f = remove N.eqb i (active s0) -> queue f = queue s0 ->
      started (out f) = started (out s0) -> fifo ids [] f) as Rm.
    { intros f i Qa Qq Qo. destruct I as (Sb & Ng & Iq). unfold fifo, none_gone, wait in *. rewrite Qa, Qq, Qo.
      split; [|split]; auto. intros p Jp. apply Ng. now apply in_remove_goal in Jp. }
    destruct e; cbn [Action.dispatch].
    + split; [|now apply (full_same s0)]. apply (fifo_same ids s0); auto. proj.
      rewrite started_app. cbn. now rewrite app_nil_r.
    + unfold Action.complete. cbv zeta. apply fifo_process.
      apply (Rm _ id); destruct o; auto; proj; rewrite started_app; cbn; now rewrite app_nil_r.
    + unfold Action.abort_silent. cbv zeta. apply fifo_process.
      apply (Rm _ id); auto; proj; rewrite started_app; cbn; now rewrite app_nil_r.
  - inv H. destruct I as (Sb & Ng & Iq).
    assert (forall p, In p (active s) -> g_abandoned (time_out cfg s (snd p)) = false) as Id.
    { intros p Jp. pose proof (Ng p Jp) as Ab. unfold time_out, over. rewrite To, Ab. now destruct (g_signalled (snd p)). }
    assert (to_abandon cfg order s = []) as Q0.
    { unfold to_abandon, over. rewrite To. induction (order (active s)) as [|p l IH]; auto. cbn [filter].
      rewrite andb_false_r. exact IH. }
    unfold Action.check_timeouts. rewrite Q0. cbn [map]. split; [split; [|split]|].
    + proj. now rewrite app_nil_r.
    + intros p Jp. proj_in Jp. apply in_map_iff in Jp as (q & <- & Jq). cbn [snd]. now apply Id.
    + auto.
    + intros K. specialize (Fu K). unfold Action.has_slot in *. destruct (max_goals cfg); auto.
      rewrite (occ_all s Ng) in Fu. rewrite occ_all; proj; [now rewrite map_length|].
      intros p Jp. apply in_map_iff in Jp as (q & <- & Jq). cbn [snd]. now apply Id.
  - inv H. split; [now apply (fifo_same ids s)|now apply (full_same s)].
  - inv H. destruct (existsb _ _); (split; [now apply (fifo_same ids s)|now apply (full_same s)]).
  - inv H. destruct (existsb _ _); (split; [now apply (fifo_same ids s)|now apply (full_same s)]).
  - inv H. destruct I as (Sb & Ng & Iq). split; [split; [|split]|]; cbn; auto; try tauto.
    + apply (sub_trans _ (started (out s) ++ wait [] s)); auto. apply sub_app; [apply sub_refl|constructor].
    + unfold none_gone. cbn. tauto.
    + intros K. contradiction.
Qed.
Lemma fifo_run ops : timeout cfg = None -> forall ids s s', fifo ids [] s -> full_if s -> run s ops = Some s' ->
  fifo (ids ++ goal_ids ops) [] s' /\ full_if s'.
Proof.
  intros To. induction ops as [|o ops IH]; intros ids s s' I Fu H; cbn [Action.run] in H.
  - inv H. cbn. now rewrite app_nil_r.
  - destruct (step s o) as [s1|] eqn:E; [|discriminate]. rewrite goal_ids_cons, app_assoc.
    destruct (fifo_step ids s o s1 To I Fu E). now apply (IH _ s1).
Qed.

(** ** Timeouts *)
Definition sig (id st : N) (s : srv) : Prop :=
  (st < now s)%N /\ forall g, In (id, g) (active s) -> g_start g = st -> g_signalled g = true.
Lemma accept_now s r : now (accept s r) = now s.
Proof. unfold Action.accept. destruct (mem _ _ _); auto. destruct has_exec; auto. destruct (spawns r); auto. Qed.
Lemma sig_accept id st s r : sig id st s -> sig id st (accept s r).
Proof.
  intros [L K]. split; [now rewrite accept_now|]. intros g Jg E.
  destruct (accept_active s r) as [Q|(g0 & Q & _ & _ & _ & Sg & _)]; rewrite Q in Jg; [now apply K|].
  destruct Jg as [X|Jg]; [|now apply K]. inv X. lia.
Qed.
Lemma sig_sub id st s f : sig id st s -> now f = now s -> (forall p, In p (active f) -> In p (active s)) -> sig id st f.
Proof. intros [L K] Qn Qa. split; [now rewrite Qn|]. intros g Jg. apply K. now apply Qa. Qed.
Lemma sig_flag id st s f i h : sig id st s -> (forall g, g_start (h g) = g_start g /\ g_signalled (h g) = g_signalled g) ->
  now f = now s -> active f = on_goal h i (active s) -> sig id st f.
Proof.
  intros [L K] Kh Qn Qa. split; [now rewrite Qn|]. intros g Jg E. rewrite Qa in Jg.
  apply on_goal_in in Jg as ([k g'] & Jg & Qk & [Q|Q]); cbn [fst snd] in *; subst.
  - inv Q. now apply K.
  - destruct (Kh g') as [A1 A2]. rewrite A1 in *. rewrite A2. now apply K.
Qed.
Lemma sig_queued id st q : forall s, sig id st s -> sig id st (start_queued q s).
Proof.
  induction q as [|r q IH]; intros s I; auto. cbn [Action.start_queued].
  destruct (has_slot s); [apply IH, sig_accept, I|now apply (sig_sub id st s)].
Qed.
Lemma sig_step id st s o s' : sig id st s -> step s o = Some s' -> sig id st s'.
Proof.
  intros I H. destruct o; cbn [Action.step] in H.
  - inv H. unfold Action.handle_goal. cbv zeta. set (s1 := count s 1 0 0 0 0 0 0) in *.
    assert (sig id st s1) as I1 by now apply (sig_sub id st s).
    assert (sig id st (reject s1 (r_id r))) as Ir by now apply (sig_sub id st s1).
    assert (forall i, sig id st (accept (preempt s1 i) r)) as Ip.
    { intros i. apply sig_accept. apply (sig_flag id st s1 _ i ask_preempt); auto. }
    destruct (negb _); auto. destruct (has_slot s1); [now apply sig_accept|].
    destruct (pol cfg); auto.
    + destruct (0 <? _); auto. destruct (oldest _ _); auto.
    + destruct (lowest _ _) as [[i pr]|]; auto. destruct (_ <? _)%N; auto.
    + destruct (_ <? _); now apply (sig_sub id st s1).
  - revert H I. apply (cancel_pres (sig id st)). intros s0 i I. rewrite cancel_one_eq.
    destruct (find _ _); [destruct (cancel_ok i); auto; now apply (sig_sub id st s0)|].
    destruct (_ && _); auto. apply (sig_flag id st s0 _ i ask_cancel); auto.
  - inv H. unfold Action.drain.
    assert (sig id st (set_threads s (threads s) (live s) [])) as F0 by now apply (sig_sub id st s).
    revert F0. generalize (set_threads s (threads s) (live s) []). generalize (inbox s). clear I.
    induction l as [|e l IH]; intros s0 F0; auto. cbn [fold_left]. apply IH.
    destruct e; cbn [Action.dispatch].
    + now apply (sig_sub id st s0).
    + unfold Action.complete, Action.process_queue. cbv zeta. apply sig_queued.
      apply (sig_sub id st s0); auto; [now destruct o|].
      intros p Jp. apply (in_remove_goal p id0). destruct o; exact Jp.
    + unfold Action.abort_silent, Action.process_queue. cbv zeta. apply sig_queued.
      apply (sig_sub id st s0); auto. intros p Jp. now apply (in_remove_goal p id0).
  - inv H. destruct I as [L K]. split; auto. intros g Jg E. unfold Action.check_timeouts in Jg. proj_in Jg.
    apply in_map_iff in Jg as ([i g'] & Q & Jg). cbn [fst snd] in Q. inv Q.
    assert (g_start (time_out cfg s g') = g_start g') as Qs.
    { unfold time_out. destruct (g_abandoned g'); auto. destruct (g_signalled g'); auto. now destruct (over _ _ _ _). }
    rewrite Qs in *. specialize (K g' Jg eq_refl). unfold time_out. rewrite K. now destruct (g_abandoned g').
  - inv H. destruct I as [L K]. split; auto. proj. lia.
  - inv H. destruct (existsb _ _); [now apply (sig_sub id st s)|exact I].
  - inv H. destruct (existsb _ _); [now apply (sig_sub id st s)|exact I].
  - inv H. destruct I as [L K]. split; [exact L|intros g []].
Qed.
Lemma over_lt s k g t : timeout cfg = Some t -> (k * t < now s - g_start g)%N -> over cfg s k g = true.
Proof. intros To L. unfold over. rewrite To. now apply N.ltb_lt. Qed.
Lemma time_out_start s g : g_start (time_out cfg s g) = g_start g.
Proof. unfold time_out. destruct (g_abandoned g); auto. destruct (g_signalled g); auto. now destruct (over _ _ _ _). Qed.
Definition said (g : goal) : Prop := g_abandoned g = true -> g_signalled g = true.
Lemma timeout_signals s t id g : timeout cfg = Some t -> In (id, g) (active s) -> said g ->
  (t < now s - g_start g)%N -> forall g', In (id, g') (active (check_timeouts s)) -> NoDup (keysN (active s)) ->
  g_signalled g' = true /\ g_start g' = g_start g.
Proof.
  intros To Jg Sd L g' Jg' Nd. unfold Action.check_timeouts in Jg'. proj_in Jg'.
  apply in_map_iff in Jg' as ([i g2] & Q & J2). cbn [fst snd] in Q. inv Q.
  rewrite (nodup_key s id g2 g Nd J2 Jg) in *. split; [|apply time_out_start].
  unfold time_out. destruct (g_abandoned g) eqn:Ab; [now apply Sd|].
  destruct (g_signalled g) eqn:Sg; auto. rewrite (over_lt s 1 g t To); auto. lia.
Qed.
Lemma timeout_abandons s t id st : timeout cfg = Some t -> sig id st s -> (2 * t < now s - st)%N ->
  forall g', In (id, g') (active (check_timeouts s)) -> g_start g' = st -> g_abandoned g' = true.
Proof.
  intros To [L K] O g' Jg' E. unfold Action.check_timeouts in Jg'. proj_in Jg'.
  apply in_map_iff in Jg' as ([i g2] & Q & J2). cbn [fst snd] in Q. inv Q. rewrite time_out_start in *.
  specialize (K g2 J2 eq_refl). unfold time_out. rewrite K. destruct (g_abandoned g2) eqn:Ab; auto.
  cbn. now apply (over_lt s 2 g2 t).
Qed.
(** Abandoned goals were told to stop first. *)
Definition all_said (s : srv) : Prop := forall p, In p (active s) ->
  (g_abandoned (snd p) = true -> g_signalled (snd p) = true) /\ (g_signalled (snd p) = true -> g_cancel (snd p) = true).
Lemma said_accept s r : all_said s -> all_said (accept s r).
Proof.
  intros K p Jp. unfold Action.accept in Jp. destruct (mem N.eqb (r_id r) (active s)) eqn:M; [now apply K|].
  apply mem_out in M. cbv zeta in Jp. proj_in Jp. rewrite keys_insert_new in Jp by auto.
  destruct has_exec; [destruct (spawns r)|]; proj_in Jp.
  - destruct Jp as [<-|Jp]; [cbn; split; discriminate|now apply K].
  - apply in_remove_goal in Jp. destruct Jp as [<-|Jp]; [cbn; split; discriminate|now apply K].
  - destruct Jp as [<-|Jp]; [cbn; split; discriminate|now apply K].
Qed.
Lemma said_sub s f : all_said s -> (forall p, In p (active f) -> In p (active s)) -> all_said f.
Proof. intros K Q p Jp. apply K, Q, Jp. Qed.
Lemma said_flag s f i h : all_said s -> (forall g, g_abandoned (h g) = g_abandoned g /\ g_signalled (h g) = g_signalled g
    /\ (g_cancel g = true -> g_cancel (h g) = true)) ->
  active f = on_goal h i (active s) -> all_said f.
Proof.
  intros K Kh Qa p Jp. rewrite Qa in Jp. apply on_goal_in in Jp as (q & Jq & _ & [-> | ->]); [now apply K|].
  destruct (Kh (snd q)) as (-> & -> & C). destruct (K q Jq). auto.
Qed.
Lemma said_queued q : forall s, all_said s -> all_said (start_queued q s).
Proof.
  induction q as [|r q IH]; intros s I; auto. cbn [Action.start_queued].
  destruct (has_slot s); [apply IH, said_accept, I|now apply (said_sub s)].
Qed.
Lemma said_step s o s' : all_said s -> step s o = Some s' -> all_said s'.
Proof.
  intros I H. destruct o; cbn [Action.step] in H.
  - inv H. unfold Action.handle_goal. cbv zeta. set (s1 := count s 1 0 0 0 0 0 0) in *.
    assert (all_said s1) as I1 by now apply (said_sub s).
    assert (all_said (reject s1 (r_id r))) as Ir by now apply (said_sub s1).
    assert (forall i, all_said (accept (preempt s1 i) r)) as Ip.
    { intros i. apply said_accept. apply (said_flag s1 _ i ask_preempt); auto. }
    destruct (negb _); auto. destruct (has_slot s1); [now apply said_accept|].
    destruct (pol cfg); auto.
    + destruct (0 <? _); auto. destruct (oldest _ _); auto.
    + destruct (lowest _ _) as [[i pr]|]; auto. destruct (_ <? _)%N; auto.
    + destruct (_ <? _); auto.
  - revert H I. apply (cancel_pres all_said). intros s0 i I. rewrite cancel_one_eq.
    destruct (find _ _); [destruct (cancel_ok i); auto; now apply (said_sub s0)|].
    destruct (_ && _); auto. apply (said_flag s0 _ i ask_cancel); auto.
  - inv H. unfold Action.drain.
    assert (all_said (set_threads s (threads s) (live s) [])) as F0 by now apply (said_sub s).
    revert F0. generalize (set_threads s (threads s) (live s) []). generalize (inbox s). clear I.
    induction l as [|e l IH]; intros s0 F0; auto. cbn [fold_left]. apply IH.
    destruct e; cbn [Action.dispatch].
    + now apply (said_sub s0).
    + unfold Action.complete, Action.process_queue. cbv zeta. apply said_queued.
      apply (said_sub s0); auto. intros p Jp. apply (in_remove_goal p id). destruct o; exact Jp.
    + unfold Action.abort_silent, Action.process_queue. cbv zeta. apply said_queued.
      apply (said_sub s0); auto. intros p Jp. now apply (in_remove_goal p id).
  - inv H. intros p Jp. unfold Action.check_timeouts in Jp. proj_in Jp.
    apply in_map_iff in Jp as (q & <- & Jq). cbn [snd]. destruct (I q Jq) as [A1 A2].
    unfold time_out. destruct (g_abandoned (snd q)) eqn:Ab; [rewrite Ab; auto|].
    destruct (g_signalled (snd q)) eqn:Sg; cbn; auto. destruct (over _ _ _ _); cbn; auto.
  - inv H. now apply (said_sub s).
  - inv H. destruct (existsb _ _); [now apply (said_sub s)|exact I].
  - inv H. destruct (existsb _ _); [now apply (said_sub s)|exact I].
  - inv H. intros p [].
Qed.

(** ** The nil id *)
Lemma nil_cancel fuel : forall s, In 0%N (keysN (active s)) -> handle_cancel cancel_ok order fuel s 0 = None.
Proof.
  induction fuel as [|fuel IH]; intros s Js; auto. cbn [handle_cancel]. rewrite N.eqb_refl.
  assert (In 0%N (map fst (order (active s)) ++ map r_id (queue s))) as Jl.
  { apply in_or_app. left. apply (Permutation_in (l := keysN (active s))); auto.
    apply Permutation_map, Permutation_sym, ord. }
  revert Jl. generalize (map fst (order (active s)) ++ map r_id (queue s)). intros l. revert s Js.
  assert (forall l, fold_left (fun os i => match os with Some s => handle_cancel cancel_ok order fuel s i | None => None end) l None = None) as Nn
    by (induction l0; auto).
  induction l as [|i l IHl]; intros s Js Jl; [destruct Jl|]. cbn [fold_left].
  destruct (N.eq_dec i 0) as [->|Ne]; [now rewrite (IH s Js), Nn|].
  destruct Jl as [Jl|Jl]; [congruence|].
  destruct (handle_cancel cancel_ok order fuel s i) as [s1|] eqn:E; [|apply Nn].
  apply IHl; auto. destruct fuel; [discriminate|]. cbn [handle_cancel] in E.
  apply N.eqb_neq in Ne. rewrite Ne in E. inv E. now rewrite cancel_one_keys.
Qed.

(** ** No executor *)
Definition idle (id : N) (s : srv) : Prop := live s = [] /\ inbox s = [] /\ In id (keysN (active s)).
Lemma idle_accept id s r : has_exec = false -> idle id s -> idle id (accept s r).
Proof.
  intros Hx (A & C & D). unfold Action.accept. destruct (mem N.eqb (r_id r) (active s)) eqn:M; [now repeat split|].
  apply mem_out in M. cbv zeta. rewrite Hx. split; [|split]; proj; auto. rewrite keys_insert_new by auto.
  cbn [keysN map]. now right.
Qed.
Lemma idle_step id s o s' : has_exec = false -> o <> Shutdown -> idle id s -> step s o = Some s' -> idle id s'.
Proof.
  intros Hx Ns I H. destruct o; cbn [Action.step] in H.
  - injection H as <-. unfold Action.handle_goal. cbv zeta. set (s1 := count s 1 0 0 0 0 0 0) in *.
    assert (forall i, idle id (preempt s1 i)) as Ip.
    { intros i. destruct I as (A & C & D). split; [|split]; auto. unfold preempt. proj. now rewrite keys_on_goal. }
    destruct (negb _); auto. destruct (has_slot s1); [now apply idle_accept|].
    destruct (pol cfg); auto.
    + destruct (0 <? _); auto. destruct (oldest _ _); auto. now apply idle_accept.
    + destruct (lowest _ _) as [[i pr]|]; auto. destruct (_ <? _)%N; auto. now apply idle_accept.
    + destruct (_ <? _); auto.
  - revert H I. apply (cancel_pres (idle id)). intros s0 i (A & C & D). 
    destruct (cancel_one_threads s0 i) as (_ & Q1 & Q2 & _). unfold idle. now rewrite Q1, Q2, cancel_one_keys.
  - injection H as <-. unfold Action.drain. destruct I as (A & C & D). rewrite C. now repeat split.
  - injection H as <-. destruct I as (A & C & D). split; [|split]; auto. unfold Action.check_timeouts. proj.
    unfold keysN in *. rewrite map_map. exact D.
  - injection H as <-. exact I.
  - injection H as <-. destruct I as (A & C & D). rewrite A. now repeat split.
  - injection H as <-. destruct I as (A & C & D). rewrite A. now repeat split.
  - contradiction.
Qed.
Lemma idle_run id ops : has_exec = false -> forall s s', no_shutdown ops -> idle id s -> run s ops = Some s' -> idle id s'.
Proof.
  intros Hx. induction ops as [|o ops IH]; intros s s' Ns I H; cbn [Action.run] in H; [injection H as <-; exact I|].
  destruct (step s o) as [s1|] eqn:E; [|discriminate]. apply (IH s1); auto.
  - intros K. apply Ns. now right.
  - apply (idle_step id s o); auto. intros ->. apply Ns. now left.
Qed.
Lemma quiet_run ops : has_exec = false -> forall s s', (live s = [] /\ inbox s = []) -> run s ops = Some s' ->
  live s' = [] /\ inbox s' = [].
Proof.
  intros Hx s s' K H. revert K H. apply (run_pres (fun s => live s = [] /\ inbox s = [])).
  clear s s'. intros s o s' (A & C) H. destruct o; cbn [Action.step] in H.
  - injection H as <-. unfold Action.handle_goal. cbv zeta. set (s1 := count s 1 0 0 0 0 0 0) in *.
    assert (forall s2, live s2 = [] /\ inbox s2 = [] -> live (accept s2 r) = [] /\ inbox (accept s2 r) = []) as Ka.
    { intros s2 K. unfold Action.accept. destruct (mem _ _ _); auto. now rewrite Hx. }
    destruct (negb _); auto. destruct (has_slot s1); auto.
    destruct (pol cfg); auto.
    + destruct (0 <? _); auto. destruct (oldest _ _); auto.
    + destruct (lowest _ _) as [[i pr]|]; auto. destruct (_ <? _)%N; auto.
    + destruct (_ <? _); auto.
  - assert (live s = [] /\ inbox s = []) as K by auto. revert H K.
    apply (cancel_pres (fun s => live s = [] /\ inbox s = [])). intros s0 i K.
    destruct (cancel_one_threads s0 i) as (_ & Q1 & Q2 & _). now rewrite Q1, Q2.
  - injection H as <-. unfold Action.drain. rewrite C. cbn. auto.
  - injection H as <-. auto.
  - injection H as <-. auto.
  - injection H as <-. rewrite A. auto.
  - injection H as <-. rewrite A. auto.
  - injection H as <-. auto.
Qed.
End Server.

(** ** The priority policy never turns away an urgent goal *)
Lemma max_by_last l p b : (forall q, In q l -> (g_prio (snd q) <= g_prio (snd p))%N) ->
  match b with Some q => (g_prio (snd q) <= g_prio (snd p))%N | None => True end ->
  max_by (l ++ [p]) b = Some p.
Proof.
  revert b. induction l as [|x l IH]; intros b Kl Kb; cbn [app max_by].
  - destruct b as [q|]; auto. destruct (N.ltb_spec (g_prio (snd p)) (g_prio (snd q))); [lia|auto].
  - apply IH; [intros q Jq; apply Kl; now right|].
    pose proof (Kl x (or_introl eq_refl)). destruct b as [q|]; auto. now destruct (_ <? _)%N.
Qed.
Definition pcfg : config := {| max_goals := Some 1; timeout := None; pol := Priority |}.
Definition urgent (k : nat) : op := Goal {| r_id := N.of_nat (k + 2); r_prio := 0 |}.
Definition flood (n : nat) : list op := Goal {| r_id := 1; r_prio := 1 |} :: map urgent (seq 0 n).
Definition prun := run pcfg (fun _ => true) (fun _ => true) true (fun _ => true) (fun l => l).
Lemma flood_spec n : exists s l g, prun start (flood n) = Some s /\ active s = l ++ [(1%N, g)]
  /\ length l = n /\ length (live s) = S n /\ g_prio g = 1%N /\ g_abandoned g = false
  /\ forall p, In p l -> g_prio (snd p) = 0%N /\ (2 <= fst p < N.of_nat n + 2)%N.
Proof.
  induction n as [|n IH].
  - eexists _, [], _. repeat split; try reflexivity; destruct H.
  - destruct IH as (s & l & g & R & Qa & Ll & Lv & Pg & Ab & K).
    assert (flood (S n) = flood n ++ [urgent n]) as ->.
    { unfold flood. rewrite seq_S, map_app. reflexivity. }
    unfold prun in *. rewrite run_app, R. unfold urgent. cbn [run step].
    assert (has_slot pcfg (count s 1 0 0 0 0 0 0) = false) as Hs.
    { unfold has_slot. cbn [max_goals pcfg]. apply Nat.ltb_ge. rewrite occ_cnt.
      change (active (count s 1 0 0 0 0 0 0)) with (active s). rewrite Qa.
      unfold cnt. rewrite filter_app, app_length. cbn [filter snd]. rewrite Ab. cbn. lia. }
    unfold handle_goal. cbv zeta. cbn [negb]. rewrite Hs. cbn [pol pcfg].
    assert (lowest (fun l => l) (count s 1 0 0 0 0 0 0) = Some (1%N, 1%N)) as ->.
    { unfold lowest. change (active (count s 1 0 0 0 0 0 0)) with (active s). rewrite Qa, max_by_last; auto.
      - cbn. now rewrite Pg.
      - intros q Jq. destruct (K q Jq) as [-> _]. lia. }
    cbn [r_prio]. change (0 <? 1)%N with true. cbv iota.
    assert (on_goal ask_preempt 1 (active s) = l ++ [(1%N, ask_preempt g)]) as Qo.
    { rewrite Qa. unfold on_goal. rewrite map_app. cbn [map fst snd]. rewrite N.eqb_refl. f_equal.
      rewrite <- (map_id l) at 2. apply map_ext_in. intros p Jp. destruct (K p Jp) as [_ Lp].
      destruct (N.eqb_spec (fst p) 1); auto. lia. }
    unfold accept, preempt. cbn [active count set_active r_id]. rewrite Qo.
    assert (~ In (N.of_nat (n + 2)) (keysN (l ++ [(1%N, ask_preempt g)]))) as Nk.
    { unfold keysN. rewrite map_app, in_app_iff. intros [J|[J|[]]]; [|cbn in J; lia].
      apply in_map_iff in J as (p & Q & Jp). destruct (K p Jp) as [_ Lp]. lia. }
    pose proof (proj2 (mem_out _ _) Nk) as Mo. rewrite Mo. cbv zeta. cbn [active count set_active send set_threads live].
    rewrite keys_insert_new by exact Nk.
    eexists _, (_ :: l), (ask_preempt g). split; [reflexivity|]. cbn [active set_threads send set_active live].
    split; [reflexivity|]. cbn [length]. split; [now rewrite Ll|]. split; [now rewrite Lv|].
    split; [exact Pg|]. split; [exact Ab|].
    intros p [<-|Jp]; [cbn; lia|]. destruct (K p Jp) as [Z1 Z2]. split; auto. lia.
Qed.
