From Verif.Base Require Import Prelude AMap.
From Verif.Model Require Import Heartbeat.
From Verif.Spec Require Import HeartbeatSpec.
Local Open Scope N_scope.

Lemma run_app cfg s h1 h2 : hb_run cfg s (h1 ++ h2) =
  let '(s1, o1) := hb_run cfg s h1 in let '(s2, o2) := hb_run cfg s1 h2 in (s2, o1 ++ o2).
Proof.
  revert s; induction h1 as [|[t o] h1 IH]; intros s; cbn [hb_run app].
  - destruct (hb_run cfg s h2); auto.
  - destruct (hb_step cfg t o s) as [s1 out]. rewrite IH. destruct (hb_run cfg s1 h1) as [s2 o1]. destruct (hb_run cfg s2 h2). auto.
Qed.
Definition st (cfg : HbConfig) (h : history) : Hb := fst (hb_run cfg [] h).
Lemma st_snoc cfg h t o : st cfg (h ++ [(t, o)]) = fst (hb_step cfg t o (st cfg h)).
Proof. unfold st. rewrite run_app. destruct (hb_run cfg [] h) as [s1 o1]. cbn [hb_run fst]. destruct (hb_step cfg t o s1). auto. Qed.
Lemma last_snoc cfg h t o : last_reports cfg (h ++ [(t, o)]) = snd (hb_step cfg t o (st cfg h)).
Proof.
  unfold last_reports, st. rewrite run_app. destruct (hb_run cfg [] h) as [s1 o1]. cbn [hb_run fst].
  destruct (hb_step cfg t o s1). cbn [snd]. apply last_last.
Qed.
Lemma lookup_map {V W} (f : V -> W) k (m : list (N * V)) :
  lookup N.eqb k (map (fun kp => (fst kp, f (snd kp))) m) = option_map f (lookup N.eqb k m).
Proof. induction m as [|[k' v] m IH]; cbn; auto. destruct (N.eqb k k'); auto. Qed.

Definition hbp (cfg : HbConfig) (h : history) (p : N) : option PeerHb := lookup N.eqb p (st cfg h).
(** One event, seen from one peer. *)
Lemma hbp_snoc cfg h t o p : hbp cfg (h ++ [(t, o)]) p =
  match o with
  | HbAdd q a => if q =? p then match hbp cfg h p with Some e => Some e
                                | None => Some (mkPeerHb a (t - hc_interval cfg) t t false true false) end
                 else hbp cfg h p
  | HbRemove q => if q =? p then None else hbp cfg h p
  | HbHeard q => if q =? p then option_map (fun e => mkPeerHb (hb_addr e) (hb_last_sent e) t (hb_first_seen e) true true
                                                     (if hb_alive e then hb_fired e else false)) (hbp cfg h p)
                 else hbp cfg h p
  | HbTick => option_map (fun e => fst (fst (hb_tick_peer cfg t e))) (hbp cfg h p)
  end.
Proof.
  unfold hbp. rewrite st_snoc. pose proof N.eqb_eq as Hs. destruct o as [q a|q|q|]; cbn [hb_step fst].
  - unfold hb_add. destruct (N.eqb_spec q p) as [->|n].
    + destruct (lookup N.eqb p (st cfg h)) eqn:E; auto. rewrite lookup_insert_eq; auto.
    + destruct (lookup N.eqb q (st cfg h)) eqn:E; auto. rewrite lookup_insert_neq; auto.
  - unfold hb_remove. destruct (N.eqb_spec q p) as [->|n].
    + rewrite lookup_remove_eq; auto.
    + rewrite lookup_remove_neq; auto.
  - unfold hb_received. destruct (N.eqb_spec q p) as [->|n].
    + destruct (lookup N.eqb p (st cfg h)) eqn:E; cbn [option_map]; auto. rewrite lookup_insert_eq; auto.
    + destruct (lookup N.eqb q (st cfg h)) eqn:E; auto. rewrite lookup_insert_neq; auto.
  - unfold hb_tick. cbn [fst]. apply (lookup_map (fun e => fst (fst (hb_tick_peer cfg t e)))).
Qed.

Lemma snoc_inv {A} (a b : list A) x y c : a ++ x :: b = c ++ [y] ->
  (b = [] /\ a = c /\ x = y) \/ (exists b', b = b' ++ [y] /\ c = a ++ x :: b').
Proof.
  destruct b as [|z b] using rev_ind; intros E.
  - left. apply app_inj_tail in E as [-> ->]. auto.
  - right. exists b. change (x :: b ++ [z]) with ((x :: b) ++ [z]) in E. rewrite app_assoc in E.
    apply app_inj_tail in E as [<- <-]. auto.
Qed.
Lemma not_in_app_l {A} (P : A -> Prop) (l m : list A) : (forall x, P x -> ~ In x (l ++ m)) -> forall x, P x -> ~ In x l.
Proof. intros H x Hx Hi. apply (H x Hx). apply in_app_iff; auto. Qed.

Lemma unwatched_none cfg p : forall h, unwatched p h -> hbp cfg h p = None.
Proof.
  induction h as [|[t o] h IH] using rev_ind; [reflexivity|]. intros U. rewrite hbp_snoc.
  assert (Hstep : unwatched p h \/ o = HbRemove p).
  { destruct U as [H|(h1 & t1 & h2 & E & H)].
    - left. left. intros t' a Hi. apply (H t' a). apply in_app_iff; auto.
    - symmetry in E. apply snoc_inv in E as [(-> & -> & E)|(b' & -> & ->)].
      + right. congruence.
      + left. right. exists h1, t1, b'. split; auto. intros t' a Hi. apply (H t' a). apply in_app_iff; auto. }
  assert (Hna : forall a, o <> HbAdd p a).
  { intros a ->. destruct U as [H|(h1 & t1 & h2 & E & H)].
    - apply (H t a). apply in_app_iff. right. left. auto.
    - symmetry in E. apply snoc_inv in E as [(-> & -> & E)|(b' & -> & ->)]; [congruence|].
      apply (H t a). apply in_app_iff. right. left. auto. }
  destruct Hstep as [Hu| ->].
  - rewrite (IH Hu). destruct o as [q a|q|q|]; auto.
    + destruct (N.eqb_spec q p) as [->|]; auto. destruct (Hna a); auto.
    + destruct (q =? p); auto.
    + destruct (q =? p); auto.
  - rewrite N.eqb_refl. auto.
Qed.

Lemma silent_exists p rest t0 : exists heard ts quiet, silent_since p rest t0 heard ts quiet.
Proof.
  induction rest as [|[t o] r IH] using rev_ind.
  - exists false, t0, []. split; auto.
  - assert (D : o = HbHeard p \/ o <> HbHeard p).
    { destruct o as [| |q|]; try (right; discriminate). destruct (N.eq_dec q p) as [->|]; [left; auto|right; congruence]. }
    destruct D as [->|n].
    + exists true, t, []. split; [intros ? []|]. exists r. auto.
    + destruct IH as (heard & ts & quiet & Hq & Hr). exists heard, ts, (quiet ++ [(t, o)]). split.
      * intros t' Hi. apply in_app_iff in Hi as [Hi|[Hi|[]]]; [eapply Hq; eauto|congruence].
      * destruct heard; [destruct Hr as [r1 ->]; exists r1; rewrite <- app_assoc; auto | destruct Hr as [-> ->]; auto].
Qed.

Definition ticks (h : history) (P : N -> Prop) : Prop := exists t, In (t, HbTick) h /\ P t.
Definition ok_cfg (cfg : HbConfig) : Prop := 1 <= hc_interval cfg /\ 2 <= hc_threshold cfg < 2 ^ 32.

Lemma in_order_app t h1 h2 : in_order t (h1 ++ h2) -> in_order t h1.
Proof. revert t; induction h1 as [|[u o] h1 IH]; intros t; cbn; auto. intros [A B]. split; auto. Qed.
Lemma in_order_last : forall h t0 t u o o', in_order t0 (h ++ [(t, o)]) -> In (u, o') h -> u <= t.
Proof.
  assert (H0 : forall h t0 t o, in_order t0 (h ++ [(t, o)]) -> t0 <= t).
  { induction h as [|[u o1] h IH]; cbn; intros t0 t o H; [tauto|]. destruct H as [A B]. apply IH in B. lia. }
  induction h as [|[u1 o1] h IH]; cbn; intros t0 t u o o' H Hi; [tauto|]. destruct H as [A B]. destruct Hi as [E|Hi].
  - injection E as -> ->. eapply H0; eauto.
  - eapply IH; eauto.
Qed.

(** No u32 overflow of the missed-interval counter: the whole history spans less than 2^32 intervals. *)
Definition short (cfg : HbConfig) (h : history) : Prop :=
  forall t o t' o', In (t, o) h -> In (t', o') h -> (t - t') / hc_interval cfg < 2 ^ 32.

Definition entry_ok (cfg : HbConfig) (t0 : N) (heard : bool) (ts : N) (quiet : history) (e : PeerHb) : Prop :=
  hb_first_seen e = t0 /\ hb_ever e = heard /\ hb_last_received e = ts /\ hb_fired e = negb (hb_alive e) /\
  (hb_alive e = false <-> ticks quiet (loss_due cfg t0 heard ts)).

Lemma tick_due cfg t0 heard ts t e : ok_cfg cfg -> ts <= t -> (t - ts) / hc_interval cfg < 2 ^ 32 -> t0 <= t ->
  hb_first_seen e = t0 -> hb_ever e = heard -> hb_last_received e = ts ->
  (hb_ever e || (DISCOVERY_GRACE <? t - hb_first_seen e)) &&
  (hc_threshold cfg <=? N.max ((t - hb_last_received e) / N.max (hc_interval cfg) 1) 1 mod 2 ^ 32) = true <->
  loss_due cfg t0 heard ts t.
Proof.
  intros [Hi Ht] Hts Hs H0 -> -> ->. unfold loss_due, DISCOVERY_GRACE. change (10 ^ 9) with 1000000000.
  rewrite (N.max_l (hc_interval cfg) 1) by auto. set (q := (t - ts) / hc_interval cfg) in *.
  rewrite N.mod_small by (change (2 ^ 32) with 4294967296 in *; lia).
  rewrite Bool.andb_true_iff, Bool.orb_true_iff, N.ltb_lt, N.leb_le.
  assert (E : hc_threshold cfg <= N.max q 1 <-> ts + hc_threshold cfg * hc_interval cfg <= t).
  { assert (E1 : hc_threshold cfg <= N.max q 1 <-> hc_threshold cfg <= q) by lia. rewrite E1. unfold q.
    split; intros H.
    - apply N.le_trans with (ts + (t - ts) / hc_interval cfg * hc_interval cfg); [apply N.add_le_mono_l, N.mul_le_mono_r; auto|].
      pose proof (N.mul_div_le (t - ts) (hc_interval cfg) ltac:(lia)). lia.
    - apply N.div_le_lower_bound; lia. }
  rewrite E. destruct heard; intuition (auto; lia).
Qed.

Lemma hb_inv cfg : ok_cfg cfg -> forall h tz, in_order tz h -> short cfg h -> forall p t0 rest heard ts quiet,
  watched_since p h t0 rest -> silent_since p rest t0 heard ts quiet ->
  exists e, hbp cfg h p = Some e /\ entry_ok cfg t0 heard ts quiet e.
Proof.
  intros Hcfg. induction h as [|[t o] h IH] using rev_ind; intros tz Ho Hsh p t0 rest heard ts quiet (h1 & a & E & Hu & Hnr) Hs.
  { destruct h1; discriminate. }
  rewrite hbp_snoc. symmetry in E.
  apply snoc_inv in E as [(-> & -> & E)|(rest' & -> & ->)].
  { injection E as <- <-. rewrite N.eqb_refl. rewrite (unwatched_none cfg p h Hu). eexists; split; [reflexivity|].
    destruct Hs as [_ Hs]. destruct heard.
    - destruct Hs as [r1 Hs]. destruct r1; discriminate.
    - destruct Hs as [<- ->]. repeat split; cbn; try discriminate. intros (x & [] & _). }
  assert (Ho' : in_order tz (h1 ++ (t0, HbAdd p a) :: rest')) by (eapply in_order_app; eauto).
  assert (Hsh' : short cfg (h1 ++ (t0, HbAdd p a) :: rest')).
  { intros x ox y oy Hx Hy. eapply Hsh; apply in_app_iff; eauto. }
  assert (Hw : watched_since p (h1 ++ (t0, HbAdd p a) :: rest') t0 rest').
  { exists h1, a. repeat split; auto. intros x Hx. apply (Hnr x). apply in_app_iff; auto. }
  specialize (IH tz Ho' Hsh' p t0 rest').
  assert (Hlast : forall u o', In (u, o') (h1 ++ (t0, HbAdd p a) :: rest') -> u <= t /\ (t - u) / hc_interval cfg < 2 ^ 32).
  { intros u o' Hi. split; [eapply in_order_last; eauto|]. eapply Hsh; apply in_app_iff; eauto. right. left. reflexivity. }
  assert (D : o = HbHeard p \/ o <> HbHeard p).
  { destruct o as [| |q|]; try (right; discriminate). destruct (N.eq_dec q p) as [->|]; [left; auto|right; congruence]. }
  destruct D as [->|n].
  - (* heard *)
    destruct (silent_exists p rest' t0) as (hd & ts' & q' & Hs'). destruct (IH hd ts' q' Hw Hs') as (e & Ee & I1 & I2 & I3 & I4 & I5).
    rewrite N.eqb_refl, Ee. cbn [option_map]. eexists; split; [reflexivity|].
    assert (heard = true /\ ts = t /\ quiet = []) as (-> & -> & ->).
    { destruct Hs as [Hq Hs]. destruct heard.
      - destruct Hs as [r1 Hs]. symmetry in Hs. apply snoc_inv in Hs as [(-> & _ & E)|(b & -> & _)].
        + injection E as ->. auto.
        + exfalso. apply (Hq t). apply in_app_iff. right. left. auto.
      - destruct Hs as [<- _]. exfalso. apply (Hq t). apply in_app_iff. right. left. auto. }
    repeat split; cbn; auto.
    + rewrite I4. destruct (hb_alive e); auto.
    + discriminate.
    + intros (x & [] & _).
  - (* anything else extends the quiet period *)
    assert (exists quiet', quiet = quiet' ++ [(t, o)] /\ silent_since p rest' t0 heard ts quiet') as (quiet' & -> & Hs').
    { destruct Hs as [Hq Hs]. destruct heard.
      - destruct Hs as [r1 Hs]. symmetry in Hs. apply snoc_inv in Hs as [(-> & _ & E)|(b & -> & ->)].
        + congruence.
        + exists b. split; auto. split; [|eauto]. intros x Hx. apply (Hq x). apply in_app_iff; auto.
      - destruct Hs as [<- ->]. exists rest'. split; auto. split; auto. intros x Hx. apply (Hq x). apply in_app_iff; auto. }
    destruct (IH heard ts quiet' Hw Hs') as (e & Ee & I1 & I2 & I3 & I4 & I5). rewrite Ee.
    assert (Hsame : o <> HbTick -> entry_ok cfg t0 heard ts (quiet' ++ [(t, o)]) e).
    { intros Hnt. repeat split; auto.
      - intros Ha. apply I5 in Ha as (x & Hx & Hd). exists x. split; auto. apply in_app_iff; auto.
      - intros (x & Hx & Hd). apply I5. exists x. split; auto. apply in_app_iff in Hx as [|[|[]]]; auto. congruence. }
    destruct o as [q b|q|q|].
    + destruct (q =? p); exists e; split; auto; apply Hsame; discriminate.
    + destruct (N.eqb_spec q p) as [->|]; [|exists e; split; auto; apply Hsame; discriminate].
      exfalso. apply (Hnr t). apply in_app_iff. right; left; auto.
    + destruct (N.eqb_spec q p) as [->|]; [congruence|]. exists e; split; auto; apply Hsame; discriminate.
    + cbn [option_map]. eexists; split; [reflexivity|].
      assert (Ht0 : t0 <= t). { eapply Hlast. apply in_app_iff. right. left. reflexivity. }
      assert (Hts : ts <= t /\ (t - ts) / hc_interval cfg < 2 ^ 32).
      { destruct heard.
        - destruct Hs' as [_ [r1 ->]]. eapply Hlast. apply in_app_iff. right. right. apply in_app_iff. right. left. reflexivity.
        - destruct Hs' as [_ [_ ->]]. eapply Hlast. apply in_app_iff. right. left. reflexivity. }
      pose proof (tick_due cfg t0 heard ts t e Hcfg (proj1 Hts) (proj2 Hts) Ht0 I1 I2 I3) as Hd.
      unfold hb_tick_peer.
      destruct (_ && (hc_threshold cfg <=? _)) eqn:Edue.
      * pose proof (proj1 Hd eq_refl) as Edue'. destruct (hb_alive e) eqn:Ea; cbn [andb fst].
        -- repeat split; cbn; auto. intros _. exists t. split; auto. apply in_app_iff. right; left; auto.
        -- repeat split; cbn; auto. intros _. exists t. split; auto. apply in_app_iff. right; left; auto.
      * assert (Hnd : ~ loss_due cfg t0 heard ts t) by (intros Hx; apply Hd in Hx; discriminate).
        cbn [andb fst]. repeat split; cbn; auto.
        -- intros Ha. apply I5 in Ha as (x & Hx & Hd'). exists x. split; auto. apply in_app_iff; auto.
        -- intros (x & Hx & Hd'). apply I5. exists x. split; auto. apply in_app_iff in Hx as [|[E|[]]]; auto. congruence.
Qed.

Lemma keys_step cfg h : NoDup (keys (st cfg h)).
Proof.
  induction h as [|[t o] h IH] using rev_ind; [constructor|]. rewrite st_snoc.
  destruct o as [q a|q|q|]; cbn [hb_step fst].
  - unfold hb_add. destruct (lookup N.eqb q (st cfg h)); auto. apply NoDup_insert_keys; auto. apply N.eqb_eq.
  - unfold hb_remove. apply NoDup_remove_keys; auto.
  - unfold hb_received. destruct (lookup N.eqb q (st cfg h)); auto. apply NoDup_insert_keys; auto. apply N.eqb_eq.
  - unfold hb_tick, keys in *. cbn [fst]. rewrite map_map. cbn [fst]. exact IH.
Qed.
Lemma reports_iff cfg h t p : In p (last_reports cfg (h ++ [(t, HbTick)])) <->
  exists e, hbp cfg h p = Some e /\ snd (hb_tick_peer cfg t e) = true.
Proof.
  rewrite last_snoc. cbn [hb_step]. unfold hb_tick. cbn [snd]. rewrite in_flat_map. split.
  - intros ([q e] & Hi & Hin). cbn [fst snd] in Hin. destruct (snd (hb_tick_peer cfg t e)) eqn:E; [|destruct Hin].
    destruct Hin as [<-|[]]. exists e. split; auto. unfold hbp. apply In_lookup; auto; [apply N.eqb_eq|apply keys_step].
  - intros (e & E & Hr). exists (p, e). split; [apply lookup_In in E; auto; apply N.eqb_eq|]. cbn [fst snd]. rewrite Hr. left. auto.
Qed.
Lemma reports_NoDup cfg h t : NoDup (last_reports cfg (h ++ [(t, HbTick)])).
Proof.
  rewrite last_snoc. cbn [hb_step]. unfold hb_tick. cbn [snd]. pose proof (keys_step cfg h) as H. unfold keys in H.
  induction (st cfg h) as [|[q e] s IH]; cbn [flat_map map] in *; [constructor|]. inversion H as [|? ? Hn Hd]; subst.
  specialize (IH Hd). cbn [fst snd] in *. destruct (snd (hb_tick_peer cfg t e)); auto. constructor; auto.
  intros Hi. apply Hn. apply in_flat_map in Hi as ([q' e'] & Hi & Hin). cbn [fst snd] in Hin.
  destruct (snd (hb_tick_peer cfg t e')); [|destruct Hin]. destruct Hin as [<-|[]]. apply in_map_iff. exists (q', e'). auto.
Qed.

Lemma report_correct cfg h t tz p t0 rest heard ts quiet : ok_cfg cfg ->
  in_order tz (h ++ [(t, HbTick)]) -> short cfg (h ++ [(t, HbTick)]) ->
  watched_since p h t0 rest -> silent_since p rest t0 heard ts quiet ->
  In p (last_reports cfg (h ++ [(t, HbTick)])) <->
  loss_due cfg t0 heard ts t /\ forall u, In (u, HbTick) quiet -> ~ loss_due cfg t0 heard ts u.
Proof.
  intros Hcfg Ho Hsh Hw Hs. rewrite reports_iff.
  assert (Hsh' : short cfg h). { intros x ox y oy Hx Hy. eapply Hsh; apply in_app_iff; eauto. }
  destruct (hb_inv cfg Hcfg h tz (in_order_app _ _ _ Ho) Hsh' p t0 rest heard ts quiet Hw Hs) as (e & Ee & I1 & I2 & I3 & I4 & I5).
  assert (Hlast : forall u o', In (u, o') h -> u <= t /\ (t - u) / hc_interval cfg < 2 ^ 32).
  { intros u o' Hi. split; [eapply in_order_last; eauto|]. eapply Hsh; apply in_app_iff; eauto. right. left. reflexivity. }
  destruct Hw as (h1 & a & -> & Hu & Hnr).
  assert (Ht0 : t0 <= t). { eapply Hlast. apply in_app_iff. right. left. reflexivity. }
  assert (Hts : ts <= t /\ (t - ts) / hc_interval cfg < 2 ^ 32).
  { destruct heard.
    - destruct Hs as [_ [r1 ->]]. eapply Hlast. apply in_app_iff. right. right. apply in_app_iff. right. left. reflexivity.
    - destruct Hs as [_ [_ ->]]. eapply Hlast. apply in_app_iff. right. left. reflexivity. }
  pose proof (tick_due cfg t0 heard ts t e Hcfg (proj1 Hts) (proj2 Hts) Ht0 I1 I2 I3) as Hd.
  assert (Hr : snd (hb_tick_peer cfg t e) = true <-> loss_due cfg t0 heard ts t /\ hb_alive e = true).
  { rewrite <- Hd. unfold hb_tick_peer. destruct (_ && (hc_threshold cfg <=? _)); cbn [andb].
    - destruct (hb_alive e); cbn [snd]; rewrite ?I4; cbn; intuition discriminate.
    - cbn [snd]. intuition discriminate. }
  split.
  - intros (e' & E' & Hr'). rewrite Ee in E'. injection E' as <-. apply Hr in Hr' as [A B]. split; auto.
    intros u Hu' Hd'. assert (hb_alive e = false) by (apply I5; exists u; auto). congruence.
  - intros [A B]. exists e. split; auto. apply Hr. split; auto. destruct (hb_alive e) eqn:Ea; auto.
    destruct (proj1 I5 eq_refl) as (u & Hu' & Hd'). destruct (B u Hu' Hd').
Qed.
Lemma unwatched_not_reported cfg h t p : unwatched p h -> ~ In p (last_reports cfg (h ++ [(t, HbTick)])).
Proof. intros Hu Hi. apply reports_iff in Hi as (e & E & _). rewrite unwatched_none in E; auto. discriminate. Qed.
(** Only ticks report. *)
Lemma only_ticks cfg h t o : o <> HbTick -> last_reports cfg (h ++ [(t, o)]) = [].
Proof. intros H. rewrite last_snoc. destruct o; auto. congruence. Qed.
