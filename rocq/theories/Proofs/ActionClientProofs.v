(** Proofs about the action client. *)
From Coq Require Import Sorting.Permutation.
From Verif Require Import Base.Prelude Base.AMap Model.Action Spec.ActionSpec Proofs.ActionProofs
  Proofs.ActionOrder Model.ActionClient Spec.ActionClientSpec.

(** ** Lists of messages *)
Lemma stats_app a b : stats (a ++ b) = stats a ++ stats b.
Proof. apply flat_map_app. Qed.
Lemma ress_app a b : ress (a ++ b) = ress a ++ ress b.
Proof. apply flat_map_app. Qed.
Lemma in_stats i s l : In (i, s) (stats l) <-> In (MStatus i s) l.
Proof.
  unfold stats. rewrite in_flat_map. split.
  - intros (m & J & K). destruct m; cbn in K; try (now destruct K). destruct K as [K|[]]. now inv K.
  - intros J. exists (MStatus i s). split; auto. now left.
Qed.
Lemma in_ress i s l : In (i, s) (ress l) <-> In (MResult i s) l.
Proof.
  unfold ress. rewrite in_flat_map. split.
  - intros (m & J & K). destruct m; cbn in K; try (now destruct K). destruct K as [K|[]]. now inv K.
  - intros J. exists (MResult i s). split; auto. now left.
Qed.
Lemma terminals_in i t l : In (MStatus i t) l -> terminal t = true -> 1 <= terminals i l.
Proof.
  intros J T. apply in_split in J as (a & b & ->). rewrite T_app. change (MStatus i t :: b) with ([MStatus i t] ++ b).
  rewrite T_app, T_status, T. lia.
Qed.
Lemma terminals_two i t t' l : In (MStatus i t) l -> In (MStatus i t') l -> terminal t = true -> terminal t' = true ->
  t <> t' -> 2 <= terminals i l.
Proof.
  intros A C T T' N. unfold terminals.
  apply (NoDup_incl_length (l := [MStatus i t; MStatus i t'])).
  - constructor; [|constructor; [intros []|constructor]]. intros [K|[]]. congruence.
  - intros m [<-|[<-|[]]]; apply filter_In; split; auto; now rewrite N.eqb_refl.
Qed.
Lemma results_in i t l : In (MResult i t) l -> 1 <= results i l.
Proof.
  intros J. apply in_split in J as (a & b & ->). rewrite R_app. change (MResult i t :: b) with ([MResult i t] ++ b).
  rewrite R_app. unfold results at 2. cbn. rewrite N.eqb_refl. cbn. lia.
Qed.
Lemma results_two i t t' l : In (MResult i t) l -> In (MResult i t') l -> t <> t' -> 2 <= results i l.
Proof.
  intros A C N. unfold results.
  apply (NoDup_incl_length (l := [MResult i t; MResult i t'])).
  - constructor; [|constructor; [intros []|constructor]]. intros [K|[]]. congruence.
  - intros m [<-|[<-|[]]]; apply filter_In; split; auto; now rewrite N.eqb_refl.
Qed.
Lemma last_word_app id a b : last_word id (a ++ b) =
  fold_left (fun c p => if (fst p =? id)%N then Told (snd p) else c) b (last_word id a).
Proof. apply fold_left_app. Qed.
Lemma fold_skip id b : (forall s : gstatus, ~ In (id, s) b) -> forall c,
  fold_left (fun c p => if (fst p =? id)%N then Told (snd p) else c) b c = c.
Proof.
  induction b as [|[i s] b IH]; intros K c; auto. cbn [fold_left fst snd].
  destruct (N.eqb_spec i id) as [->|E]; [exfalso; apply (K s); now left|].
  apply IH. intros x J. apply (K x). now right.
Qed.
Lemma last_word_none id b : (forall s, ~ In (id, s) b) -> last_word id b = Pending.
Proof. intros K. now apply fold_skip. Qed.
Lemma last_word_in id l s : last_word id l = Told s -> In (id, s) l.
Proof.
  induction l as [|[i t] l IH] using rev_ind; [discriminate|]. rewrite last_word_app. cbn [fold_left fst snd].
  destruct (N.eqb_spec i id) as [->|E]; intros Q.
  - inv Q. apply in_or_app. right. now left.
  - apply in_or_app. left. auto.
Qed.

Lemma in_unmap i id l : In i (unmap id l) <-> In i l /\ i <> id.
Proof.
  unfold unmap. rewrite filter_In. rewrite negb_true_iff, N.eqb_neq. tauto.
Qed.
Lemma is_mapped_in c id : is_mapped c id = true <-> In id (mapped c).
Proof.
  unfold is_mapped. rewrite existsb_exists. split.
  - intros (x & J & E). apply N.eqb_eq in E. now subst.
  - intros J. exists id. split; auto. apply N.eqb_refl.
Qed.
Lemma is_mapped_out c id : is_mapped c id = false <-> ~ In id (mapped c).
Proof. rewrite <- is_mapped_in. destruct (is_mapped c id); intuition discriminate. Qed.

Section Client.
Variable w : world.
Hypothesis ord : hash_order (w_order w).
(** [Pr]: pumps are known to be prompt. *)
Variable Pr : Prop.

(** ** The server's side *)
Definition served (subs : list N) (a : sys) (sops : list op) : Prop :=
  after w sops = Some (srvr a) /\ no_shutdown sops /\ goal_ids sops ++ map r_id (reqs a) = subs.
Lemma NoDup_app_left (a b : list N) : NoDup (a ++ b) -> NoDup a.
Proof.
  induction a as [|x a IH]; cbn [app]; intros Nd; [constructor|]. inv Nd. constructor; auto.
  intros J. apply H1. apply in_or_app. now left.
Qed.
Lemma server_J sops s : after w sops = Some s -> no_shutdown sops -> NoDup (goal_ids sops) ->
  OJ (w_cfg w) (goal_ids sops) [] (inbox s) s.
Proof.
  intros R Ns Nd. unfold after, from in R.
  exact (OJ_run (w_cfg w) (w_wants w) (w_cancel w) (w_exec w) (w_spawns w) (w_order w) ord sops [] start s
    (OJ_start (w_cfg w) (w_cancel w)) R Ns Nd).
Qed.
Lemma server_counts sops s i : after w sops = Some s -> no_shutdown sops -> NoDup (goal_ids sops) ->
  results i (out s) <= 1 /\ (timeout (w_cfg w) = None -> terminals i (out s) <= 1)
  /\ (~ In i (goal_ids sops) -> (forall t, ~ In (i, t) (stats (out s))) /\ (forall t, ~ In (i, t) (ress (out s)))).
Proof.
  intros R Ns Nd. destruct (server_J sops s R Ns Nd) as [A _]. destruct (j_ok _ _ _ _ _ A i) as (O1 & O2 & O3 & O4).
  assert (~ In i (goal_ids sops) -> (forall t, ~ In (i, t) (stats (out s))) /\ (forall t, ~ In (i, t) (ress (out s)))) as F.
  { intros Ni. destruct (O4 Ni) as (Z1 & Z2 & Z3). split; intros t J.
    - apply in_stats in J. destruct (terminal t) eqn:T.
      + pose proof (terminals_in i t _ J T). lia.
      + destruct t; try discriminate. unfold starts in Z3. apply count_occ_not_In in Z3. apply Z3.
        unfold started. apply in_flat_map. exists (MStatus i Active). split; auto. now left.
    - apply in_ress in J. pose proof (results_in i t _ J). lia. }
  destruct (in_dec N.eq_dec i (goal_ids sops)) as [Ji|Ni].
  - destruct (in_dec N.eq_dec i (keysN (active s))) as [Ja|Na].
    + apply in_keysN in Ja as (g & Jg). destruct (O1 g Jg) as (Z1 & Z2 & Z3 & Z4).
      split; [lia|]. split; auto. intros To. rewrite (Z4 To) in Z1. lia.
    + destruct (in_dec N.eq_dec i (wait [] s)) as [Jq|Nq].
      * destruct (O2 Jq) as (Z1 & Z2 & Z3). split; [lia|]. split; auto. lia.
      * destruct (O3 Ji Na Nq) as (Z1 & Z2 & Z3 & Z4). split; [lia|]. split; auto. intros To. rewrite (Z4 To). lia.
  - destruct (O4 Ni) as (Z1 & Z2 & Z3). split; [lia|]. split; auto. lia.
Qed.
Lemma server_result sops s i t : after w sops = Some s -> In (i, t) (stats (out s)) ->
  t = Succeeded \/ t = Preempted -> In (i, t) (ress (out s)).
Proof.
  intros R J Q. apply in_stats in J. apply in_ress.
  exact (status_has_result _ _ _ _ _ _ sops s i t R J Q).
Qed.
Lemma server_status sops s i t : after w sops = Some s -> In (i, t) (ress (out s)) ->
  In (i, t) (stats (out s)) /\ terminal t = true /\ t <> Rejected.
Proof.
  intros R J. apply in_ress in J. rewrite in_stats.
  exact (result_has_status _ _ _ _ _ _ sops s i t R J).
Qed.
(** A status after which no result can come. *)
Definition firm (t : gstatus) : Prop := Pr /\ (timeout (w_cfg w) = None \/ t = Succeeded \/ t = Preempted).
Lemma no_new_result sops s sops' s' l i t r :
  after w sops = Some s -> after w sops' = Some s' -> no_shutdown sops' -> NoDup (goal_ids sops') ->
  out s' = out s ++ l -> In (i, t) (stats (out s)) -> terminal t = true -> firm t -> ~ In (i, r) (ress l).
Proof.
  intros R R' Ns Nd E Js T [_ Q] Jr.
  destruct Q as [To|Q].
  - destruct (server_J sops' s' R' Ns Nd) as [_ O]. apply in_ress in Jr. apply in_split in Jr as (a & b & ->).
    rewrite app_assoc in E. pose proof (Ord_split _ _ O _ _ _ E To) as Z. rewrite T_app in Z.
    apply in_stats in Js. pose proof (terminals_in _ _ _ Js T). lia.
  - pose proof (server_result sops s i t R Js Q) as Jo.
    destruct (server_counts sops' s' i R' Ns Nd) as (Z & _). rewrite E, R_app in Z.
    apply in_ress in Jo, Jr. pose proof (results_in _ _ _ Jo). pose proof (results_in _ _ _ Jr). lia.
Qed.

(** ** What a handle knows *)
Definition K (subs : list N) (rs rr qr : list (N * gstatus)) (c : client) (id : N) : Prop :=
  match goals c id with
  | None => ~ In id (mapped c)
  | Some g =>
      In id subs
      /\ (In id (mapped c) ->
            res g = None /\ (forall r, ~ In (id, r) rr) /\ st g = last_word id rs
            /\ (forall t, st g = Told t -> terminal t = true -> firm t -> forall r, In (id, r) qr ->
                  exists u p t0, pumping c = Some (u, p, t0) /\ (t0 <= upd g)%N))
      /\ (~ In id (mapped c) ->
            (exists r, res g = Some r /\ st g = Told r /\ In (id, r) rr)
            \/ (res g = None /\ exists t, st g = Told t /\ terminal t = true /\ In (id, t) rs
                  /\ (firm t -> forall r, ~ In (id, r) (rr ++ qr))))
  end.
Record CI (subs : list N) (a : sys) : Prop := {
  ci_srv : exists sops, served subs a sops;
  ci_pump : forall u p t0, pumping (cl a) = Some (u, p, t0) -> (t0 <= now (srvr a))%N;
  ci_k : exists rs rr, stats (out (srvr a)) = rs ++ q_s (cl a) /\ ress (out (srvr a)) = rr ++ q_r (cl a)
           /\ forall id, K subs rs rr (q_r (cl a)) (cl a) id }.

Lemma CI_start : CI [] s_start.
Proof.
  split.
  - exists []. now repeat split.
  - discriminate.
  - exists [], []. repeat split. intros id. cbn. tauto.
Qed.

Lemma K_ext subs subs' rs rr qr c c' id : K subs rs rr qr c id -> (In id subs -> In id subs') ->
  goals c' id = goals c id -> (In id (mapped c') <-> In id (mapped c)) -> pumping c' = pumping c ->
  K subs' rs rr qr c' id.
Proof.
  unfold K. intros H S G M P. rewrite G, P. destruct (goals c id) as [g|]; [|tauto].
  destruct H as (H1 & H2 & H3). repeat split; auto; rewrite M in *; tauto.
Qed.

Lemma K_send subs id0 t rs rr qr c : (forall x, ~ In (id0, x) rs) -> (forall x, ~ In (id0, x) rr) ->
  (forall id, K subs rs rr qr c id) -> forall id, K (subs ++ [id0]) rs rr qr (register c t id0) id.
Proof.
  intros N1 N2 H id. destruct (N.eq_dec id id0) as [->|E].
  - unfold K, register. cbn [goals with_goals put mapped pumping]. unfold put. rewrite N.eqb_refl.
    split; [apply in_or_app; right; now left|]. split.
    + intros _. cbn [res st fresh_gst]. split; auto. split; auto. split; [symmetry; now apply last_word_none|]. discriminate.
    + intros Z. exfalso. apply Z. now left.
  - apply (K_ext subs _ _ _ _ c); auto.
    + intros J. apply in_or_app. now left.
    + unfold register. cbn. unfold put. now rewrite (proj2 (N.eqb_neq id id0) E).
    + unfold register. cbn [mapped with_goals In]. rewrite in_unmap. intuition congruence.
Qed.

Lemma CI_server subs a o q a' sops : served subs a sops -> NoDup subs -> CI subs a ->
  by_server (serve w) a o q = Some a' -> o <> Shutdown -> goal_ids [o] ++ map r_id q = map r_id (reqs a) -> CI subs a'.
Proof.
  intros (R & Ns & Sq) Nd [_ P (rs & rr & Es & Er & Kk)] H No Q. unfold by_server in H.
  destruct (serve w (srvr a) o) as [s'|] eqn:E; [|discriminate]. injection H as <-.
  assert (after w (sops ++ [o]) = Some s') as R'.
  { unfold after, from in *. rewrite run_app, R. cbn [run]. unfold serve in E. now rewrite E. }
  assert (goal_ids (sops ++ [o]) ++ map r_id q = subs) as Sq'.
  { unfold goal_ids. rewrite flat_map_app. fold (goal_ids sops) (goal_ids [o]). now rewrite <- app_assoc, Q. }
  assert (no_shutdown (sops ++ [o])) as Ns'.
  { intros J. apply in_app_or in J as [J|[J|[]]]; auto. }
  assert (NoDup (goal_ids (sops ++ [o]))) as Nd' by (apply (NoDup_app_left _ (map r_id q)); now rewrite Sq').
  assert (exists l, out s' = out (srvr a) ++ l) as (l & El).
  { destruct (grown_step _ _ _ _ _ _ _ _ _ E) as (gs & _ & G). eauto. }
  assert (skipn (length (out (srvr a))) (out s') = l) as Esk.
  { rewrite El, skipn_app, Nat.sub_diag, skipn_all. reflexivity. }
  rewrite Esk. split.
  - exists (sops ++ [o]). split; [exact R'|]. split; auto.
  - cbn [cl srvr pumping with_queues]. intros u p t0 Hp. specialize (P u p t0 Hp).
    enough (now (srvr a) <= now s')%N by lia.
    exact (step_now _ _ _ _ _ _ _ _ _ E).
  - cbn [cl srvr q_s q_r with_queues]. exists rs, rr. rewrite El, stats_app, ress_app, Es, Er, !app_assoc.
    split; auto. split; auto. intros id. specialize (Kk id). unfold K in *. cbn [goals mapped pumping with_queues].
    destruct (goals (cl a) id) as [g|]; auto. destruct Kk as (K1 & K2 & K3). split; auto. split.
    + intros M. destruct (K2 M) as (A1 & A2 & A3 & A4). repeat split; auto.
      intros t Et Tt Ft r J. apply in_app_or in J as [J|J]; [eauto|]. exfalso.
      assert (In (id, t) (stats (out (srvr a)))) as Js.
      { rewrite Es. apply in_or_app. left. apply last_word_in. congruence. }
      exact (no_new_result sops (srvr a) (sops ++ [o]) s' l id t r R R' Ns' Nd' El Js Tt Ft J).
    + intros M. destruct (K3 M) as [L|(A1 & t & A2 & A3 & A4 & A5)]; [now left|]. right. split; auto.
      exists t. repeat split; auto. intros Ft r J. rewrite app_assoc in J. apply in_app_or in J as [J|J]; [now apply (A5 Ft r)|].
      assert (In (id, t) (stats (out (srvr a)))) as Js by (rewrite Es; apply in_or_app; now left).
      exact (no_new_result sops (srvr a) (sops ++ [o]) s' l id t r R R' Ns' Nd' El Js A3 Ft J).
Qed.

(** *** Handling one message *)
Lemma put_eq f id g : put f id g id = Some g.
Proof. unfold put. now rewrite N.eqb_refl. Qed.
Lemma put_neq f id g i : i <> id -> put f id g i = f i.
Proof. intros E. unfold put. now rewrite (proj2 (N.eqb_neq i id) E). Qed.
Definition set_status (c : client) (t : N) (id : N) (s : gstatus) : client :=
  if is_mapped c id then
    match goals c id with
    | Some g => with_goals c (put (goals c) id {| st := Told s; res := res g; fbs := fbs g; upd := t;
                                                  counted := counted g |}) (mapped c)
    | None => c
    end
  else c.
Definition drop_rejected (c : client) (id : N) (s : gstatus) : client :=
  match s with Rejected => with_goals c (goals c) (unmap id (mapped c)) | _ => c end.
Lemma on_status_eq c t id s : on_status c t id s = sweep (drop_rejected (set_status c t id s) id s) t.
Proof. reflexivity. Qed.
Lemma last_word_other id i s l : id <> i -> last_word id (l ++ [(i, s)]) = last_word id l.
Proof. intros E. rewrite last_word_app. cbn. destruct (N.eqb_spec i id); [congruence|auto]. Qed.
Lemma set_status_same c t id s : mapped (set_status c t id s) = mapped c /\ pumping (set_status c t id s) = pumping c
  /\ forall i, i <> id -> goals (set_status c t id s) i = goals c i.
Proof.
  unfold set_status. destruct (is_mapped c id); auto. destruct (goals c id); auto. repeat split; auto.
  intros i E. cbn. now apply put_neq.
Qed.
Lemma K_status subs rs rr qr c t id0 s u p t0 : pumping c = Some (u, p, t0) -> (t0 <= t)%N ->
  (forall id, K subs rs rr qr c id) -> forall id, K subs (rs ++ [(id0, s)]) rr qr (set_status c t id0 s) id.
Proof.
  intros Hp Ht H id. specialize (H id). destruct (set_status_same c t id0 s) as (M & P & G).
  destruct (N.eq_dec id id0) as [->|E].
  - unfold K. rewrite M, P. unfold K in H. unfold set_status. destruct (is_mapped c id0) eqn:Im.
    + apply is_mapped_in in Im. destruct (goals c id0) as [g|] eqn:Eg; [|contradiction].
      cbn [goals with_goals]. rewrite put_eq. destruct H as (H1 & H2 & H3). split; auto. split; [|contradiction].
      intros _. destruct (H2 Im) as (A1 & A2 & A3 & A4). cbn [res st upd]. repeat split; auto.
      * rewrite last_word_app. cbn. now rewrite N.eqb_refl.
      * intros x _ _ _ r _. exists u, p, t0. auto.
    + apply is_mapped_out in Im. destruct (goals c id0) as [g|] eqn:Eg; auto.
      destruct H as (H1 & H2 & H3). split; auto. split; [contradiction|]. intros _.
      destruct (H3 Im) as [L|(A1 & x & A2 & A3 & A4 & A5)]; [now left|]. right. split; auto. exists x. repeat split; auto.
      apply in_or_app. now left.
  - unfold K. rewrite M, P, (G id E). unfold K in H. destruct (goals c id) as [g|]; auto.
    destruct H as (H1 & H2 & H3). split; auto. split.
    + intros Im. destruct (H2 Im) as (A1 & A2 & A3 & A4). rewrite last_word_other; auto.
    + intros Im. destruct (H3 Im) as [L|(A1 & x & A2 & A3 & A4 & A5)]; [now left|]. right. split; auto. exists x.
      repeat split; auto. apply in_or_app. now left.
Qed.
Lemma K_reject subs rs rr qr c id0 s : (s = Rejected -> firm Rejected -> forall r, ~ In (id0, r) (rr ++ qr)) ->
  (In id0 (mapped c) -> exists g, goals c id0 = Some g /\ st g = Told s) ->
  (forall id, K subs rs rr qr c id) -> forall id, K subs rs rr qr (drop_rejected c id0 s) id.
Proof.
  intros Hr Hs H id. unfold drop_rejected. destruct s; auto. specialize (H id).
  destruct (N.eq_dec id id0) as [->|E].
  - unfold K in *. cbn [goals mapped with_goals pumping]. destruct (goals c id0) as [g|]; rewrite in_unmap; [|tauto].
    destruct H as (H1 & H2 & H3). split; auto. split; [tauto|]. intros _.
    destruct (in_dec N.eq_dec id0 (mapped c)) as [Im|Nm]; [|now apply H3].
    destruct (H2 Im) as (A1 & A2 & A3 & A4). destruct (Hs Im) as (g' & Q & Es). injection Q as <-.
    right. split; auto. exists Rejected. repeat split; auto. apply last_word_in. congruence.
  - apply (K_ext subs _ _ _ _ c); auto. cbn [mapped with_goals]. rewrite in_unmap. tauto.
Qed.
Lemma K_sweep subs rs rr qr c t : (Pr -> forall u p t0, pumping c = Some (u, p, t0) -> (t - t0 <= grace)%N) ->
  (forall id, K subs rs rr qr c id) -> forall id, K subs rs rr qr (sweep c t) id.
Proof.
  intros Hp H id. specialize (H id). unfold K, sweep in *. cbn [goals mapped with_goals pumping].
  destruct (goals c id) as [g|] eqn:Eg; rewrite filter_In, negb_true_iff; unfold stale; rewrite Eg; [|tauto].
  destruct H as (H1 & H2 & H3). split; auto. split; [tauto|]. intros Nf.
  destruct (in_dec N.eq_dec id (mapped c)) as [Im|Nm]; [|now apply H3].
  destruct (over_ (st g) && (grace <? t - upd g)%N) eqn:Ov; [|tauto].
  apply andb_true_iff in Ov as (Ov & Lt). apply N.ltb_lt in Lt.
  destruct (H2 Im) as (A1 & A2 & A3 & A4). destruct (st g) as [|x] eqn:Es; [discriminate|]. cbn [over_] in Ov.
  right. split; auto. exists x. repeat split; auto; [apply last_word_in; congruence|].
  intros Ft r J. apply in_app_or in J as [J|J]; [now apply (A2 r)|].
  destruct (A4 x eq_refl Ov Ft r J) as (u & p & t0 & P & L). pose proof (Hp (proj1 Ft) u p t0 P). lia.
Qed.
Lemma K_feedback subs rs rr qr c t id0 x u p t0 : pumping c = Some (u, p, t0) -> (t0 <= t)%N ->
  (forall id, K subs rs rr qr c id) -> forall id, K subs rs rr qr (on_feedback c t id0 x) id.
Proof.
  intros Hp Ht H id. specialize (H id). unfold on_feedback.
  destruct (is_mapped c id0) eqn:Im; auto. destruct (goals c id0) as [g0|] eqn:Eg0; auto.
  unfold K in *. cbn [goals mapped with_goals pumping].
  destruct (N.eq_dec id id0) as [->|E]; [rewrite put_eq|rewrite put_neq by auto; auto].
  rewrite Eg0 in H. destruct H as (H1 & H2 & H3). split; auto. split; auto.
  intros M. destruct (H2 M) as (A1 & A2 & A3 & A4). cbn [st res upd]. repeat split; auto.
  intros y _ _ _ r _. exists u, p, t0. auto.
Qed.
Lemma K_result subs rs rr qr c t id0 s : terminal s = true ->
  (forall id, K subs rs rr ((id0, s) :: qr) c id) -> forall id, K subs rs (rr ++ [(id0, s)]) qr (on_result c t id0 s) id.
Proof.
  intros T H id. specialize (H id). unfold on_result. rewrite T.
  assert (forall c', goals c' id = goals c id -> mapped c' = mapped c -> pumping c' = pumping c ->
    id <> id0 \/ ~ In id (mapped c) ->
    K subs rs (rr ++ [(id0, s)]) qr (with_goals c' (goals c') (unmap id0 (mapped c'))) id) as Other.
  { intros c' G M P Q. unfold K in *. cbn [goals mapped with_goals pumping]. rewrite G, M, P.
    destruct (goals c id) as [g|]; rewrite in_unmap; [|tauto]. destruct H as (H1 & H2 & H3). split; auto. split.
    - intros (Im & E). destruct (H2 Im) as (A1 & A2 & A3 & A4). repeat split; auto.
      + intros r J. apply in_app_or in J as [J|[J|[]]]; [now apply (A2 r)|congruence].
      + intros y E1 E2 E3 r J. apply (A4 y E1 E2 E3 r). now right.
    - intros Nm. assert (~ In id (mapped c)) as Nm' by tauto. destruct (H3 Nm') as [(r & A1 & A2 & A3)|(A1 & y & A2 & A3 & A4 & A5)].
      + left. exists r. repeat split; auto. apply in_or_app. now left.
      + right. split; auto. exists y. repeat split; auto. intros Ft r J. apply (A5 Ft r).
        rewrite <- app_assoc in J. exact J. }
  destruct (N.eq_dec id id0) as [->|E].
  - destruct (is_mapped c id0) eqn:Im.
    + apply is_mapped_in in Im. unfold K in H. destruct (goals c id0) as [g|] eqn:Eg; [|contradiction].
      destruct H as (H1 & H2 & H3). unfold K. cbn [goals mapped with_goals pumping]. rewrite put_eq, in_unmap.
      split; auto. split; [tauto|]. intros _. left. exists s. cbn [res st]. repeat split; auto.
      apply in_or_app. right. now left.
    + apply is_mapped_out in Im. apply Other; auto.
  - apply Other; [| | |now left]; destruct (is_mapped c id0); auto; destruct (goals c id0); auto.
    cbn [goals with_goals]. now apply put_neq.
Qed.

Lemma K_pumping subs rs rr qr c pu : (forall u p t0, pumping c = Some (u, p, t0) -> qr = [] \/ exists v q, pu = Some (v, q, t0)) ->
  (forall id, K subs rs rr qr c id) -> forall id, K subs rs rr qr (with_pump c pu) id.
Proof.
  intros Hp H id. specialize (H id). unfold K in *. cbn [goals mapped with_pump pumping].
  destruct (goals c id) as [g|]; auto. destruct H as (H1 & H2 & H3). split; auto. split; auto.
  intros M. destruct (H2 M) as (A1 & A2 & A3 & A4). repeat split; auto. intros x E1 E2 E3 r J.
  destruct (A4 x E1 E2 E3 r J) as (u & p & t0 & P & L). destruct (Hp u p t0 P) as [->|(v & q & ->)]; [destruct J|].
  exists v, q, t0. auto.
Qed.
Lemma K_queues subs rs rr qr c a b r : (forall id, K subs rs rr qr c id) -> forall id, K subs rs rr qr (with_queues c a b r) id.
Proof. intros H id. exact (H id). Qed.

Lemma CI_client subs a c sops : served subs a sops -> 
  (forall u p t0, pumping c = Some (u, p, t0) -> (t0 <= now (srvr a))%N) ->
  (exists rs rr, stats (out (srvr a)) = rs ++ q_s c /\ ress (out (srvr a)) = rr ++ q_r c
     /\ forall id, K subs rs rr (q_r c) c id) ->
  CI subs {| srvr := srvr a; cl := c; reqs := reqs a |}.
Proof. intros S P Q. split; auto. exists sops. exact S. Qed.

Lemma drop_rejected_q c id s : q_s (drop_rejected c id s) = q_s c /\ q_r (drop_rejected c id s) = q_r c
  /\ pumping (drop_rejected c id s) = pumping c.
Proof. unfold drop_rejected. destruct s; auto. Qed.
Lemma set_status_q c t id s : q_s (set_status c t id s) = q_s c /\ q_r (set_status c t id s) = q_r c
  /\ pumping (set_status c t id s) = pumping c.
Proof. unfold set_status. destruct (is_mapped c id); auto. destruct (goals c id); auto. Qed.
Lemma on_feedback_q c t id x : q_s (on_feedback c t id x) = q_s c /\ q_r (on_feedback c t id x) = q_r c
  /\ pumping (on_feedback c t id x) = pumping c.
Proof. unfold on_feedback. destruct (is_mapped c id); auto. destruct (goals c id); auto. Qed.
Lemma on_result_q c t id s : q_s (on_result c t id s) = q_s c /\ q_r (on_result c t id s) = q_r c
  /\ pumping (on_result c t id s) = pumping c.
Proof.
  unfold on_result. destruct (is_mapped c id); [destruct (goals c id)|]; destruct (terminal s); auto.
Qed.

Lemma CI_pump_step subs a u : NoDup subs -> (Pr -> prompt1 a) -> CI subs a ->
  CI subs {| srvr := srvr a; cl := pump (cl a) (now (srvr a)) u; reqs := reqs a |}.
Proof.
  intros Nd Hp C. pose proof C as [(sops & S) P (rs & rr & Es & Er & Kk)].
  pose proof S as (R & Ns & Sq).
  assert (NoDup (goal_ids sops)) as Nd' by (apply (NoDup_app_left _ (map r_id (reqs a))); now rewrite Sq).
  apply (CI_client subs a _ sops S).
  - unfold pump. destruct (pumping (cl a)) as [[[v p] t0]|] eqn:Ep.
    + destruct (u =? v); [|intros; apply (P u0 p0 t1); congruence]. specialize (P v p t0 eq_refl). intros u1 p1 t1 Q.
      enough (t1 = t0) by lia.
      destruct p.
      * destruct (q_s (cl a)) as [|[i s] r]; [now inv Q|]. rewrite on_status_eq in Q. cbn [pumping sweep with_goals] in Q.
        rewrite (proj2 (proj2 (drop_rejected_q _ _ _))), (proj2 (proj2 (set_status_q _ _ _ _))) in Q. cbn in Q. congruence.
      * destruct (q_f (cl a)) as [|[i s] r]; [now inv Q|]. rewrite (proj2 (proj2 (on_feedback_q _ _ _ _))) in Q. cbn in Q. congruence.
      * destruct (q_r (cl a)) as [|[i s] r]; [now inv Q|]. rewrite (proj2 (proj2 (on_result_q _ _ _ _))) in Q. cbn in Q. congruence.
    + intros u1 p1 t1 Q. inv Q. lia.
  - unfold pump. destruct (pumping (cl a)) as [[[v p] t0]|] eqn:Ep.
    + destruct (u =? v); [|now exists rs, rr]. specialize (P v p t0 eq_refl). destruct p.
      * destruct (q_s (cl a)) as [|[i s] r] eqn:Eq.
        -- exists rs, rr. cbn [q_s q_r with_pump]. rewrite Eq. repeat split; auto.
           apply K_pumping; auto. intros u1 p1 t1 Q. right. exists u, PFeedback. congruence.
        -- exists (rs ++ [(i, s)]), rr. rewrite on_status_eq. cbn [q_s q_r sweep with_goals].
           set (c1 := with_queues (cl a) r (q_f (cl a)) (q_r (cl a))).
           destruct (drop_rejected_q (set_status c1 (now (srvr a)) i s) i s) as (D1 & D2 & D3).
           destruct (set_status_q c1 (now (srvr a)) i s) as (S1 & S2 & S3).
           rewrite D1, D2, S1, S2. cbn [q_s q_r with_queues c1].
           rewrite <- app_assoc. split; [now rewrite Es|]. split; auto.
           assert (forall id, K subs (rs ++ [(i, s)]) rr (q_r (cl a)) (set_status c1 (now (srvr a)) i s) id) as K1
             by (apply (K_status _ _ _ _ _ _ _ _ v PStatus t0); auto).
           apply K_sweep.
           ++ intros pr u1 p1 t1 Q. rewrite D3, S3 in Q. cbn in Q. specialize (Hp pr). unfold prompt1 in Hp.
              rewrite Ep in Hp. unfold grace. rewrite Ep in Q. now inv Q.
           ++ apply K_reject; auto.
              ** intros -> (pr & [To|[Q|Q]]) x J; try discriminate.
                 rewrite <- Er in J. destruct (server_status sops _ i x R J) as (J2 & T & Nr).
                 destruct (server_counts sops _ i R Ns Nd') as (_ & Z & _). specialize (Z To).
                 assert (In (MStatus i Rejected) (out (srvr a))) as J3.
                 { apply in_stats. rewrite Es. apply in_or_app. right. now left. }
                 apply in_stats in J2. pose proof (terminals_two i x Rejected _ J2 J3 T eq_refl Nr). lia.
              ** intros M. rewrite (proj1 (set_status_same _ _ _ _)) in M. specialize (Kk i). unfold K in Kk.
                 unfold set_status. assert (is_mapped c1 i = true) as -> by now apply is_mapped_in.
                 cbn [goals with_queues c1]. cbn [mapped with_queues c1] in M.
                 destruct (goals (cl a) i) as [g|]; [|contradiction]. cbn [goals with_goals]. rewrite put_eq. eexists. split; reflexivity.
      * destruct (q_f (cl a)) as [|[i x] r] eqn:Eq.
        -- exists rs, rr. cbn [q_s q_r with_pump]. repeat split; auto.
           apply K_pumping; auto. intros u1 p1 t1 Q. right. exists u, PResult. congruence.
        -- exists rs, rr. set (c1 := with_queues (cl a) (q_s (cl a)) r (q_r (cl a))).
           destruct (on_feedback_q c1 (now (srvr a)) i x) as (D1 & D2 & D3). rewrite D1, D2. repeat split; auto.
           apply (K_feedback _ _ _ _ _ _ _ _ v PFeedback t0); auto.
      * destruct (q_r (cl a)) as [|[i s] r] eqn:Eq.
        -- exists rs, rr. cbn [q_s q_r with_pump]. rewrite Eq. repeat split; auto.
           apply K_pumping; auto.
        -- exists rs, (rr ++ [(i, s)]). set (c1 := with_queues (cl a) (q_s (cl a)) (q_f (cl a)) r).
           destruct (on_result_q c1 (now (srvr a)) i s) as (D1 & D2 & D3). rewrite D1, D2. split; auto.
           cbn [q_r with_queues c1]. split; [now rewrite Er, <- app_assoc|].
           apply K_result; auto.
           apply (server_status sops _ i s R). rewrite Er. apply in_or_app. right. now left.
    + exists rs, rr. cbn [q_s q_r with_pump]. repeat split; auto. apply K_pumping; auto. intros u1 p1 t1 Q. congruence.
Qed.

Lemma K_count subs rs rr qr c : (forall id, K subs rs rr qr c id) -> forall id, K subs rs rr qr (count_all c) id.
Proof.
  intros H id. specialize (H id). unfold K, count_all in *. cbn [goals mapped pumping].
  destruct (goals c id) as [g|]; auto. destruct (_ && _); auto.
Qed.
Lemma CI_step subs a o a' : CI subs a -> cstep (serve w) a o = Some a' -> (forall id, o <> Register id) ->
  o <> Srv Shutdown -> NoDup (subs ++ submitted [o]) -> (Pr -> prompt1 a) -> CI (subs ++ submitted [o]) a'.
Proof.
  intros C H Nr Ns Nd Hp. pose proof C as [(sops & S) P (rs & rr & Es & Er & Kk)]. pose proof S as (R & Nsh & Sq).
  destruct o as [r|r|id| |o|u|u]; cbn [cstep submitted flat_map app] in *; rewrite ?app_nil_r in *.
  - injection H as <-. cbn [r_id]. split.
    + exists sops. split; [exact R|]. split; auto. cbn [reqs]. rewrite map_app, app_assoc, Sq. reflexivity.
    + cbn [cl srvr pumping register with_goals]. exact P.
    + exists rs, rr. cbn [cl srvr q_s q_r register with_goals]. split; auto. split; auto.
      assert (~ In (r_id r) (goal_ids sops)) as Nin.
      { intros J. apply NoDup_remove_2 in Nd. apply Nd. rewrite app_nil_r, <- Sq. apply in_or_app. now left. }
      assert (NoDup (goal_ids sops)) as Nd'.
      { apply (NoDup_app_left _ (map r_id (reqs a))). rewrite Sq. now apply (NoDup_app_left _ [r_id r]). }
      destruct (server_counts sops _ (r_id r) R Nsh Nd') as (_ & _ & F). destruct (F Nin) as (F1 & F2).
      apply K_send; auto.
      * intros x J. apply (F1 x). rewrite Es. apply in_or_app. now left.
      * intros x J. apply (F2 x). rewrite Er. apply in_or_app. now left.
  - injection H as <-. split.
    + exists sops. split; [exact R|]. split; auto. cbn [reqs]. rewrite map_app, app_assoc, Sq. reflexivity.
    + exact P.
    + exists rs, rr. cbn [cl srvr]. split; auto. split; auto. intros id. apply (K_ext subs _ _ _ _ (cl a)); auto; [|tauto].
      intros J. apply in_or_app. now left.
  - now destruct (Nr id).
  - destruct (reqs a) as [|r q] eqn:Eq; [now injection H as <-|].
    apply (CI_server subs a (Goal r) q a' sops S Nd C H); [discriminate|]. now rewrite Eq.
  - assert (by_server (serve w) a o (reqs a) = Some a' -> goal_ids [o] = [] -> CI subs a') as Go.
    { intros E G. apply (CI_server subs a o (reqs a) a' sops S Nd C E); [intros ->; now apply Ns|]. now rewrite G. }
    destruct o; try (now apply Go). now injection H as <-.
  - injection H as <-. now apply CI_pump_step.
  - injection H as <-. apply (CI_client subs a _ sops S).
    + unfold tick_count. destruct (pumping (cl a)) as [[[v p] t0]|] eqn:Ep; [destruct (u =? v)|]; cbn [pumping count_all].
      * rewrite Ep. exact P.
      * rewrite Ep. exact P.
      * rewrite Ep. discriminate.
    + exists rs, rr. unfold tick_count.
      destruct (pumping (cl a)) as [[[v p] t0]|] eqn:Ep; [destruct (u =? v)|]; cbn [q_s q_r count_all]; repeat split; auto; now apply K_count.
Qed.
Lemma submitted_app a b : submitted (a ++ b) = submitted a ++ submitted b.
Proof. apply flat_map_app. Qed.
Lemma CI_run ops : forall subs a a', CI subs a -> between w a ops = Some a' -> unsplit ops -> stays_up ops ->
  NoDup (subs ++ submitted ops) -> (Pr -> Forall prompt1 (visits w a ops)) -> CI (subs ++ submitted ops) a'.
Proof.
  induction ops as [|o ops IH]; intros subs a a' C H U S Nd Hp; unfold between in H; cbn [crun] in H.
  - injection H as <-. cbn. now rewrite app_nil_r.
  - destruct (cstep (serve w) a o) as [a1|] eqn:E; [|discriminate].
    change (o :: ops) with ([o] ++ ops) in Nd |- *. rewrite submitted_app, app_assoc in *.
    apply (IH _ a1); auto.
    + apply (CI_step subs a o a1); auto.
      * intros id ->. apply (U id). now left.
      * intros ->. apply S. now left.
      * now apply NoDup_app_left in Nd.
      * intros pr. specialize (Hp pr). now inv Hp.
    + intros id J. apply (U id). now right.
    + intros J. apply S. now right.
    + intros pr. specialize (Hp pr). cbn [visits] in Hp. rewrite E in Hp. now inv Hp.
Qed.

(** *** Handles out of the map no longer change *)
Lemma unmapped_step a o a' id g : cstep (serve w) a o = Some a' -> goals (cl a) id = Some g -> ~ In id (mapped (cl a)) ->
  ~ In id (submitted [o]) -> o <> Register id -> goals (cl a') id = Some g /\ ~ In id (mapped (cl a')).
Proof.
  intros H G M Ns Nr.
  assert (forall c t i, i <> id -> goals c id = Some g -> ~ In id (mapped c) ->
    goals (register c t i) id = Some g /\ ~ In id (mapped (register c t i))) as Reg.
  { intros c t i E G1 M1. unfold register. cbn [goals mapped with_goals]. rewrite put_neq by auto. split; auto.
    cbn [In]. rewrite in_unmap. intros [Q|Q]; tauto. }
  assert (forall o q, by_server (serve w) a o q = Some a' -> goals (cl a') id = Some g /\ ~ In id (mapped (cl a'))) as By.
  { intros o0 q E. unfold by_server in E. destruct (serve w (srvr a) o0); [|discriminate]. injection E as <-. auto. }
  destruct o as [r|r|i| |o|u|u]; cbn [cstep submitted flat_map app] in *.
  - injection H as <-. cbn [cl]. apply Reg; auto. intros Q. apply Ns. now left.
  - injection H as <-. auto.
  - injection H as <-. cbn [cl]. apply Reg; auto. congruence.
  - destruct (reqs a); [now injection H as <-|eauto].
  - destruct o; try (now apply By in H). now injection H as <-.
  - injection H as <-. cbn [cl]. unfold pump. destruct (pumping (cl a)) as [[[v p] t0]|]; [|auto].
    destruct (u =? v); auto. destruct p.
    + destruct (q_s (cl a)) as [|[i s] r]; auto. rewrite on_status_eq. cbn [goals mapped sweep with_goals].
      rewrite filter_In. set (c1 := with_queues (cl a) r (q_f (cl a)) (q_r (cl a))).
      destruct (set_status_same c1 (now (srvr a)) i s) as (Em & _ & Eg).
      assert (goals (drop_rejected (set_status c1 (now (srvr a)) i s) i s) = goals (set_status c1 (now (srvr a)) i s)) as ->
        by (destruct s; reflexivity).
      assert (In id (mapped (drop_rejected (set_status c1 (now (srvr a)) i s) i s)) -> In id (mapped (set_status c1 (now (srvr a)) i s)))
        as Sub by (destruct s; cbn [drop_rejected mapped with_goals]; auto; rewrite in_unmap; tauto).
      rewrite Em in Sub. split; [|intros [J _]; apply M, (Sub J)].
      destruct (N.eq_dec id i) as [->|E]; [|now rewrite Eg].
      unfold set_status. assert (is_mapped c1 i = false) as -> by now apply is_mapped_out. exact G.
    + destruct (q_f (cl a)) as [|[i s] r]; auto. unfold on_feedback.
      destruct (is_mapped _ i) eqn:Im; auto. destruct (goals _ i) eqn:Gi; auto. cbn [goals mapped with_goals].
      split; auto. rewrite put_neq; auto. intros ->. apply M. now apply is_mapped_in in Im.
    + destruct (q_r (cl a)) as [|[i s] r]; auto. unfold on_result.
      set (c1 := with_queues (cl a) (q_s (cl a)) (q_f (cl a)) r).
      set (c2 := if is_mapped c1 i then _ else c1).
      assert (goals c2 id = Some g /\ mapped c2 = mapped c1) as (G2 & M2).
      { unfold c2. destruct (is_mapped c1 i) eqn:Im; auto. destruct (goals c1 i) eqn:Gi; auto. cbn [goals mapped with_goals].
        split; auto. rewrite put_neq; auto. intros ->. apply M. now apply is_mapped_in in Im. }
      destruct (terminal s); cbn [goals mapped with_goals]; rewrite ?in_unmap, M2; auto. split; auto. intros [J _]. now apply M.
  - injection H as <-. cbn [cl]. unfold tick_count.
    assert (goals (count_all (cl a)) id = Some g /\ ~ In id (mapped (count_all (cl a)))) as Ct.
    { unfold count_all. cbn [goals mapped]. rewrite G. split; auto.
      change (existsb (N.eqb id) (mapped (cl a))) with (is_mapped (cl a) id).
      now rewrite (proj2 (is_mapped_out (cl a) id) M). }
    destruct (pumping (cl a)) as [[[v p] t0]|]; auto. destruct (u =? v); auto.
Qed.
Lemma unmapped_run ops : forall a a' id g, between w a ops = Some a' -> goals (cl a) id = Some g -> ~ In id (mapped (cl a)) ->
  ~ In id (submitted ops) -> unsplit ops -> goals (cl a') id = Some g.
Proof.
  induction ops as [|o ops IH]; intros a a' id g H G M Ns U; unfold between in H; cbn [crun] in H; [now injection H as <-|].
  destruct (cstep (serve w) a o) as [a1|] eqn:E; [|discriminate].
  change (o :: ops) with ([o] ++ ops) in Ns. rewrite submitted_app, in_app_iff in Ns.
  destruct (unmapped_step a o a1 id g E G M) as (G1 & M1); [tauto|intros ->; apply (U id); now left|].
  apply (IH a1); auto. intros i J. apply (U i). now right.
Qed.

(** *** Consequences *)
Lemma success_result subs a id g t : CI subs a -> Pr -> goals (cl a) id = Some g -> st g = Told t ->
  t = Succeeded \/ t = Preempted -> pumping (cl a) = None -> res g = Some t /\ ~ In id (mapped (cl a)).
Proof.
  intros [(sops & R & Ns & Sq) P (rs & rr & Es & Er & Kk)] pr G S Q Pu. specialize (Kk id). unfold K in Kk. rewrite G in Kk.
  destruct Kk as (K1 & K2 & K3).
  assert (firm t) as Ft by (split; auto). assert (terminal t = true) as T by (destruct Q as [-> | ->]; reflexivity).
  destruct (in_dec N.eq_dec id (mapped (cl a))) as [M|M].
  - exfalso. destruct (K2 M) as (A1 & A2 & A3 & A4).
    assert (In (id, t) (stats (out (srvr a)))) as J.
    { rewrite Es. apply in_or_app. left. apply last_word_in. congruence. }
    apply (server_result sops _ _ _ R) in J; auto. rewrite Er in J. apply in_app_or in J as [J|J]; [now apply (A2 t)|].
    destruct (A4 t S T Ft t J) as (u & p & t0 & E & _). congruence.
  - split; auto. destruct (K3 M) as [(r & A1 & A2 & A3)|(A1 & x & A2 & A3 & A4 & A5)]; [congruence|].
    exfalso. assert (x = t) as -> by congruence. apply (A5 Ft t).
    assert (In (id, t) (stats (out (srvr a)))) as J by (rewrite Es; apply in_or_app; now left).
    apply (server_result sops _ _ _ R) in J; auto. now rewrite Er in J.
Qed.
Lemma last_terminal sops s id t : after w sops = Some s -> no_shutdown sops -> NoDup (goal_ids sops) ->
  timeout (w_cfg w) = None -> In (id, t) (stats (out s)) -> terminal t = true -> last_word id (stats (out s)) = Told t.
Proof.
  intros R Ns Nd To J T. destruct (server_J sops s R Ns Nd) as [_ O].
  destruct (server_counts sops s id R Ns Nd) as (_ & Z & _). specialize (Z To).
  apply in_stats in J. apply in_split in J as (a & b & E). rewrite E.
  change (MStatus id t :: b) with ([MStatus id t] ++ b). rewrite !stats_app, last_word_app, fold_left_app.
  cbn [stats flat_map app fold_left fst snd]. rewrite N.eqb_refl. apply fold_skip. intros x J.
  apply in_stats in J. destruct (terminal x) eqn:Tx.
  - rewrite E in Z. change (MStatus id t :: b) with ([MStatus id t] ++ b) in Z. rewrite !T_app, T_status, T in Z.
    pose proof (terminals_in id x b J Tx). lia.
  - destruct x; try discriminate. apply in_split in J as (b1 & b2 & ->).
    change (MStatus id t :: b1 ++ ?z) with ((MStatus id t :: b1) ++ z) in E. rewrite app_assoc in E.
    pose proof (Ord_split _ _ O _ _ _ E) as Q. cbn [fine] in Q.
    pose proof (terminals_in id t (a ++ MStatus id t :: b1)) as Q2. rewrite Q in Q2. 
    assert (1 <= 0) by (apply Q2; auto; apply in_or_app; right; now left). lia.
Qed.
Lemma settle subs a id g : CI subs a -> Pr -> NoDup subs -> timeout (w_cfg w) = None -> goals (cl a) id = Some g ->
  q_s (cl a) = [] -> q_r (cl a) = [] ->
  st g = last_word id (stats (out (srvr a))) /\ (forall r, In (id, r) (ress (out (srvr a))) <-> res g = Some r).
Proof.
  intros [(sops & R & Ns & Sq) P (rs & rr & Es & Er & Kk)] pr Nds To G Qs Qr. specialize (Kk id). unfold K in Kk. rewrite G in Kk.
  assert (NoDup (goal_ids sops)) as Nd' by (apply (NoDup_app_left _ (map r_id (reqs a))); now rewrite Sq).
  destruct Kk as (K1 & K2 & K3). rewrite Qs, app_nil_r in Es. rewrite Qr, app_nil_r in Er. rewrite Qr, app_nil_r in K3.
  destruct (in_dec N.eq_dec id (mapped (cl a))) as [M|M].
  - destruct (K2 M) as (A1 & A2 & A3 & A4). rewrite Es. split; auto. intros r. rewrite Er, A1. split; [|discriminate].
    intros J. now destruct (A2 r).
  - destruct (K3 M) as [(r & A1 & A2 & A3)|(A1 & x & A2 & A3 & A4 & A5)].
    + rewrite <- Er in A3. destruct (server_status sops _ id r R A3) as (J & T & _). split.
      * rewrite A2. symmetry. now apply (last_terminal sops).
      * intros r'. rewrite A1. split.
        -- intros J'. f_equal. destruct (server_counts sops _ id R Ns Nd') as (Z & _).
           assert ({r = r'} + {r <> r'}) as [D|D] by decide equality; auto.
           apply in_ress in A3, J'. pose proof (results_two id r r' _ A3 J' D). lia.
        -- intros Q. now inv Q.
    + split.
      * rewrite A2. symmetry. apply (last_terminal sops); auto. now rewrite Es.
      * intros r. rewrite A1, Er. split; [|discriminate]. intros J. destruct (A5 (conj pr (or_introl To)) r J).
Qed.
Lemma truthful subs a id g : CI subs a -> goals (cl a) id = Some g ->
  (forall t, st g = Told t -> In (MStatus id t) (out (srvr a)))
  /\ (forall r, res g = Some r -> In (MResult id r) (out (srvr a)) /\ st g = Told r /\ ~ In id (mapped (cl a))).
Proof.
  intros [(sops & R & Ns & Sq) P (rs & rr & Es & Er & Kk)] G. specialize (Kk id). unfold K in Kk. rewrite G in Kk.
  destruct Kk as (K1 & K2 & K3).
  destruct (in_dec N.eq_dec id (mapped (cl a))) as [M|M].
  - destruct (K2 M) as (A1 & A2 & A3 & A4). split.
    + intros t E. apply in_stats. rewrite Es. apply in_or_app. left. apply last_word_in. congruence.
    + intros r E. congruence.
  - destruct (K3 M) as [(r & A1 & A2 & A3)|(A1 & x & A2 & A3 & A4 & A5)].
    + assert (In (id, r) (ress (out (srvr a)))) as J by (rewrite Er; apply in_or_app; now left). split.
      * intros t E. assert (t = r) as -> by congruence. apply in_stats. now apply (server_status sops _ id r R).
      * intros r' E. assert (r' = r) as -> by congruence. split; [now apply in_ress|auto].
    + split.
      * intros t E. assert (t = x) as -> by congruence. apply in_stats. rewrite Es. apply in_or_app. now left.
      * intros r E. congruence.
Qed.

Lemma one_pumper u subs a o a' : CI subs a -> Pr -> cstep (serve w) a o = Some a' -> (forall v, o = Pump v \/ o = Count v -> v = u) ->
  (forall v p t0, pumping (cl a) = Some (v, p, t0) -> v = u) -> m_ok (cl a) = 0 ->
  (forall v p t0, pumping (cl a') = Some (v, p, t0) -> v = u) /\ m_ok (cl a') = 0.
Proof.
  intros C pr H O Pu Mo.
  assert (forall o q, by_server (serve w) a o q = Some a' -> pumping (cl a') = pumping (cl a) /\ m_ok (cl a') = m_ok (cl a)) as By.
  { intros o0 q E. unfold by_server in E. destruct (serve w (srvr a) o0); [|discriminate]. injection E as <-. auto. }
  destruct o as [r|r|i| |o|v|v]; cbn [cstep] in H.
  - injection H as <-. auto.
  - injection H as <-. auto.
  - injection H as <-. auto.
  - destruct (reqs a); [now injection H as <-|]. apply By in H as (-> & ->). auto.
  - destruct o; try (apply By in H as (-> & ->); auto). injection H as <-. auto.
  - injection H as <-. cbn [cl]. specialize (O v (or_introl eq_refl)) as ->. unfold pump.
    destruct (pumping (cl a)) as [[[v p] t0]|] eqn:Ep.
    + rewrite (Pu v p t0 eq_refl). rewrite Nat.eqb_refl. 
      assert (forall c, pumping c = pumping (cl a) -> m_ok c = m_ok (cl a) ->
        (forall v0 p0 t1, pumping c = Some (v0, p0, t1) -> v0 = u) /\ m_ok c = 0) as Same.
      { intros c E1 E2. rewrite E1, E2. split; auto. intros v0 p0 t1 Q. apply (Pu v0 p0 t1). congruence. }
      destruct p.
      * destruct (q_s (cl a)) as [|[i s] r]; [cbn; split; auto; intros v0 p0 t1 Q; now inv Q|].
        apply Same; rewrite on_status_eq; unfold drop_rejected, set_status; cbn [sweep pumping m_ok with_goals];
          destruct (is_mapped _ i); [destruct (goals _ i)| |destruct (goals _ i)|]; destruct s; reflexivity.
      * destruct (q_f (cl a)) as [|[i s] r]; [cbn; split; auto; intros v0 p0 t1 Q; now inv Q|].
        apply Same; unfold on_feedback; destruct (is_mapped _ i); auto; destruct (goals _ i); auto.
      * destruct (q_r (cl a)) as [|[i s] r]; [cbn; split; auto; intros v0 p0 t1 Q; now inv Q|].
        apply Same; unfold on_result; destruct (is_mapped _ i); [destruct (goals _ i)| |destruct (goals _ i)|]; destruct (terminal s); reflexivity.
    + cbn. split; auto. intros v0 p0 t1 Q. now inv Q.
  - injection H as <-. cbn [cl]. specialize (O v (or_intror eq_refl)) as ->. unfold tick_count.
    destruct (pumping (cl a)) as [[[v p] t0]|] eqn:Ep.
    + rewrite (Pu v p t0 eq_refl), Nat.eqb_refl. rewrite Ep. auto.
    + cbn [pumping m_ok count_all]. rewrite Ep. split; [discriminate|]. rewrite Mo. cbn [Nat.add].
      assert (filter (uncounted (cl a) true) (mapped (cl a)) = []) as ->; auto.
      destruct (filter _ _) as [|id l] eqn:Ef; auto. exfalso.
      assert (In id (filter (uncounted (cl a) true) (mapped (cl a)))) as J by (rewrite Ef; now left).
      apply filter_In in J as (M & Un). unfold uncounted in Un. destruct (goals (cl a) id) as [g|] eqn:G; [|discriminate].
      destruct (st g) as [|t] eqn:S; [discriminate|].
      assert (t = Succeeded) as -> by (destruct t; rewrite ?andb_false_r in Un; cbn in Un; rewrite ?andb_false_r in Un; congruence).
      destruct (success_result subs a id g Succeeded C pr G S (or_introl eq_refl) Ep). contradiction.
Qed.
End Client.

(** ** Feedback *)
Definition of_id (id : N) (l : list (N * N)) : list N :=
  flat_map (fun p => if (fst p =? id)%N then [snd p] else []) l.
Lemma of_id_app id a b : of_id id (a ++ b) = of_id id a ++ of_id id b.
Proof. apply flat_map_app. Qed.
Lemma of_id_feeds id l : of_id id (feeds l) = feedback_of id l.
Proof.
  induction l as [|m l IH]; auto. unfold feeds, feedback_of in *. cbn [flat_map]. rewrite of_id_app, IH.
  f_equal. destruct m; cbn; rewrite ?app_nil_r; reflexivity.
Qed.
Lemma feeds_app a b : feeds (a ++ b) = feeds a ++ feeds b.
Proof. apply flat_map_app. Qed.
Lemma sublist_more {A} (l m n : list A) : sublist l m -> sublist l (m ++ n).
Proof. induction 1; cbn; now constructor. Qed.
Lemma sublist_refl {A} (l : list A) : sublist l l.
Proof. induction l; now constructor. Qed.
Lemma sublist_snoc {A} (x : A) l m : sublist l m -> sublist (l ++ [x]) (m ++ [x]).
Proof.
  induction 1; cbn; [|now constructor..]. induction m; cbn; [apply sublist_refl|now constructor].
Qed.
Definition FI (a : sys) : Prop :=
  exists rf, feeds (out (srvr a)) = rf ++ q_f (cl a)
    /\ forall id g, goals (cl a) id = Some g -> sublist (fbs g) (of_id id rf).
Lemma FI_step w a o a' : FI a -> cstep (serve w) a o = Some a' -> FI a'.
Proof.
  intros (rf & E & F) H.
  assert (forall o q, by_server (serve w) a o q = Some a' -> FI a') as By.
  { intros o0 q B. unfold by_server in B. destruct (serve w (srvr a) o0) as [s'|] eqn:Es; [|discriminate].
    injection B as <-.
    destruct (grown_step _ _ _ _ _ _ _ _ _ Es) as (gs & _ & G). exists rf. cbn [srvr cl q_f goals with_queues].
    rewrite G. split; [|exact F]. rewrite skipn_app, Nat.sub_diag, skipn_all, feeds_app, E, app_assoc. reflexivity. }
  assert (forall c, q_f c = q_f (cl a) -> (forall id g, goals c id = Some g -> exists g0, fbs g = [] \/ (goals (cl a) id = Some g0 /\ fbs g = fbs g0)) ->
    forall q, FI {| srvr := srvr a; cl := c; reqs := q |}) as Same.
  { intros c Q G q. exists rf. cbn [srvr cl]. rewrite Q. split; auto. intros id g Hg.
    destruct (G id g Hg) as (g0 & [-> | (G0 & ->)]); [constructor|now apply F]. }
  assert (forall c t i, q_f c = q_f (cl a) -> goals c = goals (cl a) -> forall q, FI {| srvr := srvr a; cl := register c t i; reqs := q |}) as Reg.
  { intros c t i Q G q. apply Same; auto. intros id g Hg. cbn [goals register with_goals] in Hg. unfold put in Hg.
    destruct (id =? i)%N; [injection Hg as <-; exists (fresh_gst t); now left|]. rewrite G in Hg. exists g. now right. }
  destruct o as [r|r|i| |o|u|u]; cbn [cstep] in H.
  - injection H as <-. now apply Reg.
  - injection H as <-. exists rf. auto.
  - injection H as <-. now apply Reg.
  - destruct (reqs a); [injection H as <-; now exists rf|eauto].
  - destruct o; try (now apply By in H). injection H as <-. now exists rf.
  - injection H as <-. unfold pump. destruct (pumping (cl a)) as [[[v p] t0]|]; [|now exists rf].
    destruct (u =? v); [|now exists rf]. destruct p.
    + destruct (q_s (cl a)) as [|[i s] r]; [now exists rf|]. rewrite on_status_eq.
      set (c1 := with_queues (cl a) r (q_f (cl a)) (q_r (cl a))). apply Same.
      * cbn [sweep q_f with_goals]. unfold drop_rejected, set_status.
        destruct s; cbn [q_f with_goals]; destruct (is_mapped c1 i); auto; destruct (goals c1 i); auto.
      * intros id g Hg.
        assert (goals (set_status c1 (now (srvr a)) i s) id = Some g) as Hg' by (destruct s; exact Hg).
        unfold set_status in Hg'. destruct (is_mapped c1 i); [|exists g; now right].
        destruct (goals c1 i) as [g1|] eqn:G1; [|exists g; now right]. cbn [goals with_goals] in Hg'. unfold put in Hg'.
        destruct (N.eqb_spec id i) as [->|]; [|exists g; now right].
        injection Hg' as <-. exists g1. right. split; auto.
    + destruct (q_f (cl a)) as [|[i x] r] eqn:Eq; [exists rf; cbn [srvr cl q_f goals with_pump]; now rewrite Eq|].
      exists (rf ++ [(i, x)]). cbn [srvr cl]. set (c1 := with_queues (cl a) (q_s (cl a)) r (q_r (cl a))).
      assert (q_f (on_feedback c1 (now (srvr a)) i x) = r) as ->.
      { unfold on_feedback. destruct (is_mapped c1 i); auto; destruct (goals c1 i); auto. }
      split; [now rewrite E, <- app_assoc|]. intros id g Hg. rewrite of_id_app. cbn [of_id flat_map fst snd].
      unfold on_feedback in Hg. destruct (is_mapped c1 i); [|apply sublist_more, F, Hg].
      destruct (goals c1 i) as [g1|] eqn:G1; [|apply sublist_more, F, Hg]. cbn [goals with_goals] in Hg. unfold put in Hg.
      rewrite N.eqb_sym. destruct (N.eqb_spec id i) as [->|].
      * injection Hg as <-. cbn [fbs app]. apply sublist_snoc. now apply F.
      * rewrite !app_nil_r. now apply F.
    + destruct (q_r (cl a)) as [|[i s] r]; [now exists rf|].
      set (c1 := with_queues (cl a) (q_s (cl a)) (q_f (cl a)) r). apply Same.
      * unfold on_result. destruct (is_mapped c1 i); [destruct (goals c1 i)|]; destruct (terminal s); auto.
      * intros id g Hg. unfold on_result in Hg.
        assert (goals (if is_mapped c1 i then match goals c1 i with
            | Some g => with_goals c1 (put (goals c1) i {| st := Told s; res := Some s; fbs := fbs g; upd := now (srvr a);
                                                  counted := counted g |}) (mapped c1) | None => c1 end else c1) id = Some g) as Hg'
          by (destruct (terminal s); exact Hg).
        destruct (is_mapped c1 i); [|exists g; now right].
        destruct (goals c1 i) as [g1|] eqn:G1; [|exists g; now right]. cbn [goals with_goals] in Hg'. unfold put in Hg'.
        destruct (N.eqb_spec id i) as [->|]; [|exists g; now right].
        injection Hg' as <-. exists g1. right. split; auto.
  - injection H as <-. unfold tick_count.
    assert (FI {| srvr := srvr a; cl := count_all (cl a); reqs := reqs a |}).
    { apply Same; auto. intros id g Hg. unfold count_all in Hg. cbn [goals] in Hg.
      destruct (goals (cl a) id) as [g0|] eqn:G0; [|discriminate]. exists g0. right. split; auto.
      destruct (_ && _); now injection Hg as <-. }
    assert (FI {| srvr := srvr a; cl := cl a; reqs := reqs a |}) by now exists rf.
    destruct (pumping (cl a)) as [[[v p] t0]|]; auto. destruct (u =? v); auto.
Qed.
Lemma FI_run w ops : forall a a', FI a -> between w a ops = Some a' -> FI a'.
Proof.
  induction ops as [|o ops IH]; intros a a' F H; unfold between in H; cbn [crun] in H; [now injection H as <-|].
  destruct (cstep (serve w) a o) as [a1|] eqn:E; [|discriminate]. apply (IH a1); auto. eapply FI_step; eauto.
Qed.
