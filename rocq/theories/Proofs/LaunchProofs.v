(** Proofs about launches. *)
From Coq Require Import String.
From Verif.Base Require Import Prelude Bytes AMap Str.
From Verif.Model Require Import Launch.
From Verif.Spec Require Import LaunchSpec.
From Coq Require Import Relations Permutation.
Local Open Scope N_scope.
Local Open Scope list_scope.

Lemma has_name_in k l : has_name k l = true <-> In k l.
Proof.
  unfold has_name. rewrite existsb_exists. split.
  - intros (x & I & E). apply beqb_spec in E. subst. exact I.
  - intros I. exists k. split; [exact I|apply beqb_spec; reflexivity].
Qed.
Lemma has_name_not k l : has_name k l = false <-> ~ In k l.
Proof. rewrite <- has_name_in. destruct (has_name k l); split; congruence. Qed.
Lemma node_named_some nodes d m : node_named nodes d = Some m -> In m nodes /\ l_name m = d.
Proof. intros H. apply find_some in H as [I E]. apply in_rev in I. apply beqb_spec in E. auto. Qed.
Lemma node_named_none nodes d : node_named nodes d = None <-> ~ In d (map l_name nodes).
Proof.
  split.
  - intros H I. apply in_map_iff in I as (n & E & I). apply in_rev in I. pose proof (find_none _ _ H n I) as F. cbn in F. assert (beqb (l_name n) d = true) by (apply beqb_spec; exact E). congruence.
  - intros H. destruct (node_named nodes d) as [m|] eqn:E; [|reflexivity]. apply node_named_some in E as [I <-]. exfalso. apply H, in_map, I.
Qed.

(** *** A visit that succeeds *)
Definition good (nodes : list LNode) (v : list bytes) (o : list LNode) : Prop :=
  v = rev (map l_name o) /\ NoDup (map l_name o) /\ (forall n, In n o -> In n nodes) /\ respects nodes o.
Definition extends (temp : list bytes) (o o' : list LNode) : Prop := exists ext, o' = o ++ ext /\ forall x, In x ext -> ~ In (l_name x) temp.
Lemma extends_refl t o : extends t o o.
Proof. exists []. rewrite app_nil_r. split; [reflexivity|intros x []]. Qed.
Lemma extends_trans t a b c : extends t a b -> extends t b c -> extends t a c.
Proof. intros (e1 & -> & H1) (e2 & -> & H2). exists (e1 ++ e2). rewrite app_assoc. split; [reflexivity|]. intros x I. apply in_app_iff in I as [I|I]; auto. Qed.
Lemma extends_names t o o' k : extends t o o' -> In k (map l_name o) -> In k (map l_name o').
Proof. intros (e & -> & _) I. rewrite map_app. apply in_or_app. left. exact I. Qed.
Lemma respects_snoc nodes o n : respects nodes o -> (forall d, In d (l_deps n) -> In d (map l_name nodes) -> In d (map l_name o)) -> respects nodes (o ++ [n]).
Proof.
  intros R H before m after E d Id Il. destruct after as [|x after _] using rev_ind.
  - apply app_inj_tail in E as [-> ->]. apply H; auto.
  - change (before ++ m :: after ++ [x]) with (before ++ (m :: after) ++ [x]) in E. rewrite app_assoc in E. apply app_inj_tail in E as [-> _]. eapply R; eauto.
Qed.
Lemma visit_deps_good nodes go temp :
  (forall m v o v' o', In m nodes -> good nodes v o -> go m v o = VOk v' o' -> good nodes v' o' /\ extends temp o o' /\ In (l_name m) (map l_name o')) ->
  forall ds v o v' o', good nodes v o -> visit_deps go nodes ds v o = VOk v' o' ->
    good nodes v' o' /\ extends temp o o' /\ forall d, In d ds -> In d (map l_name nodes) -> In d (map l_name o').
Proof.
  intros GO. induction ds as [|d ds IH]; intros v o v' o' G H; cbn [visit_deps] in H.
  - injection H as <- <-. split; [exact G|]. split; [apply extends_refl|intros d []].
  - destruct (node_named nodes d) as [m|] eqn:E.
    + apply node_named_some in E as [Im Em]. destruct (go m v o) as [v1 o1| |] eqn:V; try discriminate.
      destruct (GO m v o v1 o1 Im G V) as (G1 & X1 & I1). destruct (IH v1 o1 v' o' G1 H) as (G2 & X2 & I2). split; [exact G2|]. split; [eapply extends_trans; eauto|].
      intros k [<-|I] Il; [|auto]. rewrite Em in I1. eapply extends_names; eauto.
    + destruct (IH v o v' o' G H) as (G2 & X2 & I2). split; [exact G2|]. split; [exact X2|]. intros k [<-|I] Il; [|auto]. apply node_named_none in E. contradiction.
Qed.
Lemma visit_good nodes fuel : forall n temp v o v' o', In n nodes -> good nodes v o -> visit fuel nodes n v temp o = VOk v' o' ->
  good nodes v' o' /\ extends temp o o' /\ In (l_name n) (map l_name o').
Proof.
  induction fuel as [|f IH]; intros n temp v o v' o' In_n G H; [discriminate|]. cbn [visit] in H.
  destruct (has_name (l_name n) temp) eqn:T; [discriminate|]. destruct (has_name (l_name n) v) eqn:V.
  - injection H as <- <-. split; [exact G|]. split; [apply extends_refl|]. apply has_name_in in V. destruct G as (-> & _). apply in_rev in V. exact V.
  - destruct (visit_deps _ nodes (l_deps n) v o) as [v1 o1| |] eqn:D; try discriminate. injection H as <- <-.
    apply (visit_deps_good nodes _ (l_name n :: temp)) in D; [|intros m v2 o2 v3 o3 Im Gm; apply IH; auto|exact G].
    destruct D as ((Ev & Nd & Sub & R) & (ext & -> & X) & Dep). apply has_name_not in T, V.
    assert (Fresh : ~ In (l_name n) (map l_name (o ++ ext))).
    { rewrite map_app, in_app_iff. intros [I|I].
      - apply V. destruct G as (-> & _). apply in_rev in I. exact I.
      - apply in_map_iff in I as (x & Ex & I). apply (X x I). left. symmetry. exact Ex. }
    split; [|split].
    + split; [|split; [|split]].
      * rewrite Ev, (map_app _ (o ++ ext)), rev_app_distr. reflexivity.
      * rewrite map_app. cbn [map]. apply (Permutation_NoDup (l := l_name n :: map l_name (o ++ ext))); [apply Permutation_cons_append|]. constructor; assumption.
      * intros x I. apply in_app_iff in I as [I|[<-|[]]]; auto.
      * apply respects_snoc; auto.
    + exists (ext ++ [n]). rewrite app_assoc. split; [reflexivity|]. intros x I. apply in_app_iff in I as [I|[<-|[]]]; [|exact T]. intros Y. apply (X x I). right. exact Y.
    + rewrite map_app, in_app_iff. right. left. reflexivity.
Qed.
Lemma visit_all_good nodes todo : (forall n, In n todo -> In n nodes) -> forall v o v' o', good nodes v o -> visit_all nodes todo v o = VOk v' o' ->
  good nodes v' o' /\ (forall k, In k (map l_name o) \/ In k (map l_name todo) -> In k (map l_name o')).
Proof.
  induction todo as [|n r IH]; intros Sub v o v' o' G H; cbn [visit_all] in H.
  - injection H as <- <-. split; [exact G|]. intros k [I|[]]. exact I.
  - destruct (visit _ nodes n v [] o) as [v1 o1| |] eqn:V; try discriminate. apply visit_good in V as (G1 & X1 & I1); [|apply Sub; left; reflexivity|exact G].
    apply IH in H as [G2 C2]; [|intros x I; apply Sub; right; exact I|exact G1]. split; [exact G2|]. intros k [I|[<-|I]]; apply C2; [left; eapply extends_names; eauto|left; exact I1|right; exact I].
Qed.
Lemma good_nil nodes : good nodes [] [].
Proof. split; [reflexivity|]. split; [constructor|]. split; [intros n []|]. intros b n a E. destruct b; discriminate. Qed.
Lemma sort_good nodes v o : sort_by_dependencies nodes = VOk v o ->
  NoDup (map l_name o) /\ (forall n, In n o -> In n nodes) /\ respects nodes o /\ forall k, In k (map l_name nodes) -> In k (map l_name o).
Proof.
  intros H. apply visit_all_good in H as [(_ & A & B & C) D]; [|auto|apply good_nil]. split; [exact A|]. split; [exact B|]. split; [exact C|]. intros k I. apply D. right. exact I.
Qed.
Lemma same_name nodes a b : distinct_names nodes -> In a nodes -> In b nodes -> l_name a = l_name b -> a = b.
Proof.
  intros D A B E. induction nodes as [|x l IH]; [destruct A|]. apply NoDup_cons_iff in D as [D1 D2]. destruct A as [->|A], B as [->|B]; auto.
  - exfalso. apply D1. rewrite E. apply in_map, B.
  - exfalso. apply D1. rewrite <- E. apply in_map, A.
Qed.
Lemma sort_permutation nodes v o : distinct_names nodes -> sort_by_dependencies nodes = VOk v o -> Permutation o nodes.
Proof.
  intros D H. apply sort_good in H as (A & B & _ & C). apply NoDup_Permutation.
  - eapply NoDup_map_inv; eauto.
  - eapply NoDup_map_inv; eauto.
  - intros n. split; [apply B|]. intros I. assert (I' : In (l_name n) (map l_name o)) by (apply C, in_map, I). apply in_map_iff in I' as (m & E & Im). rewrite <- (same_name nodes m n D (B m Im) I E). exact Im.
Qed.

(** *** A visit that fails *)
Definition reach (nodes : list LNode) (temp : list bytes) (k : bytes) : Prop := forall t, In t temp -> clos_trans bytes (needs nodes) t k.
Lemma visit_deps_cycle nodes go (P : LNode -> Prop) : (forall m v o k, P m -> go m v o = VCycle k -> circular nodes) ->
  forall ds, (forall d m, In d ds -> node_named nodes d = Some m -> P m) -> forall v o k, visit_deps go nodes ds v o = VCycle k -> circular nodes.
Proof.
  intros GO. induction ds as [|d ds IH]; intros HP v o k H; cbn [visit_deps] in H; [discriminate|]. destruct (node_named nodes d) as [m|] eqn:E.
  - destruct (go m v o) as [v1 o1|c|] eqn:V; [|eapply GO; eauto; eapply HP; eauto; left; reflexivity|discriminate]. eapply IH; eauto. intros d' m' I. apply HP. right. exact I.
  - eapply IH; eauto. intros d' m' I. apply HP. right. exact I.
Qed.
Lemma visit_cycle nodes fuel : forall n temp v o k, In n nodes -> reach nodes temp (l_name n) -> visit fuel nodes n v temp o = VCycle k -> circular nodes.
Proof.
  induction fuel as [|f IH]; intros n temp v o k I R H; [discriminate|]. cbn [visit] in H. destruct (has_name (l_name n) temp) eqn:T.
  - apply has_name_in in T. exists (l_name n). apply R, T.
  - destruct (has_name (l_name n) v); [discriminate|]. destruct (visit_deps _ nodes (l_deps n) v o) as [v1 o1|c|] eqn:D; try discriminate.
    eapply (visit_deps_cycle nodes _ (fun m => In m nodes /\ In (l_name m) (l_deps n))) in D; [exact D| |].
    + intros m v2 o2 k2 [Im Id] V. eapply IH; [exact Im| |exact V].
      assert (Ed : needs nodes (l_name n) (l_name m)) by (exists n; split; [exact I|]; split; [reflexivity|]; split; [exact Id|apply in_map, Im]).
      intros t [<-|It]; [apply t_step, Ed|]. eapply t_trans; [apply R, It|apply t_step, Ed].
    + intros d m Id Nm. apply node_named_some in Nm as [Im <-]. auto.
Qed.
Lemma sort_cycle nodes k : sort_by_dependencies nodes = VCycle k -> circular nodes.
Proof.
  unfold sort_by_dependencies. assert (G : forall todo v o, (forall n, In n todo -> In n nodes) -> visit_all nodes todo v o = VCycle k -> circular nodes).
  { induction todo as [|n r IH]; intros v o Sub H; cbn [visit_all] in H; [discriminate|]. destruct (visit _ nodes n v [] o) as [v1 o1|c|] eqn:V; try discriminate.
    - eapply IH; eauto. intros x I. apply Sub. right. exact I.
    - eapply visit_cycle; eauto; [apply Sub; left; reflexivity|intros t []]. }
  intros H. eapply G; eauto.
Qed.
Lemma order_no_cycle nodes o : distinct_names nodes -> (forall n, In n o -> In n nodes) -> respects nodes o -> (forall k, In k (map l_name nodes) -> In k (map l_name o)) -> ~ circular nodes.
Proof.
  intros D B R C (a & Cy).
  assert (Step : forall x y, needs nodes x y -> forall i, nth_error (map l_name o) i = Some x -> exists j, (j < i)%nat /\ nth_error (map l_name o) j = Some y).
  { intros x y (n & In_n & En & Id & Il) i Hi. rewrite nth_error_map in Hi. destruct (nth_error o i) as [m|] eqn:Em; [|discriminate]. injection Hi as Hi.
    assert (m = n) by (apply (same_name nodes); auto; [apply B; eapply nth_error_In; eauto|congruence]). subst m. apply nth_error_split in Em as (b & c & Eo & Lb).
    pose proof (R b n c Eo y Id Il) as Iy. apply In_nth_error in Iy as (j & Hj). exists j. assert (j < length (map l_name b))%nat by (apply nth_error_Some; congruence). rewrite map_length in H.
    split; [lia|]. rewrite Eo, map_app, nth_error_app1; [exact Hj|rewrite map_length; lia]. }
  assert (Tr : forall x y, clos_trans bytes (needs nodes) x y -> forall i, nth_error (map l_name o) i = Some x -> exists j, (j < i)%nat /\ nth_error (map l_name o) j = Some y).
  { intros x y T. induction T as [x y S|x y z T1 I1 T2 I2]; [apply Step, S|]. intros i Hi. destruct (I1 i Hi) as (j & Lj & Hj). destruct (I2 j Hj) as (k & Lk & Hk). exists k. split; [lia|exact Hk]. }
  assert (Ia : In a (map l_name o)).
  { apply C. apply clos_trans_t1n in Cy. inversion Cy as [y S|y z S _]; subst; destruct S as (n & In_n & <- & _); apply in_map, In_n. }
  apply In_nth_error in Ia as (i & Hi). revert Hi. induction i as [i IH] using lt_wf_ind. intros Hi. destruct (Tr a a Cy i Hi) as (j & Lj & Hj). eapply IH; eauto.
Qed.
(** *** The recursion ends *)
Lemma visit_fuel nodes fuel : forall n temp v o, In n nodes -> NoDup temp -> incl temp (map l_name nodes) -> (S (length nodes) <= fuel + length temp)%nat ->
  visit fuel nodes n v temp o <> VFuel.
Proof.
  induction fuel as [|f IH]; intros n temp v o I Nd Sub L.
  - exfalso. apply (NoDup_incl_length Nd) in Sub. rewrite map_length in Sub. lia.
  - cbn [visit]. destruct (has_name (l_name n) temp) eqn:T; [discriminate|]. destruct (has_name (l_name n) v); [discriminate|]. apply has_name_not in T.
    assert (G : forall ds v o, visit_deps (fun m v o => visit f nodes m v (l_name n :: temp) o) nodes ds v o <> VFuel).
    { induction ds as [|d ds IHd]; intros v1 o1; cbn [visit_deps]; [discriminate|]. destruct (node_named nodes d) as [m|] eqn:E; [|apply IHd]. apply node_named_some in E as [Im _].
      assert (V : visit f nodes m v1 (l_name n :: temp) o1 <> VFuel).
      { apply IH; [exact Im|constructor; assumption|intros x [<-|Ix]; [apply in_map, I|apply Sub, Ix]|cbn [length]; lia]. }
      destruct (visit f nodes m v1 (l_name n :: temp) o1); [apply IHd|discriminate|congruence]. }
    specialize (G (l_deps n) v o). destruct (visit_deps _ nodes (l_deps n) v o); congruence.
Qed.
Lemma sort_total nodes : sort_by_dependencies nodes <> VFuel.
Proof.
  unfold sort_by_dependencies. assert (G : forall todo v o, (forall n, In n todo -> In n nodes) -> visit_all nodes todo v o <> VFuel).
  { induction todo as [|n r IH]; intros v o Sub; cbn [visit_all]; [discriminate|].
    assert (V : visit (S (length nodes)) nodes n v [] o <> VFuel) by (apply visit_fuel; [apply Sub; left; reflexivity|constructor|intros x []|cbn; lia]).
    destruct (visit (S (length nodes)) nodes n v [] o); [apply IH; intros x I; apply Sub; right; exact I|discriminate|congruence]. }
  apply G. auto.
Qed.

(** *** Starting *)
Lemma start_started spawn todo : forall started ps, start_all spawn todo started = LStarted ps ->
  exists new, ps = started ++ new /\ map fst new = todo /\ (forall n pid, In (n, pid) new -> spawn n = Some pid) /\
    forall before n after, todo = before ++ n :: after -> forall d, In d (l_deps n) -> In d (map (fun p => l_name (fst p)) started ++ map l_name before).
Proof.
  induction todo as [|n r IH]; intros started ps H; cbn [start_all] in H.
  - injection H as <-. exists []. rewrite app_nil_r. split; [reflexivity|]. split; [reflexivity|]. split; [intros n pid []|]. intros b n a E. destruct b; discriminate.
  - destruct (find _ (l_deps n)) as [d|] eqn:F; [discriminate|]. destruct (spawn n) as [pid|] eqn:Sp; [|discriminate].
    apply IH in H as (new & -> & A & B & C). exists ((n, pid) :: new). rewrite <- app_assoc. split; [reflexivity|]. split; [cbn [map fst]; rewrite A; reflexivity|]. split.
    + intros m q [E|I]; [injection E as <- <-; exact Sp|apply B, I].
    + intros b m a E d Id. destruct b as [|x b]; cbn [app] in E; injection E as E1 E2.
      * subst m. cbn [map]. rewrite app_nil_r. pose proof (find_none _ _ F d Id) as X. cbn in X. apply negb_false_iff, has_name_in in X. exact X.
      * subst x. pose proof (C b m a E2 d Id) as X. rewrite map_app in X. cbn [map fst] in X. rewrite <- app_assoc in X. exact X.
Qed.
Lemma start_missing spawn todo : forall started d k left, start_all spawn todo started = LMissing d k left -> exists new, left = map snd started ++ new.
Proof.
  induction todo as [|n r IH]; intros started d k left H; cbn [start_all] in H; [discriminate|]. destruct (find _ (l_deps n)) as [x|]; [injection H as _ _ <-; exists []; rewrite app_nil_r; reflexivity|].
  destruct (spawn n) as [pid|]; [|discriminate]. apply IH in H as (new & ->). exists (pid :: new). rewrite map_app, <- app_assoc. reflexivity.
Qed.
Lemma start_failed spawn todo : forall started k left, start_all spawn todo started = LFailed k left -> left = [].
Proof.
  induction todo as [|n r IH]; intros started k left H; cbn [start_all] in H; [discriminate|]. destruct (find _ (l_deps n)); [discriminate|]. destruct (spawn n); [eapply IH; eauto|congruence].
Qed.

(** *** Rounds *)
Lemma force_pids name ps : map p_pid (force_restart name ps) = map p_pid ps.
Proof. induction ps as [|p r IH]; cbn [force_restart map]; [reflexivity|]. destruct (beqb (p_name p) name); cbn [map p_pid]; [reflexivity|]. rewrite IH. reflexivity. Qed.
Lemma command_frame c l : let l' := fst (fst (command c l)) in lc_alive l' = lc_alive l /\ lc_session l' = lc_session l /\ map p_pid (lc_procs l') = map p_pid (lc_procs l) /\
  map p_name (lc_procs l') = map p_name (lc_procs l) /\ map p_count (lc_procs l') = map p_count (lc_procs l) /\ map p_backoff (lc_procs l') = map p_backoff (lc_procs l).
Proof.
  destruct c as [name|name|]; cbn [command fst]; try (repeat split; reflexivity). destruct (find _ (lc_procs l)); cbn [fst lc_alive lc_session lc_procs]; [|repeat split; reflexivity].
  split; [reflexivity|]. split; [reflexivity|]. clear. induction (lc_procs l) as [|p r IH]; cbn [force_restart map]; [repeat split; reflexivity|]. destruct (beqb (p_name p) name); cbn [map p_pid p_name p_count p_backoff]; [repeat split; reflexivity|].
  destruct IH as (A & B & C & D). rewrite A, B, C, D. repeat split; reflexivity.
Qed.
Lemma commands_frame cs : forall l, let l' := fst (fst (commands cs l)) in lc_alive l' = lc_alive l /\ lc_session l' = lc_session l /\ map p_pid (lc_procs l') = map p_pid (lc_procs l) /\
  map p_name (lc_procs l') = map p_name (lc_procs l) /\ map p_count (lc_procs l') = map p_count (lc_procs l) /\ map p_backoff (lc_procs l') = map p_backoff (lc_procs l).
Proof.
  induction cs as [|c r IH]; intros l; cbn [commands]; cbv zeta; [cbn [fst]; repeat split; reflexivity|].
  pose proof (command_frame c l) as F. destruct (command c l) as [[l1 s1] b1]. cbn [fst] in F. specialize (IH l1). destruct (commands r l1) as [[l2 s2] b2]. cbn [fst] in *.
  destruct F as (F1 & F2 & F3 & F4 & F5 & F6). destruct IH as (I1 & I2 & I3 & I4 & I5 & I6). repeat split; congruence.
Qed.
(** What the tended processes are, and which are gone and new. *)
Lemma tend_all_pids ps : forall os x, let '(qs, t, gone, new) := tend_all ps os in
  (In x new -> In x (map p_pid qs)) /\ (In x (map p_pid ps) -> In x gone \/ In x (map p_pid qs)).
Proof.
  induction ps as [|p r IH]; intros os x; [destruct os; cbn; tauto|]. destruct os as [|o os]; [cbn [tend_all]; split; [intros []|auto]|]. cbn [tend_all].
  specialize (IH os x). destruct (tend_all r os) as [[[qs t'] g'] n']. destruct IH as [A B].
  destruct o as [|ok [q|]]; cbn [tend]; [|destruct (should_restart (p_restart p) ok && (p_count p <? MAX_RESTARTS))..]; cbn [map p_pid app In]; rewrite ?in_app_iff; cbn [In]; intuition.
Qed.
Lemma round_sound l r : sound l -> sound (fst (fst (fst (round l r)))).
Proof.
  intros S. unfold round. pose proof (commands_frame (r_cmds r) l) as F. destruct (commands (r_cmds r) l) as [[l1 s1] stop]. cbn [fst] in F. destruct F as (F1 & _ & F3 & _).
  assert (S1 : sound l1) by (unfold sound; rewrite F1, F3; exact S). destruct (r_estop r); [exact S1|].
  pose proof (tend_all_pids (lc_procs l1) (r_obs r)) as T. destruct (tend_all (lc_procs l1) (r_obs r)) as [[[ps t] gone] new]. cbn [fst].
  intros x I. cbn [lc_alive lc_procs] in *. destruct (T x) as [Tn Tg]. apply in_app_iff in I as [I|I]; [|apply Tn, I]. apply filter_In in I as [I N]. destruct (Tg (S1 x I)) as [G|G]; [|exact G].
  exfalso. apply negb_true_iff in N. assert (existsb (N.eqb x) gone = true) by (apply existsb_exists; exists x; split; [exact G|apply N.eqb_refl]). congruence.
Qed.
Lemma rounds_sound rs : forall l, sound l -> sound (fst (rounds l rs)).
Proof.
  induction rs as [|r rest IH]; intros l S; cbn [rounds]; [exact S|]. pose proof (round_sound l r S) as S1. destruct (round l r) as [[[l1 s1] t] b]. cbn [fst] in S1. specialize (IH l1 S1). destruct (rounds l1 rest). exact IH.
Qed.
Lemma shut_down_nil l : sound l -> shut_down l = [].
Proof.
  intros S. unfold shut_down. revert S. unfold sound. generalize (lc_alive l) as a. induction a as [|x a IH]; intros S; [reflexivity|]. cbn [filter].
  assert (E : existsb (N.eqb x) (map p_pid (lc_procs l)) = true) by (apply existsb_exists; exists x; split; [apply S; left; reflexivity|apply N.eqb_refl]). rewrite E. cbn [negb]. apply IH. intros y I. apply S. right. exact I.
Qed.
(** *** Restarts *)
Definition counted (p : Proc) : Prop := p_count p <= 10 /\ p_backoff p = wait_before (p_count p).
Lemma wait_next k : N.min (wait_before k * 2) MAX_BACKOFF = wait_before (k + 1).
Proof. unfold wait_before, MAX_BACKOFF. rewrite N.add_1_r, N.pow_succ_r'. lia. Qed.
Lemma tend_counted p o : counted p -> match fst (fst (fst (tend p o))) with Some q => counted q | None => True end.
Proof.
  intros [A B]. destruct o as [|ok [q|]]; cbn [tend fst]; [split; assumption|destruct (should_restart (p_restart p) ok && (p_count p <? MAX_RESTARTS)) eqn:E; cbn [fst]; [|exact I]..]; [|exact I].
  apply andb_true_iff in E as [_ E]. apply N.ltb_lt in E. unfold MAX_RESTARTS in E. split; cbn [p_count p_backoff]; [lia|]. rewrite B. apply wait_next.
Qed.
Lemma tend_all_counted ps : forall os, Forall counted ps -> Forall counted (fst (fst (fst (tend_all ps os)))).
Proof.
  induction ps as [|p r IH]; intros os F; [destruct os; constructor|]. destruct os as [|o os]; [exact F|]. cbn [tend_all]. inversion F as [|? ? Cp Cr]; subst.
  pose proof (tend_counted p o Cp) as T. destruct (tend p o) as [[[q t] g] n]. cbn [fst] in T. specialize (IH os Cr). destruct (tend_all r os) as [[[qs t'] g'] n']. cbn [fst] in *.
  destruct q as [q|]; [constructor; assumption|exact IH].
Qed.
Lemma counted_ext ps qs : map p_count qs = map p_count ps -> map p_backoff qs = map p_backoff ps -> Forall counted ps -> Forall counted qs.
Proof.
  revert qs. induction ps as [|p ps IH]; intros [|q qs] A B F; try discriminate; [constructor|]. cbn [map] in A, B. injection A as A1 A2. injection B as B1 B2. inversion F as [|? ? [C1 C2] F2]; subst.
  constructor; [split; congruence|apply IH; assumption].
Qed.
Lemma round_counted l r : Forall counted (lc_procs l) -> Forall counted (lc_procs (fst (fst (fst (round l r))))).
Proof.
  intros S. unfold round. pose proof (commands_frame (r_cmds r) l) as F. destruct (commands (r_cmds r) l) as [[l1 s1] stop]. cbn [fst] in F. destruct F as (_ & _ & _ & _ & F5 & F6).
  assert (S1 : Forall counted (lc_procs l1)) by (eapply counted_ext; eauto). destruct (r_estop r); [exact S1|].
  pose proof (tend_all_counted (lc_procs l1) (r_obs r) S1) as T. destruct (tend_all (lc_procs l1) (r_obs r)) as [[[ps t] gone] new]. exact T.
Qed.
Lemma rounds_counted rs : forall l, Forall counted (lc_procs l) -> Forall counted (lc_procs (fst (rounds l rs))).
Proof.
  induction rs as [|r rest IH]; intros l S; cbn [rounds]; [exact S|]. pose proof (round_counted l r S) as S1. destruct (round l r) as [[[l1 s1] t] b]. cbn [fst] in S1. specialize (IH l1 S1). destruct (rounds l1 rest). exact IH.
Qed.
Lemma watch_counted ps : Forall counted (lc_procs (watch_from ps)).
Proof. cbn [watch_from lc_procs]. apply Forall_forall. intros p I. apply in_map_iff in I as (x & <- & _). split; cbn; [lia|reflexivity]. Qed.
Lemma watch_sound ps : sound (watch_from ps).
Proof. intros x I. cbn [watch_from lc_alive lc_procs] in *. rewrite map_map. exact I. Qed.
(** The sleep of a round. *)
Lemma wait_le k : wait_before k <= 10000.
Proof. unfold wait_before. lia. Qed.
Lemma tend_all_sleep ps : forall os, Forall counted ps -> snd (fst (fst (tend_all ps os))) <= 10000 * N.of_nat (length ps).
Proof.
  induction ps as [|p r IH]; intros os F; [destruct os; cbn; lia|]. destruct os as [|o os]; [cbn; lia|]. cbn [tend_all]. inversion F as [|? ? [_ Cp] Cr]; subst.
  assert (T : snd (fst (fst (tend p o))) <= 10000) by (pose proof (wait_le (p_count p)); destruct o as [|ok [q|]]; cbn [tend]; [|destruct (_ && _)..]; cbn; lia).
  destruct (tend p o) as [[[q t] g] n]. specialize (IH os Cr). destruct (tend_all r os) as [[[qs t'] g'] n']. cbn [fst snd length] in *. lia.
Qed.
