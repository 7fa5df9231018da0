(** Proofs about deterministic runs. *)
From Verif Require Import Base.Prelude Model.DepGraph Model.FailurePolicy Model.VirtualTime
  Spec.DepGraphSpec Spec.VirtualTimeSpec Proofs.DepGraphProofs.
From Coq Require Import Permutation Sorting.Sorted.
Local Open Scope N_scope.

Definition W : N := 18446744073709551616.

Lemma w64_small x : x < W -> w64 x = x.
Proof. intros H. apply N.mod_small. exact H. Qed.

Section Run.
  Variables (period lim : N) (hash : nat -> N) (nodes : list vnode) (prog : view -> bool).

  Lemma exec_node_now det w i g : vc_now (fst (fst (exec_node det period lim hash nodes prog w i g))) = vc_now g.
  Proof.
    unfold exec_node. destruct (vgate _ _ _ _ _) as [[|] s1]; [|reflexivity].
    destruct (vfinish _ _ _ _ _ _ _) as [s2 b]. reflexivity.
  Qed.

  Lemma exec_node_views det w i g v : In v (snd (fst (exec_node det period lim hash nodes prog w i g))) ->
    exists s, v = view_at period hash nodes i (if det then vc_now g else w_gate (w i)) s.
  Proof.
    unfold exec_node. destruct (vgate _ _ _ _ _) as [[|] s1]; [|intros []].
    destruct (vfinish _ _ _ _ _ _ _) as [s2 b]. cbn [fst snd]. intros [H|[]]. exists s1. auto.
  Qed.

  Lemma exec_list_now det w l : forall g, vc_now (fst (fst (exec_list det period lim hash nodes prog w l g))) = vc_now g.
  Proof.
    induction l as [|i r IH]; intros g; [reflexivity|]. cbn [exec_list].
    pose proof (exec_node_now det w i g) as E.
    destruct (exec_node _ _ _ _ _ _ _ _ _) as [[g1 v1] [|]]; cbn [fst snd] in *; [auto|].
    pose proof (IH g1) as E2. destruct (exec_list _ _ _ _ _ _ _ _ _) as [[g2 v2] b]; cbn [fst snd] in *. congruence.
  Qed.

  Lemma exec_list_views det w l : forall g v, In v (snd (fst (exec_list det period lim hash nodes prog w l g))) ->
    exists i s, In i l /\ v = view_at period hash nodes i (if det then vc_now g else w_gate (w i)) s.
  Proof.
    induction l as [|i r IH]; intros g v; [intros []|]. cbn [exec_list].
    pose proof (exec_node_now det w i g) as E. pose proof (exec_node_views det w i g v) as V.
    destruct (exec_node _ _ _ _ _ _ _ _ _) as [[g1 v1] [|]]; cbn [fst snd] in *.
    - intros H. destruct (V H) as (s & ->). exists i, s. split; [left; auto|auto].
    - pose proof (IH g1 v) as V2. destruct (exec_list _ _ _ _ _ _ _ _ _) as [[g2 v2] b]; cbn [fst snd] in *.
      intros H. apply in_app_or in H. destruct H as [H|H].
      + destruct (V H) as (s & ->). exists i, s. split; [left; auto|auto].
      + destruct (V2 H) as (j & s & Hj & ->). exists j, s. split; [right; auto|]. rewrite E. auto.
  Qed.

  (** The clock after the steps of one tick, and what each view reads. *)
  Lemma exec_steps_now w steps : forall g, vc_now g + period * N.of_nat (length steps) < W ->
    let r := exec_steps true period lim hash nodes prog w steps g in
    (snd r = false -> vc_now (fst (fst r)) = vc_now g + period * N.of_nat (length steps)) /\
    (forall v, In v (snd (fst r)) -> exists j i s, in_step steps j i /\
       v = view_at period hash nodes i (vc_now g + period * N.of_nat j) s).
  Proof.
    induction steps as [|l r IH]; intros g Hb; cbn zeta.
    - cbn. split; [intros _; lia|intros v []].
    - cbn [exec_steps].
      pose proof (exec_list_now true w l g) as E. pose proof (exec_list_views true w l g) as V.
      destruct (exec_list _ _ _ _ _ _ _ _ _) as [[g1 v1] [|]]; cbn [fst snd] in *.
      + split; [discriminate|]. intros v H. destruct (V v H) as (i & s & Hi & ->).
        exists O, i, s. split; [exists l; split; auto|]. f_equal. lia.
      + cbn [length] in Hb.
        assert (EA : vc_now (advance true period g1) = vc_now g + period).
        { unfold advance. cbn [vc_now]. rewrite E. apply w64_small. nia. }
        assert (Hb' : vc_now (advance true period g1) + period * N.of_nat (length r) < W) by (rewrite EA; nia).
        specialize (IH (advance true period g1) Hb'). cbn zeta in IH. destruct IH as [IH1 IH2].
        destruct (exec_steps _ _ _ _ _ _ _ _ _) as [[g2 v2] b]; cbn [fst snd] in *.
        split.
        * intros H. rewrite (IH1 H), EA. cbn [length]. nia.
        * intros v H. apply in_app_or in H. destruct H as [H|H].
          -- destruct (V v H) as (i & s & Hi & ->). exists O, i, s. split; [exists l; split; auto|]. f_equal. lia.
          -- destruct (IH2 v H) as (j & i & s & (l' & Hl & Hi) & ->). exists (S j), i, s.
             split; [exists l'; split; auto|]. rewrite EA. f_equal. lia.
  Qed.

  Definition seen_at (p : plan) (base : N) (v : view) : Prop :=
    match p with
    | Some steps => exists j i s, in_step steps j i /\ v = view_at period hash nodes i (base + period * N.of_nat j) s
    | None => exists i s, v = view_at period hash nodes i base s
    end.

  Lemma vtick_now p w g : vc_now g + period * steps_in p < W ->
    let r := vtick true period lim hash nodes prog p w g in
    (snd r = false -> vc_now (fst (fst r)) = vc_now g + period * steps_in p) /\
    (forall v, In v (snd (fst r)) -> seen_at p (vc_now g) v).
  Proof.
    intros Hb. destruct p as [steps|]; cbn [vtick].
    - cbn [steps_in] in *. apply exec_steps_now. auto.
    - pose proof (exec_list_now true w (by_order nodes) g) as E.
      pose proof (exec_list_views true w (by_order nodes) g) as V. cbn zeta.
      split; [intros _; rewrite E; cbn [steps_in]; lia|].
      intros v H. destruct (V v H) as (i & s & _ & ->). exists i, s. auto.
  Qed.

  Lemma vrun_now ticks : forall g, vc_now g + period * total_steps ticks < W ->
    let r := vrun true period lim hash nodes prog ticks g in
    (snd r = false -> vc_now (fst (fst r)) = vc_now g + period * total_steps ticks) /\
    (forall v, In v (snd (fst r)) -> exists k p w, nth_error ticks k = Some (p, w) /\
       seen_at p (vc_now g + period * total_steps (firstn k ticks)) v).
  Proof.
    induction ticks as [|[p w] r IH]; intros g Hb; cbn zeta.
    - cbn. split; [intros _; lia|intros v []].
    - cbn [vrun total_steps] in *.
      assert (Hb1 : vc_now g + period * steps_in p < W) by nia.
      pose proof (vtick_now p w g Hb1) as T. cbn zeta in T. destruct T as [T1 T2].
      destruct (vtick _ _ _ _ _ _ _ _ _) as [[g1 v1] [|]]; cbn [fst snd] in *.
      + split; [discriminate|]. intros v H. exists O, p, w. split; [auto|].
        cbn [firstn total_steps]. rewrite N.mul_0_r, N.add_0_r. auto.
      + specialize (T1 eq_refl).
        assert (Hb2 : vc_now g1 + period * total_steps r < W) by (rewrite T1; nia).
        specialize (IH g1 Hb2). cbn zeta in IH. destruct IH as [IH1 IH2].
        destruct (vrun _ _ _ _ _ _ _ _) as [[g2 v2] b]; cbn [fst snd] in *.
        split; [intros H; rewrite (IH1 H), T1; nia|].
        intros v H. apply in_app_or in H. destruct H as [H|H].
        * exists O, p, w. split; [auto|]. cbn [firstn total_steps]. rewrite N.mul_0_r, N.add_0_r. auto.
        * destruct (IH2 v H) as (k & p' & w' & Hk & Hs). exists (S k), p', w'. split; [auto|].
          cbn [firstn total_steps]. rewrite T1 in Hs.
          replace (vc_now g + period * (steps_in p + total_steps (firstn k r)))
            with (vc_now g + period * steps_in p + period * total_steps (firstn k r)) by nia. auto.
  Qed.

  (** *** Every view, whatever the mode *)
  Lemma exec_steps_views det w steps : forall g v,
    In v (snd (fst (exec_steps det period lim hash nodes prog w steps g))) ->
    exists i now s, v = view_at period hash nodes i now s.
  Proof.
    induction steps as [|l r IH]; intros g v; [intros []|]. cbn [exec_steps].
    pose proof (exec_list_views det w l g) as V.
    destruct (exec_list _ _ _ _ _ _ _ _ _) as [[g1 v1] [|]]; cbn [fst snd] in *.
    - intros H. destruct (V v H) as (i & s & _ & ->). eauto.
    - pose proof (IH (advance det period g1) v) as V2.
      destruct (exec_steps _ _ _ _ _ _ _ _ _) as [[g2 v2] b]; cbn [fst snd] in *.
      intros H. apply in_app_or in H. destruct H as [H|H]; [|auto].
      destruct (V v H) as (i & s & _ & ->). eauto.
  Qed.

  Lemma vrun_views det ticks : forall g v,
    In v (snd (fst (vrun det period lim hash nodes prog ticks g))) ->
    exists i now s, v = view_at period hash nodes i now s.
  Proof.
    induction ticks as [|[p w] r IH]; intros g v; [intros []|]. cbn [vrun].
    assert (V : forall v, In v (snd (fst (vtick det period lim hash nodes prog p w g))) ->
      exists i now s, v = view_at period hash nodes i now s).
    { destruct p as [steps|]; cbn [vtick]; intros v0 H; [eapply exec_steps_views; eauto|].
      destruct (exec_list_views det w _ g v0 H) as (i & s & _ & ->). eauto. }
    destruct (vtick _ _ _ _ _ _ _ _ _) as [[g1 v1] [|]]; cbn [fst snd] in *; [auto|].
    pose proof (IH g1 v) as V2.
    destruct (vrun _ _ _ _ _ _ _ _) as [[g2 v2] b]; cbn [fst snd] in *.
    intros H. apply in_app_or in H. destruct H as [H|H]; auto.
  Qed.

  (** *** Tick numbers *)
  (** [vs] extends a history in which node [i] had [c i] ticks. *)
  Fixpoint numbered (c : nat -> N) (vs : list view) : Prop :=
    match vs with
    | [] => True
    | v :: r => v_tick v = c (v_node v) /\ numbered (fupd c (v_node v) (c (v_node v) + 1)) r
    end.
  Definition counted (c : nat -> N) (vs : list view) (i : nat) : N := c i + N.of_nat (length (of_node i vs)).
  Definition counts (g : vsched) : nat -> N := fun i => vs_count (vc_nodes g i).

  Lemma numbered_ext vs : forall c c', (forall i, c i = c' i) -> numbered c vs -> numbered c' vs.
  Proof.
    induction vs as [|v r IH]; intros c c' E; [auto|]. cbn. intros [A B]. split; [congruence|].
    eapply IH; [|exact B]. intros i. unfold fupd. destruct (i =? v_node v)%nat; rewrite <- ?E; auto.
  Qed.

  Lemma numbered_app l1 : forall c l2, numbered c l1 -> numbered (counted c l1) l2 -> numbered c (l1 ++ l2).
  Proof.
    induction l1 as [|v r IH]; intros c l2.
    - cbn. intros _ H. eapply numbered_ext; [|exact H]. intros i. unfold counted. cbn. lia.
    - cbn [numbered app]. intros [A B] H. split; [auto|]. apply IH; [auto|].
      eapply numbered_ext; [|exact H]. intros i. unfold counted, of_node, fupd. cbn [filter].
      rewrite (Nat.eqb_sym (v_node v) i). destruct (i =? v_node v)%nat eqn:E; [apply Nat.eqb_eq in E; subst i; cbn [length]; lia|auto].
  Qed.

  Lemma counted_app c l1 l2 i : counted (counted c l1) l2 i = counted c (l1 ++ l2) i.
  Proof. unfold counted, of_node. rewrite filter_app, app_length. lia. Qed.

  Definition keeps (g g' : vsched) (vs : list view) : Prop :=
    numbered (counts g) vs /\ forall i, counts g' i = counted (counts g) vs i.

  Lemma keeps_refl g : keeps g g [].
  Proof. split; [exact I|]. intros i. unfold counted. cbn. lia. Qed.
  Lemma keeps_trans g1 g2 g3 l1 l2 : keeps g1 g2 l1 -> keeps g2 g3 l2 -> keeps g1 g3 (l1 ++ l2).
  Proof.
    intros [A1 B1] [A2 B2]. split.
    - apply numbered_app; [auto|]. eapply numbered_ext; [|exact A2]. auto.
    - intros i. rewrite B2, <- counted_app. unfold counted. rewrite B1. reflexivity.
  Qed.

  Lemma exec_node_keeps det w i g :
    let r := exec_node det period lim hash nodes prog w i g in keeps g (fst (fst r)) (snd (fst r)).
  Proof.
    cbn zeta. unfold exec_node.
    assert (G : vs_count (snd (vgate det nodes i (w i) (vc_nodes g i))) = vs_count (vc_nodes g i)).
    { unfold vgate. repeat case_match; reflexivity. }
    destruct (vgate _ _ _ _ _) as [[|] s1]; cbn [snd] in G.
    - assert (F : forall v, vs_count (fst (vfinish lim nodes prog i (w i) v s1)) = vs_count s1 + 1).
      { intros v. unfold vfinish. repeat case_match; reflexivity. }
      set (v := view_at _ _ _ _ _ _). specialize (F v).
      destruct (vfinish _ _ _ _ _ _ _) as [s2 b]; cbn [fst snd] in *. split.
      + cbn. split; [|exact I]. unfold counts. auto.
      + intros j. unfold counted, counts, of_node. cbn [vc_nodes filter]. unfold fupd.
        replace (v_node v) with i by reflexivity. rewrite (Nat.eqb_sym i j).
        destruct (j =? i)%nat eqn:E; [apply Nat.eqb_eq in E; subst j|]; cbn [length]; lia.
    - cbn [fst snd]. split; [exact I|]. intros j. unfold counted, counts. cbn. unfold fupd.
      destruct (j =? i)%nat eqn:E; [apply Nat.eqb_eq in E; subst j|]; lia.
  Qed.

  Lemma exec_list_keeps det w l : forall g,
    let r := exec_list det period lim hash nodes prog w l g in keeps g (fst (fst r)) (snd (fst r)).
  Proof.
    induction l as [|i r IH]; intros g; cbn zeta; [apply keeps_refl|]. cbn [exec_list].
    pose proof (exec_node_keeps det w i g) as E. cbn zeta in E.
    destruct (exec_node _ _ _ _ _ _ _ _ _) as [[g1 v1] [|]]; cbn [fst snd] in *; [auto|].
    specialize (IH g1). cbn zeta in IH.
    destruct (exec_list _ _ _ _ _ _ _ _ _) as [[g2 v2] b]; cbn [fst snd] in *. eapply keeps_trans; eauto.
  Qed.

  Lemma advance_counts det g i : counts (advance det period g) i = counts g i.
  Proof. unfold advance. destruct det; reflexivity. Qed.

  Lemma exec_steps_keeps det w steps : forall g,
    let r := exec_steps det period lim hash nodes prog w steps g in keeps g (fst (fst r)) (snd (fst r)).
  Proof.
    induction steps as [|l r IH]; intros g; cbn zeta; [apply keeps_refl|]. cbn [exec_steps].
    pose proof (exec_list_keeps det w l g) as E. cbn zeta in E.
    destruct (exec_list _ _ _ _ _ _ _ _ _) as [[g1 v1] [|]]; cbn [fst snd] in *; [auto|].
    specialize (IH (advance det period g1)). cbn zeta in IH.
    destruct (exec_steps _ _ _ _ _ _ _ _ _) as [[g2 v2] b]; cbn [fst snd] in *.
    eapply keeps_trans; [exact E|]. destruct IH as [A B]. split.
    - eapply numbered_ext; [|exact A]. apply advance_counts.
    - intros i. rewrite B. unfold counted. rewrite advance_counts. reflexivity.
  Qed.

  Lemma vrun_keeps det ticks : forall g,
    let r := vrun det period lim hash nodes prog ticks g in keeps g (fst (fst r)) (snd (fst r)).
  Proof.
    induction ticks as [|[p w] r IH]; intros g; cbn zeta; [apply keeps_refl|]. cbn [vrun].
    assert (E : keeps g (fst (fst (vtick det period lim hash nodes prog p w g))) (snd (fst (vtick det period lim hash nodes prog p w g)))).
    { destruct p; cbn [vtick]; [apply exec_steps_keeps|apply exec_list_keeps]. }
    destruct (vtick _ _ _ _ _ _ _ _ _) as [[g1 v1] [|]]; cbn [fst snd] in *; [auto|].
    specialize (IH g1). cbn zeta in IH.
    destruct (vrun _ _ _ _ _ _ _ _) as [[g2 v2] b]; cbn [fst snd] in *. eapply keeps_trans; eauto.
  Qed.

  Lemma numbered_nth vs : forall c l1 v l2, numbered c vs -> vs = l1 ++ v :: l2 -> v_tick v = counted c l1 (v_node v).
  Proof.
    induction vs as [|x r IH]; intros c l1 v l2 H E; [destruct l1; discriminate|].
    destruct l1 as [|y l1]; cbn in E; injection E as -> E.
    - destruct H as [H _]. unfold counted. cbn. rewrite H. lia.
    - destruct H as [_ H]. rewrite (IH _ _ _ _ H E). unfold counted, of_node, fupd. cbn [filter].
      rewrite (Nat.eqb_sym (v_node v)). destruct (v_node y =? v_node v)%nat eqn:Q; cbn [length]; [apply Nat.eqb_eq in Q; rewrite <- Q; lia|lia].
  Qed.

  (** *** A calm program never stops the run *)
  Lemma exec_node_calm det w i g : (forall v, prog v = false) ->
    snd (exec_node det period lim hash nodes prog w i g) = false.
  Proof.
    intros C. unfold exec_node. destruct (vgate _ _ _ _ _) as [[|] s1]; [|reflexivity].
    unfold vfinish. rewrite C. reflexivity.
  Qed.
  Lemma exec_list_calm det w l : (forall v, prog v = false) -> forall g,
    snd (exec_list det period lim hash nodes prog w l g) = false.
  Proof.
    intros C. induction l as [|i r IH]; intros g; [reflexivity|]. cbn [exec_list].
    pose proof (exec_node_calm det w i g C) as E.
    destruct (exec_node _ _ _ _ _ _ _ _ _) as [[g1 v1] b]; cbn [snd] in E; subst b.
    specialize (IH g1). destruct (exec_list _ _ _ _ _ _ _ _ _) as [[g2 v2] b]; cbn [snd] in *. auto.
  Qed.
  Lemma exec_steps_calm det w steps : (forall v, prog v = false) -> forall g,
    snd (exec_steps det period lim hash nodes prog w steps g) = false.
  Proof.
    intros C. induction steps as [|l r IH]; intros g; [reflexivity|]. cbn [exec_steps].
    pose proof (exec_list_calm det w l C g) as E.
    destruct (exec_list _ _ _ _ _ _ _ _ _) as [[g1 v1] b]; cbn [snd] in E; subst b.
    specialize (IH (advance det period g1)). destruct (exec_steps _ _ _ _ _ _ _ _ _) as [[g2 v2] b]; cbn [snd] in *. auto.
  Qed.
  Lemma vtick_calm det p w g : (forall v, prog v = false) -> snd (vtick det period lim hash nodes prog p w g) = false.
  Proof. intros C. destruct p; cbn [vtick]; [apply exec_steps_calm|apply exec_list_calm]; auto. Qed.
  Lemma vrun_calm det ticks : (forall v, prog v = false) -> forall g,
    snd (vrun det period lim hash nodes prog ticks g) = false.
  Proof.
    intros C. induction ticks as [|[p w] r IH]; intros g; [reflexivity|]. cbn [vrun].
    pose proof (vtick_calm det p w g C) as E.
    destruct (vtick _ _ _ _ _ _ _ _ _) as [[g1 v1] b]; cbn [snd] in E; subst b.
    specialize (IH g1). destruct (vrun _ _ _ _ _ _ _ _) as [[g2 v2] b]; cbn [snd] in *. auto.
  Qed.

  (** *** A timed run *)
  Lemma run_for_exact steps d start ws : (forall v, prog v = false) -> 0 < period * N.of_nat (length steps) ->
    forall m k g fuel, vc_now g = start + N.of_nat k * (period * N.of_nat (length steps)) ->
      covers (k + m) (period * N.of_nat (length steps)) d -> (m < fuel)%nat ->
      (m = O \/ N.of_nat k * (period * N.of_nat (length steps)) < d) ->
      start + d + period * N.of_nat (length steps) < W ->
      run_for true period lim hash nodes prog fuel start d (Some steps) ws k g = Some (k + m)%nat.
  Proof.
    intros C Pos. induction m as [|m IH]; intros k g fuel E Cov Hf Hlt Hb; destruct fuel as [|f]; try lia; cbn [run_for]; unfold time_up.
    - replace (k + 0)%nat with k in * by lia. destruct Cov as [Cv _].
      replace (d <=? vc_now g - start) with true; [auto|]. symmetry. apply N.leb_le. lia.
    - destruct Hlt as [Hlt|Hlt]; [discriminate|].
      replace (d <=? vc_now g - start) with false by (symmetry; apply N.leb_gt; lia).
      assert (Hbb : vc_now g + period * steps_in (Some steps) < W) by (cbn [steps_in]; lia).
      pose proof (vtick_now (Some steps) (ws k) g Hbb) as T. cbn zeta in T. destruct T as [T _].
      pose proof (vtick_calm true (Some steps) (ws k) g C) as St.
      destruct (vtick _ _ _ _ _ _ _ _ _) as [[g1 v1] b]; cbn [fst snd steps_in] in *. subst b. specialize (T eq_refl).
      replace (k + S m)%nat with (S k + m)%nat in * by lia.
      apply IH; auto.
      + rewrite T, E. lia.
      + lia.
      + destruct Cov as [Cv [Cz|Cl]]; [lia|]. destruct m as [|m]; [left; auto|right].
        eapply N.le_lt_trans; [|exact Cl]. apply N.mul_le_mono_r. lia.
  Qed.

  Lemma exec_steps_nil w g : exec_steps true period lim hash nodes prog w [] g = (g, [], false).
  Proof. reflexivity. Qed.

  Lemma run_for_stuck p d start ws : (forall v, prog v = false) -> 0 < d -> steps_in p = 0 -> start < W ->
    forall fuel k g, vc_now g = start -> run_for true period lim hash nodes prog fuel start d p ws k g = None.
  Proof.
    intros C Pos Z Hs. induction fuel as [|f IH]; intros k g E; [reflexivity|]. cbn [run_for]. unfold time_up.
    replace (d <=? vc_now g - start) with false by (symmetry; apply N.leb_gt; lia).
    assert (Hbb : vc_now g + period * steps_in p < W) by (rewrite Z; lia).
    pose proof (vtick_now p (ws k) g Hbb) as T. cbn zeta in T. destruct T as [T _].
    pose proof (vtick_calm true p (ws k) g C) as St.
    destruct (vtick _ _ _ _ _ _ _ _ _) as [[g1 v1] b]; cbn [fst snd] in *. subst b. specialize (T eq_refl).
    apply IH. rewrite T, Z. lia.
  Qed.

  (** *** Independence of the wall clock *)
  Definition free (s : vst) : Prop :=
    vs_skip s = false /\ (vs_handler s = None \/ vs_handler s = Some HFatal \/ vs_handler s = Some HIgnore).
  (** The same up to [last_tick], which deterministic mode never reads. *)
  Definition same (s s' : vst) : Prop := vs_count s = vs_count s' /\ vs_handler s = vs_handler s' /\ vs_skip s = vs_skip s'.
  Definition same_sched (g g' : vsched) : Prop :=
    vc_now g = vc_now g' /\ forall i, same (vc_nodes g i) (vc_nodes g' i) /\ free (vc_nodes g i).

  Lemma vnth_no_waiting i : (forall n, In n nodes -> no_waiting n) -> no_waiting (vnth nodes i).
  Proof.
    intros H. unfold vnth. destruct (nth_in_or_default i nodes (VNode (GNode [] [] 0) None None None None)) as [A|A]; [auto|].
    rewrite A. split; [reflexivity|left; reflexivity].
  Qed.

  Lemma exec_node_same w w' i g g' : (forall n, In n nodes -> no_waiting n) -> same_sched g g' ->
    let r := exec_node true period lim hash nodes prog w i g in
    let r' := exec_node true period lim hash nodes prog w' i g' in
    snd (fst r) = snd (fst r') /\ snd r = snd r' /\ same_sched (fst (fst r)) (fst (fst r')).
  Proof.
    intros NW [En Es]. cbn zeta. unfold exec_node.
    destruct (Es i) as [(A & B & D) [F1 F2]].
    assert (G : forall u s, free s -> vgate true nodes i u s = (true, s)).
    { intros u s [X Y]. unfold vgate. rewrite X. destruct Y as [Y|[Y|Y]]; rewrite Y; cbn; auto. }
    assert (F' : free (vc_nodes g' i)) by (split; [congruence|rewrite <- B; auto]).
    rewrite (G _ _ (conj F1 F2)), (G _ _ F'). 
    assert (Ev : view_at period hash nodes i (vc_now g) (vc_nodes g i) = view_at period hash nodes i (vc_now g') (vc_nodes g' i)).
    { unfold view_at. rewrite En, A. reflexivity. }
    rewrite Ev. set (v := view_at _ _ _ _ (vc_now g') _).
    destruct (vnth_no_waiting i NW) as [Dl _].
    assert (Q : forall u u', let x := vfinish lim nodes prog i u v (vc_nodes g i) in
                let y := vfinish lim nodes prog i u' v (vc_nodes g' i) in
                snd x = snd y /\ same (fst x) (fst y) /\ free (fst x)).
    { intros u u'. cbn zeta. unfold vfinish. rewrite Dl, <- B, <- A. unfold same, free.
      destruct (prog v); destruct F2 as [Y|[Y|Y]]; rewrite Y; cbn [h_failure option_map h_success fst snd vs_count vs_handler vs_skip];
        auto 12. }
    specialize (Q (w i) (w' i)). cbn zeta in Q.
    destruct (vfinish _ _ _ _ _ _ (vc_nodes g i)) as [s2 b2], (vfinish _ _ _ _ _ _ (vc_nodes g' i)) as [s3 b3].
    cbn [fst snd] in *. destruct Q as (Q1 & Q2 & Q3). split; [auto|]. split; [auto|].
    split; [auto|]. cbn [vc_nodes]. intros j. unfold fupd. destruct (j =? i)%nat; [split; auto|apply Es].
  Qed.

  Lemma exec_list_same w w' l : (forall n, In n nodes -> no_waiting n) -> forall g g', same_sched g g' ->
    let r := exec_list true period lim hash nodes prog w l g in
    let r' := exec_list true period lim hash nodes prog w' l g' in
    snd (fst r) = snd (fst r') /\ snd r = snd r' /\ same_sched (fst (fst r)) (fst (fst r')).
  Proof.
    intros NW. induction l as [|i r IH]; intros g g' S; cbn zeta; [auto|]. cbn [exec_list].
    pose proof (exec_node_same w w' i g g' NW S) as E. cbn zeta in E.
    destruct (exec_node _ _ _ _ _ _ w _ g) as [[g1 v1] b1], (exec_node _ _ _ _ _ _ w' _ g') as [[g2 v2] b2].
    cbn [fst snd] in E. destruct E as (-> & -> & S1). destruct b2; [auto|].
    specialize (IH _ _ S1). cbn zeta in IH.
    destruct (exec_list _ _ _ _ _ _ w _ g1) as [[g3 v3] b3], (exec_list _ _ _ _ _ _ w' _ g2) as [[g4 v4] b4].
    cbn [fst snd] in *. destruct IH as (-> & -> & S2). auto.
  Qed.

  Lemma exec_steps_same w w' l : (forall n, In n nodes -> no_waiting n) -> forall g g', same_sched g g' ->
    let r := exec_steps true period lim hash nodes prog w l g in
    let r' := exec_steps true period lim hash nodes prog w' l g' in
    snd (fst r) = snd (fst r') /\ snd r = snd r' /\ same_sched (fst (fst r)) (fst (fst r')).
  Proof.
    intros NW. induction l as [|i r IH]; intros g g' S; cbn zeta; [auto|]. cbn [exec_steps].
    pose proof (exec_list_same w w' i NW g g' S) as E. cbn zeta in E.
    destruct (exec_list _ _ _ _ _ _ w _ g) as [[g1 v1] b1], (exec_list _ _ _ _ _ _ w' _ g') as [[g2 v2] b2].
    cbn [fst snd] in E. destruct E as (-> & -> & S1). destruct b2; [auto|].
    assert (S1' : same_sched (advance true period g1) (advance true period g2)).
    { destruct S1 as [X Y]. split; [cbn; rewrite X; auto|exact Y]. }
    specialize (IH _ _ S1'). cbn zeta in IH.
    destruct (exec_steps _ _ _ _ _ _ w _ _) as [[g3 v3] b3], (exec_steps _ _ _ _ _ _ w' _ _) as [[g4 v4] b4].
    cbn [fst snd] in *. destruct IH as (-> & -> & S2). auto.
  Qed.

  Lemma vrun_same ps : (forall n, In n nodes -> no_waiting n) -> forall (ws ws' : list wall) g g',
    length ws = length ps -> length ws' = length ps -> same_sched g g' ->
    let r := vrun true period lim hash nodes prog (combine ps ws) g in
    let r' := vrun true period lim hash nodes prog (combine ps ws') g' in
    snd (fst r) = snd (fst r') /\ snd r = snd r' /\ vc_now (fst (fst r)) = vc_now (fst (fst r')).
  Proof.
    intros NW. induction ps as [|p r IH]; intros ws ws' g g' L L' S; cbn zeta.
    - cbn. destruct S as [X _]. auto.
    - destruct ws as [|w ws]; [discriminate|]. destruct ws' as [|w' ws']; [discriminate|].
      cbn [combine vrun]. cbn in L, L'.
      assert (E : let x := vtick true period lim hash nodes prog p w g in
                  let y := vtick true period lim hash nodes prog p w' g' in
                  snd (fst x) = snd (fst y) /\ snd x = snd y /\ same_sched (fst (fst x)) (fst (fst y))).
      { destruct p; cbn [vtick]; [apply exec_steps_same|apply exec_list_same]; auto. }
      cbn zeta in E.
      destruct (vtick _ _ _ _ _ _ _ w g) as [[g1 v1] b1], (vtick _ _ _ _ _ _ _ w' g') as [[g2 v2] b2].
      cbn [fst snd] in E. destruct E as (-> & -> & S1). destruct b2; [cbn; destruct S1 as [X _]; auto|].
      specialize (IH ws ws' _ _ ltac:(lia) ltac:(lia) S1). cbn zeta in IH.
      destruct (vrun _ _ _ _ _ _ (combine r ws) _) as [[g3 v3] b3], (vrun _ _ _ _ _ _ (combine r ws') _) as [[g4 v4] b4].
      cbn [fst snd] in *. destruct IH as (-> & -> & X). auto.
  Qed.

  Lemma vinit_same : (forall n, In n nodes -> no_waiting n) -> same_sched (vinit nodes) (vinit nodes).
  Proof.
    intros NW. split; [auto|]. intros i. unfold vinit. cbn [vc_nodes]. split; [split; [|split]; auto|].
    split; [auto|]. cbn [vs_handler]. destruct (vnth_no_waiting i NW) as [_ [E|[E|E]]]; rewrite E; cbn; auto.
  Qed.
  (** *** The order of execution *)
  Definition order_in (p : plan) : list nat := match p with Some steps => concat steps | None => by_order nodes end.

  Lemma exec_node_order w i g : (forall n, In n nodes -> no_waiting n) -> same_sched g g ->
    map v_node (snd (fst (exec_node true period lim hash nodes prog w i g))) = [i].
  Proof.
    intros NW [_ Es]. unfold exec_node. destruct (Es i) as [_ [F1 F2]].
    assert (G : vgate true nodes i (w i) (vc_nodes g i) = (true, vc_nodes g i)).
    { unfold vgate. rewrite F1. destruct F2 as [Y|[Y|Y]]; rewrite Y; cbn; auto. }
    rewrite G. destruct (vfinish _ _ _ _ _ _ _) as [s2 b]. reflexivity.
  Qed.
  Lemma exec_list_order w l : (forall n, In n nodes -> no_waiting n) -> forall g, same_sched g g ->
    snd (exec_list true period lim hash nodes prog w l g) = false ->
    map v_node (snd (fst (exec_list true period lim hash nodes prog w l g))) = l.
  Proof.
    intros NW. induction l as [|i r IH]; intros g S; [reflexivity|]. cbn [exec_list].
    pose proof (exec_node_order w i g NW S) as O. pose proof (exec_node_same w w i g g NW S) as E. cbn zeta in E.
    destruct (exec_node _ _ _ _ _ _ _ _ _) as [[g1 v1] [|]]; cbn [fst snd] in *; [discriminate|].
    destruct E as (_ & _ & S1). specialize (IH g1 S1).
    destruct (exec_list _ _ _ _ _ _ _ _ _) as [[g2 v2] b]; cbn [fst snd] in *.
    intros H. rewrite map_app, O, (IH H). reflexivity.
  Qed.
  Lemma exec_steps_order w l : (forall n, In n nodes -> no_waiting n) -> forall g, same_sched g g ->
    snd (exec_steps true period lim hash nodes prog w l g) = false ->
    map v_node (snd (fst (exec_steps true period lim hash nodes prog w l g))) = concat l.
  Proof.
    intros NW. induction l as [|i r IH]; intros g S; [reflexivity|]. cbn [exec_steps].
    pose proof (exec_list_order w i NW g S) as O. pose proof (exec_list_same w w i NW g g S) as E. cbn zeta in E.
    destruct (exec_list _ _ _ _ _ _ _ _ _) as [[g1 v1] [|]]; cbn [fst snd] in *; [discriminate|].
    destruct E as (_ & _ & S1).
    assert (S1' : same_sched (advance true period g1) (advance true period g1)) by (destruct S1 as [X Y]; split; [auto|exact Y]).
    specialize (IH _ S1').
    destruct (exec_steps _ _ _ _ _ _ _ _ _) as [[g2 v2] b]; cbn [fst snd] in *.
    intros H. rewrite map_app, (O eq_refl), (IH H). reflexivity.
  Qed.
  Lemma vrun_order ticks : (forall n, In n nodes -> no_waiting n) -> forall g, same_sched g g ->
    snd (vrun true period lim hash nodes prog ticks g) = false ->
    map v_node (snd (fst (vrun true period lim hash nodes prog ticks g))) = flat_map (fun t => order_in (fst t)) ticks.
  Proof.
    intros NW. induction ticks as [|[p w] r IH]; intros g S; [reflexivity|]. cbn [vrun flat_map fst].
    assert (O : snd (vtick true period lim hash nodes prog p w g) = false ->
      map v_node (snd (fst (vtick true period lim hash nodes prog p w g))) = order_in p).
    { destruct p; cbn [vtick order_in]; [apply exec_steps_order|apply exec_list_order]; auto. }
    assert (E : same_sched (fst (fst (vtick true period lim hash nodes prog p w g))) (fst (fst (vtick true period lim hash nodes prog p w g)))).
    { destruct p; cbn [vtick]; [apply (exec_steps_same w w)|apply (exec_list_same w w)]; auto. }
    destruct (vtick _ _ _ _ _ _ _ _ _) as [[g1 v1] [|]]; cbn [fst snd] in *; [discriminate|].
    specialize (IH g1 E). destruct (vrun _ _ _ _ _ _ _ _) as [[g2 v2] b]; cbn [fst snd] in *.
    intros H. rewrite map_app, (O eq_refl), (IH H). reflexivity.
  Qed.
End Run.

(** ** Seeds *)
Lemma seed_inj h t t' : t < W -> t' < W -> seed_of h t = seed_of h t' -> t = t'.
Proof.
  unfold seed_of, w64. change 18446744073709551616 with W. intros A B E.
  assert (NZ : W <> 0) by discriminate.
  (* cancel [h] *)
  assert (E2 : (t * 5871781006564002453) mod W = (t' * 5871781006564002453) mod W).
  { assert (X : ((t * 5871781006564002453 + h) mod W + (W - h mod W)) mod W =
                ((t' * 5871781006564002453 + h) mod W + (W - h mod W)) mod W) by (rewrite E; auto).
    assert (Hh : h mod W < W) by (apply N.mod_lt; auto).
    assert (Y : forall a, ((a + h) mod W + (W - h mod W)) mod W = a mod W).
    { intros a. rewrite N.add_mod_idemp_l by auto.
      pose proof (N.div_mod h W NZ) as D.
      replace (a + h + (W - h mod W)) with (a + (h / W + 1) * W) by lia.
      apply N.mod_add. auto. }
    rewrite !Y in X. auto. }
  assert (Z : forall a, a < W -> (((a * 5871781006564002453) mod W) * 2323857671730065597) mod W = a).
  { intros a Ha. rewrite N.mul_mod_idemp_l by auto.
    rewrite <- N.mul_assoc.
    replace (5871781006564002453 * 2323857671730065597) with (1 + (5871781006564002453 * 2323857671730065597 / W) * W) by reflexivity.
    rewrite N.mul_add_distr_l, N.mul_1_r, N.mul_assoc, N.mod_add by auto. apply N.mod_small. auto. }
  rewrite <- (Z t A), <- (Z t' B), E2. reflexivity.
Qed.

(** ** The anytime loop *)
Lemma anytime_frozen fuel b start margin : margin <= b -> forall j,
  anytime fuel (Some b) start margin (fun _ => start) j = None.
Proof.
  intros H. induction fuel as [|f IH]; intros j; [reflexivity|]. cbn [anytime budget_remaining].
  replace (b - (start - start)) with b by lia.
  replace (b <? margin) with false by (symmetry; apply N.ltb_ge; auto). auto.
Qed.
Lemma anytime_ends b start margin clock n : b - (clock n - start) < margin -> forall fuel j, (j <= n)%nat -> (n - j < fuel)%nat ->
  exists k, anytime fuel (Some b) start margin clock j = Some (S k) /\ (k <= n)%nat.
Proof.
  intros H. induction fuel as [|f IH]; intros j Hj Hf; [lia|]. cbn [anytime budget_remaining].
  destruct (b - (clock j - start) <? margin) eqn:E; [exists j; auto|].
  apply N.ltb_ge in E. apply IH; destruct (Nat.eq_dec j n) as [->|]; lia.
Qed.

(** ** RT threads *)
Lemma hand_out_single gs : forall rt, length gs = length rt -> (forall g, In g gs -> length g = 1%nat) ->
  hand_out gs rt = map (fun x => [x]) rt.
Proof.
  induction gs as [|g r IH]; intros rt L H; destruct rt as [|x rt]; try discriminate; [reflexivity|].
  cbn [hand_out map]. rewrite (H g) by (left; auto). cbn [firstn skipn]. f_equal.
  apply IH; [cbn in L; lia|intros; apply H; right; auto].
Qed.

Lemma rt_threads_single perm has_graph rt : (forall l, Permutation (perm l) l) ->
  rt_threads perm has_graph rt = map (fun x => [x]) rt.
Proof.
  intros P. unfold rt_threads. destruct has_graph; [|reflexivity].
  destruct (1 <? length (independent_chains perm (seq 0 (length rt))))%nat eqn:E; [|reflexivity].
  assert (L : forall l, length (independent_chains perm l) = length l).
  { intros [|x [|y l]]; [reflexivity|reflexivity|]. unfold independent_chains. rewrite map_length. apply Permutation_length, P. }
  apply hand_out_single; [rewrite L; apply seq_length|].
  intros g. unfold independent_chains. destruct (seq 0 (length rt)) as [|x [|y l]]; [intros []|intros [<-|[]]; reflexivity|].
  rewrite in_map_iff. intros (z & <- & _). reflexivity.
Qed.

Lemma rt_cycle_single rt schedule : (forall t, In t schedule -> (t < length rt)%nat) ->
  rt_cycle (map (fun x => [x]) rt) schedule = map (fun t => nth t rt O) schedule.
Proof.
  induction schedule as [|t r IH]; intros H; [reflexivity|]. unfold rt_cycle in *. cbn [flat_map map].
  rewrite IH by (intros; apply H; right; auto).
  assert (Ht : (t < length rt)%nat) by (apply H; left; auto).
  replace (nth t (map (fun x : nat => [x]) rt) []) with [nth t rt O]; [reflexivity|].
  rewrite (nth_indep _ [] [O]) by (rewrite map_length; auto). rewrite (map_nth (fun x => [x])). reflexivity.
Qed.

(** ** How a run ends *)
Section Ends.
  Variables (det : bool) (period lim : N) (hash : nat -> N) (nodes : list vnode) (prog : view -> bool).
  Notation deadly := (fatal_tick nodes prog).
  Definition handlers (g : vsched) : Prop := forall i, vs_handler (vc_nodes g i) = option_map h_new (vn_policy (vnth nodes i)).
  Definition ends (vs : list view) (stop : bool) : Prop :=
    if stop then exists b v, vs = b ++ [v] /\ deadly v /\ Forall (fun x => ~ deadly x) b else Forall (fun x => ~ deadly x) vs.
  Lemma ends_app v1 v2 s : ends v1 false -> ends v2 s -> ends (v1 ++ v2) s.
  Proof.
    unfold ends. destruct s; intros A B; [|apply Forall_app; auto]. destruct B as (b & v & -> & B1 & B2). exists (v1 ++ b), v. rewrite app_assoc. split; [auto|]. split; [auto|]. apply Forall_app; auto.
  Qed.
  Lemma gate_handler i w s : vs_handler (snd (vgate det nodes i w s)) = vs_handler s.
  Proof. unfold vgate. destruct (negb _); [reflexivity|]. destruct (vs_skip s); [reflexivity|]. repeat case_match; reflexivity. Qed.
  Lemma exec_node_ends w i g : (forall n, In n nodes -> no_waiting n) -> handlers g ->
    let r := exec_node det period lim hash nodes prog w i g in handlers (fst (fst r)) /\ ends (snd (fst r)) (snd r).
  Proof.
    intros NW H. cbn zeta. unfold exec_node. pose proof (gate_handler i (w i) (vc_nodes g i)) as GH. rewrite (H i) in GH.
    destruct (vgate det nodes i (w i) (vc_nodes g i)) as [[|] s1]; cbn [snd] in GH.
    - set (v := view_at period hash nodes i _ s1). assert (Vn : v_node v = i) by reflexivity. clearbody v.
      destruct (vnth_no_waiting nodes i NW) as [_ P].
      assert (Q : vs_handler (fst (vfinish lim nodes prog i (w i) v s1)) = option_map h_new (vn_policy (vnth nodes i)) /\ ends [v] (snd (vfinish lim nodes prog i (w i) v s1))).
      { unfold vfinish. rewrite GH. destruct (prog v) eqn:Pv.
        - destruct P as [E|[E|E]]; rewrite E; cbn [option_map h_new h_failure fst snd vs_handler stops]; (split; [reflexivity|]); unfold ends, fatal_tick.
          + constructor; [|constructor]. rewrite Vn, E. intros [_ X]. discriminate.
          + exists [], v. split; [reflexivity|]. split; [rewrite Vn; auto|constructor].
          + constructor; [|constructor]. rewrite Vn, E. intros [_ X]. discriminate.
        - split.
          + cbn [fst vs_handler]. destruct P as [E|[E|E]]; rewrite E; reflexivity.
          + cbn [snd ends]. constructor; [|constructor]. unfold fatal_tick. intros [X _]. congruence. }
      destruct (vfinish lim nodes prog i (w i) v s1) as [s2 b]. cbn [fst snd] in *. destruct Q as [Q1 Q2]. split; [|exact Q2].
      intros j. cbn [vc_nodes]. unfold fupd. destruct (Nat.eqb_spec j i) as [->|]; [exact Q1|apply H].
    - cbn [fst snd]. split; [|constructor]. intros j. cbn [vc_nodes]. unfold fupd. destruct (Nat.eqb_spec j i) as [->|]; [exact GH|apply H].
  Qed.
  Lemma exec_list_ends w l : (forall n, In n nodes -> no_waiting n) -> forall g, handlers g ->
    let r := exec_list det period lim hash nodes prog w l g in handlers (fst (fst r)) /\ ends (snd (fst r)) (snd r).
  Proof.
    intros NW. induction l as [|i l IH]; intros g H; cbn [exec_list]; cbn zeta; [split; [exact H|constructor]|].
    pose proof (exec_node_ends w i g NW H) as E. destruct (exec_node det period lim hash nodes prog w i g) as [[g1 v1] stop]. cbn [fst snd] in E. destruct E as [E1 E2].
    destruct stop; cbn [fst snd]; [auto|]. specialize (IH g1 E1). destruct (exec_list det period lim hash nodes prog w l g1) as [[g2 v2] stop2]. cbn [fst snd] in *.
    destruct IH as [I1 I2]. split; [exact I1|]. apply ends_app; auto.
  Qed.
  Lemma exec_steps_ends w l : (forall n, In n nodes -> no_waiting n) -> forall g, handlers g ->
    let r := exec_steps det period lim hash nodes prog w l g in handlers (fst (fst r)) /\ ends (snd (fst r)) (snd r).
  Proof.
    intros NW. induction l as [|i l IH]; intros g H; cbn [exec_steps]; cbn zeta; [split; [exact H|constructor]|].
    pose proof (exec_list_ends w i NW g H) as E. destruct (exec_list det period lim hash nodes prog w i g) as [[g1 v1] stop]. cbn [fst snd] in E. destruct E as [E1 E2].
    destruct stop; cbn [fst snd]; [auto|]. assert (E3 : handlers (advance det period g1)) by (intros j; unfold advance; destruct det; apply E1).
    specialize (IH _ E3). destruct (exec_steps det period lim hash nodes prog w l (advance det period g1)) as [[g2 v2] stop2]. cbn [fst snd] in *.
    destruct IH as [I1 I2]. split; [exact I1|]. apply ends_app; auto.
  Qed.
  Lemma vrun_ends ts : (forall n, In n nodes -> no_waiting n) -> forall g, handlers g ->
    let r := vrun det period lim hash nodes prog ts g in handlers (fst (fst r)) /\ ends (snd (fst r)) (snd r).
  Proof.
    intros NW. induction ts as [|[p w] l IH]; intros g H; cbn [vrun]; cbn zeta; [split; [exact H|constructor]|].
    assert (E : let r := vtick det period lim hash nodes prog p w g in handlers (fst (fst r)) /\ ends (snd (fst r)) (snd r)).
    { destruct p as [steps|]; cbn [vtick]; [apply exec_steps_ends; auto|apply exec_list_ends; auto]. }
    cbn zeta in E. destruct (vtick det period lim hash nodes prog p w g) as [[g1 v1] stop]. cbn [fst snd] in E. destruct E as [E1 E2].
    destruct stop; cbn [fst snd]; [auto|].
    specialize (IH _ E1). destruct (vrun det period lim hash nodes prog l g1) as [[g2 v2] stop2]. cbn [fst snd] in *.
    destruct IH as [I1 I2]. split; [exact I1|]. apply ends_app; auto.
  Qed.
  (** The loop with a duration runs [n] ticks of [vrun] and ends for one of two reasons, at the first one. *)
  Lemma run_for_ticks p ws start d fuel : forall k g n, run_for det period lim hash nodes prog fuel start d p ws k g = Some n ->
    exists m, n = (k + m)%nat /\
      (forall j, (j < m)%nat -> let r := vrun det period lim hash nodes prog (map (fun x => (p, ws x)) (seq k j)) g in snd r = false /\ time_up start d (fst (fst r)) = false) /\
      let r := vrun det period lim hash nodes prog (map (fun x => (p, ws x)) (seq k m)) g in snd r = true \/ time_up start d (fst (fst r)) = true.
  Proof.
    induction fuel as [|f IH]; intros k g n H; [discriminate|]. cbn [run_for] in H. destruct (time_up start d g) eqn:T.
    - injection H as <-. exists O. split; [lia|]. split; [intros j Hj; lia|]. right. exact T.
    - destruct (vtick det period lim hash nodes prog p (ws k) g) as [[g1 v1] stop] eqn:E. destruct stop.
      + injection H as <-. exists 1%nat. split; [lia|]. split.
        * intros j Hj. replace j with O by lia. cbn. auto.
        * left. cbn [seq map vrun]. rewrite E. reflexivity.
      + apply IH in H as (m & -> & A & B). exists (S m). split; [lia|]. split.
        * intros j Hj. destruct j as [|j]; [cbn; auto|]. cbn [seq map vrun]. rewrite E. specialize (A j ltac:(lia)). cbn zeta in A.
          destruct (vrun det period lim hash nodes prog (map (fun x => (p, ws x)) (seq (S k) j)) g1) as [[g2 v2] s2]. exact A.
        * cbn [seq map vrun]. rewrite E. cbn zeta in B. destruct (vrun det period lim hash nodes prog (map (fun x => (p, ws x)) (seq (S k) m)) g1) as [[g2 v2] s2]. exact B.
  Qed.
End Ends.

(** ** The order by number *)
Lemma filters_sorted (f : nat -> nat) l os : DepGraphProofs.sorted os -> StronglySorted Nat.lt l ->
  StronglySorted (fun i j => (f i < f j)%nat \/ (f i = f j /\ (i < j)%nat)) (concat (map (fun o => filter (fun i => (f i =? o)%nat) l) os)).
Proof.
  intros S L. induction os as [|o os IH]; cbn [map concat]; [constructor|]. apply sorted_tail in S as [S1 S2]. specialize (IH S1).
  assert (D : forall y, In y (concat (map (fun o0 => filter (fun i => (f i =? o0)%nat) l) os)) -> (o < f y)%nat).
  { intros y Y. apply in_concat in Y as (m & M1 & M2). apply in_map_iff in M1 as (o' & <- & M1). apply filter_In in M2 as [_ M2]. apply Nat.eqb_eq in M2. rewrite M2. apply S2, M1. }
  revert IH D. generalize (concat (map (fun o0 => filter (fun i => (f i =? o0)%nat) l) os)) as rest. intros rest IH D.
  induction L as [|x l L IL F]; cbn [filter]; [exact IH|]. destruct (Nat.eqb_spec (f x) o) as [E|E]; [|exact IL]. cbn [app]. constructor; [exact IL|].
  apply Forall_app. split; apply Forall_forall; intros y Y.
  - apply filter_In in Y as [Y1 Y2]. apply Nat.eqb_eq in Y2. rewrite Forall_forall in F. right. split; [congruence|apply F, Y1].
  - left. rewrite E. apply D, Y.
Qed.
Lemma seq_sorted n : forall s, StronglySorted Nat.lt (seq s n).
Proof. induction n as [|n IH]; intros s; cbn [seq]; constructor; [apply IH|]. apply Forall_forall. intros y Y. apply in_seq in Y. lia. Qed.
Lemma by_order_spec nodes : Permutation (by_order nodes) (seq 0 (length nodes)) /\
  StronglySorted (fun i j => (g_order (vn_graph (vnth nodes i)) < g_order (vn_graph (vnth nodes j)))%nat \/ (g_order (vn_graph (vnth nodes i)) = g_order (vn_graph (vnth nodes j)) /\ (i < j)%nat)) (by_order nodes).
Proof.
  unfold by_order, order_steps. rewrite map_length. split.
  - set (gn := map vn_graph nodes). assert (Lg : length gn = length nodes) by (apply map_length). apply NoDup_Permutation; [apply NoDup_map_filters; [apply order_sorted|apply seq_NoDup]|apply seq_NoDup|].
    intros x. split; intros H.
    + apply in_concat in H as (l & L1 & L2). apply in_map_iff in L1 as (o & <- & L1). apply filter_In in L2. tauto.
    + apply in_seq in H. assert (O : In (g_order (nth_node gn x)) (order_values gn)) by (apply DepGraphProofs.order_in; exists x; split; [lia|auto]).
      apply in_concat. exists (filter (fun i => (g_order (nth_node gn i) =? g_order (nth_node gn x))%nat) (seq 0 (length nodes))). split.
      * apply in_map_iff. exists (g_order (nth_node gn x)). auto.
      * apply filter_In. split; [apply in_seq; lia|apply Nat.eqb_refl].
  - assert (E : forall i, nth_node (map vn_graph nodes) i = vn_graph (vnth nodes i)).
    { intros i. unfold nth_node, vnth. change (GNode [] [] 0) with (vn_graph (VNode (GNode [] [] 0) None None None None)). apply map_nth. }
    pose proof (filters_sorted (fun i => g_order (nth_node (map vn_graph nodes) i)) (seq 0 (length nodes)) _ (order_sorted (map vn_graph nodes)) (seq_sorted _ _)) as X.
    clear - X E. induction X as [|x l X IH F]; constructor; [exact IH|]. eapply Forall_impl; [|exact F]. cbn beta. intros y Y. rewrite !E in Y. exact Y.
Qed.
