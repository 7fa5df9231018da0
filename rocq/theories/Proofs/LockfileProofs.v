From Coq Require Import Sorting.Sorted Sorting.Permutation.
From Verif.Base Require Import Prelude Bytes Str.
From Verif.Model Require Import Lockfile.
From Verif.Spec Require Import LockfileSpec.
Open Scope nat_scope.

(** ** The order *)

Lemma bcmp_eq : forall a b, bcmp a b = Eq <-> a = b.
Proof.
  induction a as [|x a IH]; intros [|y b]; cbn [bcmp]; split; intros H; try discriminate; auto.
  - destruct (N.compare_spec x y); try discriminate. apply IH in H. congruence.
  - injection H as -> ->. rewrite N.compare_refl. apply IH; auto.
Qed.
Lemma bcmp_anti : forall a b, bcmp b a = CompOpp (bcmp a b).
Proof.
  induction a as [|x a IH]; intros [|y b]; cbn [bcmp]; auto.
  rewrite (N.compare_antisym x y). destruct (x ?= y)%N; cbn; auto.
Qed.
Lemma bcmp_dict : forall a b, bcmp a b = Lt <-> dict_lt a b.
Proof.
  induction a as [|x a IH]; intros [|y b]; cbn [bcmp]; split; intros H; try discriminate.
  - destruct H as [[y [r H]] | [c [x [r [y [r' [H _]]]]]]]; [discriminate|]. destruct c; discriminate.
  - left; exists y, b; reflexivity.
  - reflexivity.
  - destruct H as [[z [r H]] | [c [z [r [y [r' [_ [H _]]]]]]]]; [discriminate|]. destruct c; discriminate.
  - destruct (N.compare_spec x y) as [E|L|G]; try discriminate.
    + subst y. apply IH in H. destruct H as [[z [r ->]] | [c [u [r [v [r' [-> [-> L]]]]]]]].
      * left; exists z, r; reflexivity.
      * right; exists (x :: c), u, r, v, r'; auto.
    + right; exists [], x, a, y, b; auto.
  - destruct H as [[z [r H]] | [c [u [r [v [r' [A [B L]]]]]]]].
    + cbn in H. injection H as -> ->. rewrite N.compare_refl. apply IH. left; eauto.
    + destruct c as [|w c]; cbn in A, B.
      * injection A as -> ->. injection B as -> ->. apply N.compare_lt_iff in L. rewrite L. reflexivity.
      * injection A as -> ->. injection B as -> ->. rewrite N.compare_refl. apply IH.
        right; exists c, u, r, v, r'; auto.
Qed.
Lemma bcmp_trans : forall a b c, bcmp a b = Lt -> bcmp b c = Lt -> bcmp a c = Lt.
Proof.
  induction a as [|x a IH]; intros [|y b] [|z c]; cbn [bcmp]; intros H1 H2; try discriminate; auto.
  destruct (N.compare_spec x y) as [E|L|G]; try discriminate;
  destruct (N.compare_spec y z) as [E'|L'|G']; try discriminate; subst.
  - rewrite N.compare_refl. eauto.
  - apply N.compare_lt_iff in L'. rewrite L'. reflexivity.
  - apply N.compare_lt_iff in L. rewrite L. reflexivity.
  - assert (x < z)%N as L2 by lia. apply N.compare_lt_iff in L2. rewrite L2. reflexivity.
Qed.
Lemma kcmp_eq : forall p q, kcmp p q = Eq <-> same_package p q.
Proof.
  intros p q; unfold kcmp, same_package. destruct (bcmp (lk_source p) (lk_source q)) eqn:E.
  - apply bcmp_eq in E. rewrite bcmp_eq. tauto.
  - split; [discriminate|]. intros [_ H]. apply bcmp_eq in H. congruence.
  - split; [discriminate|]. intros [_ H]. apply bcmp_eq in H. congruence.
Qed.
Lemma kcmp_anti : forall p q, kcmp q p = CompOpp (kcmp p q).
Proof.
  intros p q; unfold kcmp. rewrite (bcmp_anti (lk_source p) (lk_source q)).
  destruct (bcmp (lk_source p) (lk_source q)); cbn; auto using bcmp_anti.
Qed.
Lemma kcmp_lt : forall p q, kcmp p q = Lt <-> listed_before p q.
Proof.
  intros p q; unfold kcmp, listed_before. rewrite <- !bcmp_dict.
  destruct (bcmp (lk_source p) (lk_source q)) eqn:E.
  - apply bcmp_eq in E. rewrite E. intuition congruence.
  - split; auto.
  - split; [discriminate|]. intros [H|[H _]]; [discriminate|]. apply bcmp_eq in H. congruence.
Qed.
Lemma kcmp_trans : forall p q r, kcmp p q = Lt -> kcmp q r = Lt -> kcmp p r = Lt.
Proof.
  intros p q r; unfold kcmp.
  destruct (bcmp (lk_source p) (lk_source q)) eqn:E1; destruct (bcmp (lk_source q) (lk_source r)) eqn:E2;
    intros H1 H2; try discriminate.
  - apply bcmp_eq in E1. rewrite E1, E2. eauto using bcmp_trans.
  - apply bcmp_eq in E1. rewrite E1, E2. reflexivity.
  - apply bcmp_eq in E2. rewrite <- E2, E1. reflexivity.
  - rewrite (bcmp_trans _ _ _ E1 E2). reflexivity.
Qed.
Lemma before_irrefl : forall p, ~ listed_before p p.
Proof.
  intros p H. apply kcmp_lt in H. assert (kcmp p p = Eq) by (apply kcmp_eq; split; auto). congruence.
Qed.
Lemma before_trans : forall p q r, listed_before p q -> listed_before q r -> listed_before p r.
Proof. intros p q r; rewrite <- !kcmp_lt; apply kcmp_trans. Qed.

(** ** Sorting *)

Definition apart (l : list Locked) : Prop :=
  ForallOrdPairs (fun p q => ~ same_package p q) l.

Lemma sort_in_perm : forall p l, Permutation (sort_in p l) (p :: l).
Proof.
  induction l as [|q r IH]; cbn [sort_in]; [reflexivity|].
  destruct (kcmp p q); try reflexivity. rewrite IH. apply perm_swap.
Qed.
Lemma sort_perm : forall l, Permutation (sort_pkgs l) l.
Proof.
  induction l as [|p r IH]; cbn [sort_pkgs]; [reflexivity|]. rewrite sort_in_perm, IH. reflexivity.
Qed.
Lemma sort_in_sorted : forall p l, Forall (fun q => ~ same_package p q) l ->
  StronglySorted listed_before l -> StronglySorted listed_before (sort_in p l).
Proof.
  intros p l; induction l as [|q r IH]; cbn [sort_in]; intros F S; [constructor; constructor|].
  inversion F; subst; inversion S; subst. destruct (kcmp p q) eqn:E.
  - apply kcmp_eq in E. contradiction.
  - apply kcmp_lt in E. constructor; [auto|]. constructor; [auto|].
    eapply Forall_impl; [|eassumption]. intros; eapply before_trans; eauto.
  - constructor; [auto|]. assert (listed_before q p) as L by (apply kcmp_lt; rewrite kcmp_anti, E; auto).
    eapply Permutation_Forall; [symmetry; apply sort_in_perm|]. constructor; auto.
Qed.
Lemma sort_sorted : forall l, apart l -> StronglySorted listed_before (sort_pkgs l).
Proof.
  induction 1; cbn [sort_pkgs]; [constructor|]. apply sort_in_sorted; auto.
  eapply Permutation_Forall; [symmetry; apply sort_perm|]. assumption.
Qed.
Lemma same_sym : forall p q, same_package p q -> same_package q p.
Proof. unfold same_package; intuition. Qed.
Lemma sorted_apart : forall l, StronglySorted listed_before l -> apart l.
Proof.
  induction 1; constructor; auto. eapply Forall_impl; [|eassumption].
  intros q L S. apply kcmp_eq in S. apply kcmp_lt in L. congruence.
Qed.
Lemma same_pkg_spec : forall p q, same_pkg (lk_name p) (lk_source p) q = true <-> same_package q p.
Proof. intros; unfold same_pkg, same_package. rewrite andb_true_iff, !beqb_spec. tauto. Qed.
Lemma put_in : forall p l, apart l -> forall x,
  In x (put_pkg p l) <-> x = p \/ (In x l /\ ~ same_package x p).
Proof.
  intros p l A x; induction A as [|q r F A IH]; cbn [put_pkg In]; [intuition|].
  destruct (same_pkg _ _ q) eqn:E.
  - apply same_pkg_spec in E. destruct E as [E1 E2]. cbn [In]. rewrite E1, E2.
    replace (mkLocked (lk_name p) (lk_version p) (lk_source p) (lk_checksum p)) with p by (destruct p; auto).
    split.
    + intros [->|H]; [auto|]. right; split; [auto|]. rewrite Forall_forall in F. intros [S1 S2].
      apply (F x H). split; congruence.
    + intros [->|[[->|H] N]]; auto. destruct N; split; auto.
  - cbn [In]. rewrite IH. split.
    + intros [->|[->|[H N]]]; auto. right; split; auto. intros S. apply same_pkg_spec in S. congruence.
    + intuition.
Qed.
Lemma put_apart : forall p l, apart l -> apart (put_pkg p l).
Proof.
  intros p l A; induction A as [|q r F A IH]; cbn [put_pkg]; [constructor; constructor|].
  destruct (same_pkg _ _ q) eqn:E.
  - constructor; [|auto]. eapply Forall_impl; [|exact F]. intros x N [S1 S2]; apply N; split; auto.
  - constructor; [|auto]. apply Forall_forall. intros x H. apply (put_in p r A) in H.
    destruct H as [->|[H _]].
    + intros S. apply same_pkg_spec in S. congruence.
    + rewrite Forall_forall in F; auto.
Qed.

Lemma pins_snoc : forall h p, pins (h ++ [p]) = pin (pins h) p.
Proof. intros; unfold pins. rewrite fold_left_app. reflexivity. Qed.
Lemma pins_sorted : forall h, StronglySorted listed_before (pins h).
Proof.
  induction h as [|p h IH] using rev_ind; [constructor|]. rewrite pins_snoc.
  apply sort_sorted, put_apart, sorted_apart, IH.
Qed.
Lemma same_dec : forall p q, same_package p q \/ ~ same_package p q.
Proof.
  intros p q. destruct (same_pkg (lk_name q) (lk_source q) p) eqn:E.
  - left; apply same_pkg_spec; auto.
  - right; intros S; apply same_pkg_spec in S; congruence.
Qed.
Lemma latest_snoc : forall h p x, latest (h ++ [p]) x <-> x = p \/ (latest h x /\ ~ same_package x p).
Proof.
  intros h p x; split.
  - intros [h1 [h2 [E N]]]. destruct h2 as [|y h2 _] using rev_ind.
    + apply app_inj_tail in E as [_ E]. auto.
    + rewrite app_comm_cons, app_assoc in E. apply app_inj_tail in E as [E ->].
      right; split.
      * exists h1, h2; split; auto. intros q I; apply N, in_or_app; auto.
      * intros S. apply (N y); [apply in_or_app; cbn; auto|apply same_sym, S].
  - intros [->|[[h1 [h2 [-> N]]] D]].
    + exists h, []; split; auto.
    + exists h1, (h2 ++ [p]); split; [rewrite <- app_assoc; reflexivity|].
      intros q I S. apply in_app_or in I as [I|[<-|[]]]; [exact (N q I S)|exact (D (same_sym _ _ S))].
Qed.
Lemma pins_in : forall h x, In x (pins h) <-> latest h x.
Proof.
  induction h as [|p h IH] using rev_ind; intros x.
  - split; [intros []|]. intros [h1 [h2 [E _]]]. destruct h1; discriminate.
  - rewrite pins_snoc, latest_snoc, <- IH. unfold pin. rewrite <- put_in by apply sorted_apart, pins_sorted.
    split; intros H; eapply Permutation_in; try eassumption; [|symmetry]; apply sort_perm.
Qed.
Lemma sorted_same : forall l1 l2, StronglySorted listed_before l1 -> StronglySorted listed_before l2 ->
  (forall x, In x l1 <-> In x l2) -> l1 = l2.
Proof.
  intros l1 l2 S1; revert l2; induction S1 as [|p r S1 IH F]; intros l2 S2 E.
  - destruct l2 as [|q l]; [auto|]. destruct (proj2 (E q)); cbn; auto.
  - destruct S2 as [|q r2 S2 F2]; [destruct (proj1 (E p)); cbn; auto|].
    rewrite Forall_forall in F, F2. assert (p = q) as ->.
    { destruct (proj1 (E p)) as [|H1]; [cbn; auto|auto|]. destruct (proj2 (E q)) as [|H2]; [cbn; auto|auto|].
      destruct (before_irrefl p). eauto using before_trans. }
    f_equal. apply IH; auto. intros x; split; intros H.
    + destruct (proj1 (E x)) as [<-|]; cbn; auto. destruct (before_irrefl q); auto.
    + destruct (proj2 (E x)) as [<-|]; cbn; auto. destruct (before_irrefl q); auto.
Qed.

Lemma put_keeps : forall p l1 q l2 r l3, same_package q r -> In r (put_pkg p (l1 ++ q :: l2 ++ r :: l3)).
Proof.
  intros p l1 q l2 r l3 S. induction l1 as [|x l IH]; cbn [app put_pkg].
  - destruct (same_pkg _ _ q) eqn:E; [right; apply in_or_app; cbn; auto|].
    right. clear -E S. assert (same_pkg (lk_name p) (lk_source p) r = false) as E'.
    { destruct S as [S1 S2]. unfold same_pkg in *. rewrite <- S1, <- S2. exact E. }
    induction l2 as [|x l IH]; cbn [app put_pkg].
    + rewrite E'. left; auto.
    + destruct (same_pkg _ _ x); [right; apply in_or_app; cbn; auto|right; auto].
  - destruct (same_pkg _ _ x); [|right; auto]. right. apply in_or_app; cbn. right; right. apply in_or_app; cbn; auto.
Qed.

(** ** Saving *)

Definition running (c : bytes) (r0 : option bytes) (w : Where) (d : Disk) : Prop :=
  disk_ok d /\
  match w with
  | WStart => d_read d = r0
  | WOpen i pos => d_tmp d = Some i /\ d_data d i = firstn pos c /\ pos <= length c /\ d_read d = r0
  | WDone => d_read d = Some c
  | WFailed => False
  end.

Lemma write_at_end : forall old pos c, length old = pos -> write_at old pos c = old ++ c.
Proof.
  intros old pos c <-; unfold write_at. rewrite firstn_all, Nat.sub_diag, skipn_all2 by lia. cbn. rewrite app_nil_r. reflexivity.
Qed.
Lemma firstn_add : forall (c : bytes) a b, firstn a c ++ firstn b (skipn a c) = firstn (a + b) c.
Proof.
  induction c as [|x c IH]; intros [|a] b; cbn [firstn skipn app Nat.add]; rewrite ?firstn_nil; auto.
  f_equal; auto.
Qed.
Lemma upd_same : forall f i b, upd f i b i = b.
Proof. intros; unfold upd; rewrite Nat.eqb_refl; auto. Qed.
Lemma upd_other : forall f i b j, j <> i -> upd f i b j = f j.
Proof. intros; unfold upd. apply Nat.eqb_neq in H as ->; auto. Qed.

Lemma save_step_running : forall c r0 n w d w' d', running c r0 w d ->
  save_step c n w d = (w', d') -> running c r0 w' d'.
Proof.
  intros c r0 n w d w' d' [[O1 [O2 O3]] R] E. destruct w as [|i pos| |]; cbn [save_step] in E.
  - destruct (d_tmp d) as [i|] eqn:T; injection E as <- <-.
    + split; [split; [|split]; cbn; auto|]. cbn. split; [auto|]. split; [apply upd_same|]. split; [lia|].
      unfold d_read in *; cbn. destruct (d_target d) as [j|] eqn:J; [|auto].
      rewrite upd_other; [auto|]. intros ->. apply (O3 i); auto.
    + split; [split; [|split]; cbn|].
      * intros i H. apply O1 in H. lia.
      * intros i [= <-]. lia.
      * intros i H [= <-]. apply O1 in H. lia.
      * cbn. split; [auto|]. split; [apply upd_same|]. split; [lia|].
        unfold d_read in *; cbn. destruct (d_target d) as [j|] eqn:J; [|auto].
        rewrite upd_other; [auto|]. specialize (O1 j eq_refl). lia.
  - destruct R as [T [D [L R]]]. destruct (length c <=? pos)%nat eqn:P.
    + rewrite T in E. injection E as <- <-. apply Nat.leb_le in P. split.
      * split; [|split]; cbn; [intros j [= <-]; auto|discriminate|discriminate].
      * unfold d_read; cbn. rewrite D, firstn_all2 by lia. reflexivity.
    + injection E as <- <-. apply Nat.leb_gt in P. set (m := match n with 0 => 1 | S m0 => S m0 end).
      assert (length (firstn m (skipn pos c)) = Nat.min m (length c - pos)) as K
        by (rewrite firstn_length, skipn_length; auto).
      split; [split; [|split]; cbn [d_target d_tmp d_next]; auto|].
      cbn [running d_target d_tmp d_data d_next]. split; [auto|]. split; [|split].
      * rewrite upd_same, D, write_at_end by (rewrite firstn_length; lia).
        rewrite K, firstn_add.
        destruct (Nat.min_spec m (length c - pos)) as [[_ ->]|[H ->]]; [auto|].
        rewrite !firstn_all2 by lia. auto.
      * fold m. rewrite K. lia.
      * unfold d_read in *; cbn. destruct (d_target d) as [j|] eqn:J; [|auto].
        rewrite upd_other; [auto|]. intros ->. apply (O3 i); auto.
  - injection E as <- <-. split; [split|]; auto.
  - contradiction.
Qed.
Lemma save_run_running : forall c r0 ns w d w' d', running c r0 w d ->
  save_run c ns w d = (w', d') -> running c r0 w' d'.
Proof.
  intros c r0 ns; induction ns as [|n ns IH]; cbn [save_run]; intros w d w' d' R E.
  - injection E as <- <-; auto.
  - destruct (save_step c n w d) as [w1 d1] eqn:E1. eapply IH; [|exact E]. eapply save_step_running; eauto.
Qed.
Lemma save_run_atomic : forall d c ns w d', disk_ok d -> save_run c ns WStart d = (w, d') ->
  disk_ok d' /\ ((w = WDone /\ d_read d' = Some c) \/ (w <> WDone /\ d_read d' = d_read d)).
Proof.
  intros d c ns w d' O E. destruct (save_run_running c (d_read d) ns WStart d w d') as [O' R]; [split; auto|auto|].
  split; [auto|]. destruct w; [right; split; [discriminate|tauto]|right; split; [discriminate|tauto]|left; auto|contradiction].
Qed.
Lemma done_stays : forall c ns d, save_run c ns WDone d = (WDone, d).
Proof. induction ns; intros; cbn [save_run save_step]; auto. Qed.
Lemma open_ends : forall c r0 ns i pos d, running c r0 (WOpen i pos) d ->
  length c - pos + 1 <= length ns -> fst (save_run c ns (WOpen i pos) d) = WDone.
Proof.
  intros c r0 ns; induction ns as [|n ns IH]; intros i pos d R L; cbn [length] in L; [lia|].
  cbn [save_run]. destruct (save_step c n (WOpen i pos) d) as [w1 d1] eqn:E1.
  pose proof (save_step_running _ _ _ _ _ _ _ R E1) as R1.
  cbn [save_step] in E1. destruct (length c <=? pos)%nat eqn:P.
  - destruct R as [_ [T _]]. rewrite T in E1. injection E1 as <- <-. rewrite done_stays. auto.
  - apply Nat.leb_gt in P. injection E1 as <- <-. apply IH; [exact R1|].
    rewrite firstn_length, skipn_length. destruct n; lia.
Qed.
Lemma save_ends : forall c ns d, disk_ok d -> length c + 2 <= length ns -> fst (save_run c ns WStart d) = WDone.
Proof.
  intros c [|n ns] d O L; cbn [length] in L; [lia|]. cbn [save_run].
  destruct (save_step c n WStart d) as [w1 d1] eqn:E1.
  assert (running c (d_read d) WStart d) as R by (split; auto).
  pose proof (save_step_running _ _ _ _ _ _ _ R E1) as R1.
  cbn [save_step] in E1. destruct (d_tmp d); injection E1 as <- <-; (eapply open_ends; [exact R1|lia]).
Qed.
Lemma saves_ok : forall h d, disk_ok d -> disk_ok (saves_run h d) /\
  (d_read (saves_run h d) = d_read d \/ exists c ns, In (c, ns) h /\ d_read (saves_run h d) = Some c).
Proof.
  induction h as [|[c ns] h IH]; intros d O; cbn [saves_run]; [auto|].
  destruct (save_run c ns WStart d) as [w d'] eqn:E. cbn [snd].
  destruct (save_run_atomic _ _ _ _ _ O E) as [O' R]. destruct (IH d' O') as [O2 R2]. split; [auto|].
  destruct R2 as [R2|[c2 [n2 [I R2]]]].
  - rewrite R2. destruct R as [[_ R]|[_ R]]; [right; exists c, ns; cbn; auto|left; auto].
  - right; exists c2, n2; cbn; auto.
Qed.
Lemma saves_app : forall h1 h2 d, saves_run (h1 ++ h2) d = saves_run h2 (saves_run h1 d).
Proof. induction h1 as [|[c ns] h IH]; intros; cbn [app saves_run]; auto. Qed.
Lemma saves_kept : forall h1 c ns h2 d, disk_ok d -> length c + 2 <= length ns ->
  d_read (saves_run (h1 ++ (c, ns) :: h2) d) = Some c \/
  exists c2 n2, In (c2, n2) h2 /\ d_read (saves_run (h1 ++ (c, ns) :: h2) d) = Some c2.
Proof.
  intros h1 c ns h2 d O L. rewrite saves_app. cbn [saves_run].
  destruct (saves_ok h1 d O) as [O1 _]. pose proof (save_ends c ns _ O1 L) as D.
  destruct (save_run c ns WStart (saves_run h1 d)) as [w d'] eqn:E. cbn [fst snd] in *. subst w.
  destruct (save_run_atomic _ _ _ _ _ O1 E) as [O' [[_ R]|[N _]]]; [|congruence].
  destruct (saves_ok h2 d' O') as [_ [R2|R2]]; [left; rewrite R2; exact R|right; auto].
Qed.

(** Two at once: the first is about to rename when the second cuts the file. *)
Lemma both_clash : forall d c1 c2, disk_ok d -> c1 <> [] -> c2 <> [] ->
  exists s w2 d', both_run c1 c2 s WStart WStart d = (WDone, w2, d') /\ d_read d' = Some [] /\
    (forall s2 w1' w2' d2, both_run c1 c2 s2 WDone w2 d' = (w1', w2', d2) -> w2' <> WDone).
Proof.
  intros d c1 c2 [O1 [O2 O3]] N1 N2.
  set (i := match d_tmp d with Some i => i | None => d_next d end).
  exists [(true, 0); (true, length c1); (false, 0); (true, 0)], (WOpen i 0).
  assert (Nat.leb (length c1) 0 = false) as L by (destruct c1; [congruence|reflexivity]).
  assert (firstn (Nat.max 1 (length c1)) c1 = c1) as F by (apply firstn_all2; lia).
  assert (forall d1 j, d_tmp d1 = Some j ->
    save_step c1 0 (WOpen j (0 + length (firstn (Nat.max 1 (length c1)) (skipn 0 c1)))) d1
    = (WDone, mkDisk (Some j) None (d_data d1) (d_next d1))) as E3.
  { intros d1 j T. cbn [save_step skipn]. rewrite F, Nat.add_0_l, Nat.leb_refl, T. reflexivity. }
  assert (forall s2 pos d1 w1' w2' d2, d_tmp d1 = None ->
    both_run c1 c2 s2 WDone (WOpen i pos) d1 = (w1', w2', d2) -> w2' <> WDone) as E4.
  { assert (forall s2 d1 w1' w2' d2, both_run c1 c2 s2 WDone WFailed d1 = (w1', w2', d2) -> w2' <> WDone) as E5.
    { induction s2 as [|[[|] n] s IH]; cbn [both_run save_step]; intros d1 w1' w2' d2 E; eauto.
      injection E as <- <- <-. discriminate. }
    induction s2 as [|[[|] n] s IH]; cbn [both_run]; intros pos d1 w1' w2' d2 T E.
    - injection E as <- <- <-. discriminate.
    - cbn [save_step] in E. eauto.
    - cbn [save_step] in E. destruct (length c2 <=? pos)%nat.
      + rewrite T in E. eauto.
      + eapply IH; [|exact E]. exact T. }
  cbn [both_run]. destruct (d_tmp d) as [t|] eqn:T.
  - cbn [save_step]. rewrite T. cbn [save_step]. rewrite L. cbn [d_tmp d_target d_data d_next].
    rewrite E3 by reflexivity. eexists; split; [reflexivity|]. split.
    + unfold d_read; cbn. rewrite upd_same. reflexivity.
    + intros s2 w1' w2' d2 E. eapply E4; [|exact E]. reflexivity.
  - cbn [save_step]. rewrite T. cbn [save_step]. rewrite L. cbn [d_tmp d_target d_data d_next].
    rewrite E3 by reflexivity. eexists; split; [reflexivity|]. split.
    + unfold d_read; cbn. rewrite upd_same. reflexivity.
    + intros s2 w1' w2' d2 E. eapply E4; [|exact E]. reflexivity.
Qed.
