(** Proofs about dependencies. *)
From Coq Require Import String.
From Verif.Base Require Import Prelude Bytes AMap Str.
From Verif.Model Require Import Guard NetFilter Resolver.
From Verif.Spec Require Import ResolverSpec.
From Coq Require Import Permutation.
Local Open Scope N_scope.
Local Open Scope list_scope.

Lemma beqb_refl a : beqb a a = true.
Proof. apply beqb_spec. reflexivity. Qed.
Lemma beqb_neq a b : a <> b -> beqb a b = false.
Proof. intros H. destruct (beqb a b) eqn:E; [apply beqb_spec in E; contradiction|reflexivity]. Qed.

(** ** The highest *)
Lemma highest_none l : highest l = None <-> l = [].
Proof. destruct l as [|v r]; cbn [highest]; [tauto|]. destruct (highest r); split; discriminate. Qed.
Lemma highest_some l v : highest l = Some v -> In v l /\ forall w, In w l -> w <= v.
Proof.
  revert v. induction l as [|x r IH]; intros v H; cbn [highest] in H; [discriminate|]. destruct (highest r) as [w|] eqn:E.
  - injection H as <-. destruct (IH w eq_refl) as [A B]. split.
    + destruct (N.max_spec x w) as [[_ ->]|[_ ->]]; [right; exact A|left; reflexivity].
    + intros y [<-|I]; [lia|]. specialize (B y I). lia.
  - injection H as <-. apply highest_none in E. subst r. split; [left; reflexivity|]. intros w [<-|[]]. lia.
Qed.
Lemma best_some pv vs rs v : best pv vs rs = Some v -> In v vs /\ (forall r, In r rs -> pv_match pv r v = true) /\ forall w, In w vs -> (forall r, In r rs -> pv_match pv r w = true) -> w <= v.
Proof.
  unfold best. intros H. apply highest_some in H as [A B]. apply filter_In in A as [A1 A2]. rewrite forallb_forall in A2. split; [exact A1|]. split; [exact A2|]. intros w I M. apply B, filter_In. split; [exact I|].
  apply forallb_forall. exact M.
Qed.
Lemma best_none pv vs rs : best pv vs rs = None -> forall v, In v vs -> exists r, In r rs /\ pv_match pv r v = false.
Proof.
  unfold best. intros H v I. apply highest_none in H. destruct (forallb (fun r => pv_match pv r v) rs) eqn:E.
  - exfalso. assert (X : In v []) by (rewrite <- H; apply filter_In; auto). exact X.
  - clear H I. induction rs as [|r rs IH]; [discriminate|]. cbn [forallb] in E. destruct (pv_match pv r v) eqn:M; [|exists r; split; [left; reflexivity|exact M]].
    destruct (IH E) as (q & A & B). exists q. split; [right; exact A|exact B].
Qed.

(** ** The search *)
Lemma nodup_snoc {A} (l : list A) x : NoDup l -> ~ In x l -> NoDup (l ++ [x]).
Proof. intros N H. apply (Permutation_NoDup (l := x :: l)); [apply Permutation_cons_append|constructor; assumption]. Qed.
Definition key (d : Dep) : bytes * N := (d_name d, d_req d).
Lemma same_key_iff a b : same_key a b = true <-> key a = key b.
Proof.
  unfold same_key, key. rewrite andb_true_iff, beqb_spec, N.eqb_eq. split; [intros [-> ->]; reflexivity|]. intros H. injection H as -> ->. auto.
Qed.
Lemma seen_iff d seen : existsb (same_key d) seen = true <-> In (key d) (map key seen).
Proof.
  rewrite existsb_exists, in_map_iff. split.
  - intros (x & I & H). apply same_key_iff in H. eauto.
  - intros (x & H & I). exists x. split; [exact I|]. apply same_key_iff. auto.
Qed.
Lemma reqs_of_app n a b : reqs_of n (a ++ b) = reqs_of n a ++ reqs_of n b.
Proof. unfold reqs_of. rewrite filter_app, map_app. reflexivity. Qed.
Lemma reqs_of_in n seen r : In r (reqs_of n seen) <-> In (n, r) (map key seen).
Proof.
  unfold reqs_of. rewrite !in_map_iff. split.
  - intros (d & <- & I). apply filter_In in I as [I H]. apply beqb_spec in H. exists d. unfold key. subst n. auto.
  - intros (d & H & I). unfold key in H. injection H as <- <-. exists d. split; [reflexivity|]. apply filter_In. split; [exact I|apply beqb_refl].
Qed.
Lemma reqs_of_other n d seen : d_name d <> n -> reqs_of n (seen ++ [d]) = reqs_of n seen.
Proof. intros H. rewrite reqs_of_app. unfold reqs_of at 2. cbn [filter]. rewrite beqb_neq by congruence. apply app_nil_r. Qed.
(** The keys that were and will be looked at contain what is behind each visited package. *)
Definition covered (pv : Provider) (queue seen : list Dep) : Prop :=
  forall n d, In n (map d_name seen) -> In d (behind pv n seen) -> In (key d) (map key seen) \/ In (key d) (map key queue).
Lemma collect_covered fuel pv : forall queue seen out, covered pv queue seen -> collect fuel pv queue seen = Some out -> covered pv [] out /\ incl (map key seen) (map key out) /\ incl (map key queue) (map key out).
Proof.
  induction fuel as [|f IH]; intros [|d q] seen out C H; cbn [collect] in H; try discriminate.
  - injection H as <-. split; [exact C|]. split; [apply incl_refl|intros x []].
  - injection H as <-. split; [exact C|]. split; [apply incl_refl|intros x []].
  - destruct (existsb (same_key d) seen) eqn:E.
    + apply seen_iff in E. apply IH in H as (A & B & D).
      * split; [exact A|]. split; [exact B|]. intros x [<-|I]; [apply B, E|apply D, I].
      * intros n x I J. destruct (C n x I J) as [X|X]; [left; exact X|]. cbn [map] in X. destruct X as [X|X]; [left; rewrite <- X; exact E|right; exact X].
    + cbv zeta in H. apply IH in H as (A & B & D).
      * split; [exact A|]. rewrite map_app in B, D. split; [intros x I; apply B, in_or_app; left; exact I|]. intros x [<-|I]; [apply B, in_or_app; right; left; reflexivity|apply D, in_or_app; left; exact I].
      * intros n x I J. rewrite !map_app in *. destruct (list_eq_dec N.eq_dec (d_name d) n) as [<-|Ne].
        -- right. apply in_or_app. right. apply in_map. exact J.
        -- apply in_app_or in I as [I|[I|[]]]; [|destruct (Ne I)]. unfold behind in J. rewrite (reqs_of_other n d seen Ne) in J.
           destruct (C n x I J) as [X|[X|X]]; [left; apply in_or_app; left; exact X|left; apply in_or_app; right; left; exact X|right; apply in_or_app; left; exact X].
Qed.
Lemma collect_asked fuel pv roots : forall queue seen out, (forall d, In d (queue ++ seen) -> asked pv roots (d_name d) (d_req d)) -> collect fuel pv queue seen = Some out -> forall d, In d out -> asked pv roots (d_name d) (d_req d).
Proof.
  induction fuel as [|f IH]; intros [|d q] seen out C H; cbn [collect] in H; try discriminate; try (injection H as <-; exact C).
  destruct (existsb (same_key d) seen); [apply (IH q seen out); [|exact H]; intros x I; apply C; right; exact I|]. cbv zeta in H. revert H. apply IH. intros x I.
  apply in_app_or in I as [I|I]; [apply in_app_or in I as [I|I]|apply in_app_or in I as [I|[<-|[]]]].
  - apply C. right. apply in_or_app. left. exact I.
  - unfold behind in I. destruct (pv_versions pv (d_name d)) as [vs|]; [|destruct I]. destruct (best pv vs _) as [v|]; [|destruct I]. destruct (pv_deps pv (d_name d) v) as [ds|] eqn:E; [|destruct I].
    exists x. split; [reflexivity|]. split; [reflexivity|]. right. eauto.
  - apply C. right. apply in_or_app. right. exact I.
  - apply C. left. reflexivity.
Qed.
Lemma collect_nodup fuel pv : forall queue seen out, NoDup (map key seen) -> collect fuel pv queue seen = Some out -> NoDup (map key out).
Proof.
  induction fuel as [|f IH]; intros [|d q] seen out C H; cbn [collect] in H; try discriminate; try (injection H as <-; exact C).
  destruct (existsb (same_key d) seen) eqn:E; [apply (IH q seen out C H)|]. cbv zeta in H. revert H. apply IH. rewrite map_app. cbn [map]. apply nodup_snoc; [exact C|].
  intros I. apply seen_iff in I. congruence.
Qed.
(** The search ends: at most [length all] dependencies are new. *)
Lemma collect_ends fuel pv all width : finite_registry pv all width -> forall queue seen, NoDup (map key seen) -> incl (map key seen) all -> incl (map key queue) all ->
  (length queue + (length all - length seen) * width <= fuel)%nat -> exists out, collect fuel pv queue seen = Some out.
Proof.
  intros F. induction fuel as [|f IH]; intros [|d q] seen N I1 I2 L; cbn [collect]; try (eexists; reflexivity); [exfalso; cbn [length] in L; set (k := ((length all - length seen) * width)%nat) in L; lia|].
  destruct (existsb (same_key d) seen) eqn:E.
  - apply IH; auto; [intros x I; apply I2; right; exact I|cbn [length] in L; set (k := ((length all - length seen) * width)%nat) in *; lia].
  - cbv zeta. assert (Nk : ~ In (key d) (map key seen)) by (intros X; apply seen_iff in X; congruence).
    assert (N' : NoDup (map key (seen ++ [d]))) by (rewrite map_app; apply nodup_snoc; auto).
    assert (I1' : incl (map key (seen ++ [d])) all) by (rewrite map_app; intros x I; apply in_app_or in I as [I|[<-|[]]]; [apply I1, I|apply I2; left; reflexivity]).
    assert (B : (length (behind pv (d_name d) (seen ++ [d])) <= width)%nat /\ incl (map key (behind pv (d_name d) (seen ++ [d]))) all).
    { unfold behind. destruct (pv_versions pv (d_name d)) as [vs|]; [|split; [cbn; lia|intros x []]]. destruct (best pv vs _) as [v|]; [|split; [cbn; lia|intros x []]]. destruct (pv_deps pv (d_name d) v) as [ds|] eqn:Ed; [|split; [cbn; lia|intros x []]].
      destruct (F _ _ _ Ed) as [W A]. split; [exact W|]. intros x I. apply in_map_iff in I as (y & <- & I). apply A, I. }
    destruct B as [B1 B2]. pose proof (NoDup_incl_length N' I1') as Ln. rewrite map_length, app_length in Ln. cbn [length] in Ln.
    apply IH; auto.
    + rewrite map_app. intros x I. apply in_app_or in I as [I|I]; [apply I2; right; exact I|apply B2, I].
    + rewrite !app_length. cbn [length] in L |- *. replace (length all - length seen)%nat with (S (length all - (length seen + 1)))%nat in L by lia. cbn [Nat.mul] in L. set (k := ((length all - (length seen + 1)) * width)%nat) in *. lia.
Qed.

(** ** The names *)
Lemma names_of_in seen n : In n (names_of seen) <-> In n (map d_name seen).
Proof.
  induction seen as [|d r IH]; cbn [names_of map]; [tauto|]. split.
  - intros [H|H]; [left; exact H|]. apply filter_In in H as [H _]. right. apply IH, H.
  - intros [H|H]; [left; exact H|]. destruct (list_eq_dec N.eq_dec (d_name d) n) as [E|E]; [left; exact E|]. right. apply filter_In. split; [apply IH, H|]. rewrite beqb_neq by exact E. reflexivity.
Qed.
Lemma names_of_nodup seen : NoDup (names_of seen).
Proof.
  induction seen as [|d r IH]; cbn [names_of]; constructor.
  - intros I. apply filter_In in I as [_ H]. rewrite beqb_refl in H. discriminate.
  - apply NoDup_filter, IH.
Qed.
Lemma resolve_all_ok pv seen : forall names l, resolve_all pv seen names = Resolved l -> map fst l = names /\ forall n v, In (n, v) l -> exists vs, pv_versions pv n = Some vs /\ best pv vs (reqs_of n seen) = Some v.
Proof.
  induction names as [|n r IH]; intros l H; cbn [resolve_all] in H.
  - injection H as <-. split; [reflexivity|]. intros n v [].
  - destruct (pv_versions pv n) as [vs|] eqn:E; [|discriminate]. destruct (best pv vs (reqs_of n seen)) as [v|] eqn:B; [|discriminate]. destruct (resolve_all pv seen r) as [l'|] eqn:R; [|discriminate]. injection H as <-.
    destruct (IH l' eq_refl) as [A C]. cbn [map fst]. split; [rewrite A; reflexivity|]. intros m w [X|X]; [injection X as <- <-; eauto|apply C, X].
Qed.
Lemma resolve_all_conflict pv seen : forall names n, resolve_all pv seen names = Conflict n -> In n names /\ forall vs, pv_versions pv n = Some vs -> best pv vs (reqs_of n seen) = None.
Proof.
  induction names as [|m r IH]; intros n H; cbn [resolve_all] in H; [discriminate|]. destruct (pv_versions pv m) as [vs|] eqn:E.
  - destruct (best pv vs (reqs_of m seen)) as [v|] eqn:B.
    + destruct (resolve_all pv seen r) as [l'|x] eqn:R; [discriminate|]. injection H as <-. destruct (IH x eq_refl) as [A C]. split; [right; exact A|exact C].
    + injection H as <-. split; [left; reflexivity|]. intros ws W. rewrite E in W. injection W as <-. exact B.
  - injection H as <-. split; [left; reflexivity|]. intros ws W. rewrite E in W. discriminate.
Qed.
Lemma place_perm x l : Permutation (place x l) (x :: l).
Proof. induction l as [|y r IH]; cbn [place]; [reflexivity|]. destruct (bleb (fst x) (fst y)); [reflexivity|]. rewrite IH. apply perm_swap. Qed.
Lemma by_name_perm l : Permutation (by_name l) l.
Proof. unfold by_name. induction l as [|x r IH]; cbn [fold_right]; [reflexivity|]. rewrite place_perm, IH. reflexivity. Qed.
(** A resolution in terms of what was looked at. *)
Lemma resolve_resolved fuel pv roots l : resolve fuel pv roots = Some (Resolved l) ->
  exists seen, covered pv [] seen /\ incl (map key roots) (map key seen) /\ (forall d, In d seen -> asked pv roots (d_name d) (d_req d)) /\
    NoDup (map fst l) /\ (forall n, In n (map fst l) <-> In n (map d_name seen)) /\
    forall n v, In (n, v) l -> exists vs, pv_versions pv n = Some vs /\ best pv vs (reqs_of n seen) = Some v.
Proof.
  unfold resolve. intros H. destruct (collect fuel pv roots []) as [seen|] eqn:C; [|discriminate]. destruct (resolve_all pv seen (names_of seen)) as [k|] eqn:R; [|discriminate]. injection H as <-. exists seen.
  assert (Q : forall d, In d (roots ++ []) -> asked pv roots (d_name d) (d_req d)) by (intros d I; rewrite app_nil_r in I; exists d; auto).
  pose proof (collect_asked fuel pv roots roots [] seen Q C) as A. apply collect_covered in C as (C1 & _ & C2); [|intros n d []].
  apply resolve_all_ok in R as [R1 R2]. pose proof (by_name_perm k) as P. assert (Pf : Permutation (map fst (by_name k)) (names_of seen)) by (rewrite <- R1; apply Permutation_map, P).
  split; [exact C1|]. split; [exact C2|]. split; [exact A|]. split; [eapply Permutation_NoDup; [symmetry; exact Pf|apply names_of_nodup]|]. split.
  - intros n. rewrite <- names_of_in. split; intros I; [eapply Permutation_in; [exact Pf|exact I]|eapply Permutation_in; [symmetry; exact Pf|exact I]].
  - intros n v I. apply R2. eapply Permutation_in; [exact P|exact I].
Qed.
Lemma seen_met pv seen l d : (forall n, In n (map fst l) <-> In n (map d_name seen)) -> (forall n v, In (n, v) l -> exists vs, pv_versions pv n = Some vs /\ best pv vs (reqs_of n seen) = Some v) ->
  In (key d) (map key seen) -> met pv l d.
Proof.
  intros N B I. assert (J : In (d_name d) (map fst l)) by (apply N; apply in_map_iff in I as (x & E & I); unfold key in E; injection E as <- _; apply in_map, I).
  apply in_map_iff in J as ([n v] & E & J). cbn [fst] in E. subst n. exists v. split; [exact J|]. destruct (B _ _ J) as (vs & _ & X). apply best_some in X as (_ & X & _). apply X, reqs_of_in, I.
Qed.

(** ** Where it comes from does not matter *)
Lemma same_reqs n a b : Forall2 same_but_source a b -> reqs_of n a = reqs_of n b.
Proof. unfold reqs_of. induction 1 as [|x y a b [E1 E2] F IH]; cbn [filter]; [reflexivity|]. rewrite E1. destruct (beqb n (d_name y)); cbn [map]; rewrite IH; [rewrite E2|]; reflexivity. Qed.
Lemma same_seen x y a b : same_but_source x y -> Forall2 same_but_source a b -> existsb (same_key x) a = existsb (same_key y) b.
Proof. intros [E1 E2]. induction 1 as [|u v a b [F1 F2] F IH]; cbn [existsb]; [reflexivity|]. unfold same_key at 1 3. rewrite E1, E2, F1, F2, IH. reflexivity. Qed.
Lemma same_refl a : Forall2 same_but_source a a.
Proof. induction a; constructor; [split; reflexivity|auto]. Qed.
Lemma same_collect fuel pv : forall q q' s s', Forall2 same_but_source q q' -> Forall2 same_but_source s s' ->
  match collect fuel pv q s, collect fuel pv q' s' with Some a, Some b => Forall2 same_but_source a b | None, None => True | _, _ => False end.
Proof.
  induction fuel as [|f IH]; intros q q' s s' [|x y r r' [E1 E2] R] S; cbn [collect]; auto.
  rewrite (same_seen x y s s' (conj E1 E2) S). destruct (existsb (same_key y) s'); [apply IH; auto|]. cbv zeta. rewrite E1.
  assert (S' : Forall2 same_but_source (s ++ [x]) (s' ++ [y])) by (apply Forall2_app; [exact S|constructor; [split; assumption|constructor]]).
  unfold behind. rewrite (same_reqs (d_name y) _ _ S'). apply IH; [|exact S']. apply Forall2_app; [exact R|apply same_refl].
Qed.
Lemma same_names a b : Forall2 same_but_source a b -> names_of a = names_of b.
Proof. induction 1 as [|x y a b [E1 E2] F IH]; cbn [names_of]; [reflexivity|]. rewrite E1, IH. reflexivity. Qed.
Lemma same_resolve_all pv a b : Forall2 same_but_source a b -> forall names, resolve_all pv a names = resolve_all pv b names.
Proof. intros F. induction names as [|n r IH]; cbn [resolve_all]; [reflexivity|]. rewrite (same_reqs n a b F), IH. reflexivity. Qed.
Lemma same_resolve fuel pv a b : Forall2 same_but_source a b -> resolve fuel pv a = resolve fuel pv b.
Proof.
  intros F. unfold resolve. pose proof (same_collect fuel pv a b [] [] F (Forall2_nil _)) as C. destruct (collect fuel pv a []) as [s|], (collect fuel pv b []) as [s'|]; try contradiction; [|reflexivity].
  rewrite (same_names s s' C), (same_resolve_all pv s s' C). reflexivity.
Qed.

(** ** A registry that fails *)
Lemma behind_answers pv n s : behind (always_answers pv) n s = behind pv n s.
Proof. unfold behind, always_answers, best. cbn [pv_versions pv_deps pv_match]. destruct (pv_versions pv n) as [vs|]; [|reflexivity]. destruct (highest _); reflexivity. Qed.
Lemma collect_answers fuel pv : forall q s, collect fuel (always_answers pv) q s = collect fuel pv q s.
Proof. induction fuel as [|f IH]; intros [|d q] s; cbn [collect]; try reflexivity. rewrite behind_answers, !IH. reflexivity. Qed.
Lemma resolve_answers fuel pv roots : resolve fuel (always_answers pv) roots = resolve fuel pv roots.
Proof.
  unfold resolve. rewrite collect_answers. destruct (collect fuel pv roots []) as [s|]; [|reflexivity]. f_equal.
  assert (R : forall names, resolve_all (always_answers pv) s names = resolve_all pv s names) by (induction names as [|n r IH]; cbn [resolve_all]; [reflexivity|]; rewrite IH; reflexivity). rewrite R. reflexivity.
Qed.

(** ** Installing *)
Definition keeps (go : Store -> list Dep -> ires) : Prop := forall st ds st', go st ds = IDone st' -> forall n v, lookup beqb n (st_local st) = Some v -> lookup beqb n (st_local st') = Some v.
Lemma insert_keeps n (v : N) m k w : lookup beqb n m = None -> lookup beqb k m = Some w -> lookup beqb k (insert beqb n v m) = Some w.
Proof. intros A B. rewrite lookup_insert_neq; [exact B|apply beqb_spec|]. intros ->. congruence. Qed.
Lemma mem_none n (m : list (bytes * N)) : mem beqb n m = false -> lookup beqb n m = None.
Proof. unfold mem. destruct (lookup beqb n m); [discriminate|reflexivity]. Qed.
Lemma mem_some n (m : list (bytes * N)) : mem beqb n m = true <-> exists v, lookup beqb n m = Some v.
Proof. unfold mem. destruct (lookup beqb n m) as [v|]; split; eauto; [discriminate|intros [v H]; discriminate]. Qed.
Lemma install_one_keeps go pv st n v st' : keeps go -> lookup beqb n (st_local st) = None -> install_one go pv st n v = IDone st' ->
  lookup beqb n (st_local st') = Some v /\ forall k w, lookup beqb k (st_local st) = Some w -> lookup beqb k (st_local st') = Some w.
Proof.
  intros K A H. unfold install_one in H. destruct (pv_fetch pv n v); [|discriminate]. cbv zeta in H.
  assert (G : forall k w, lookup beqb k (insert beqb n v (st_local st)) = Some w -> lookup beqb k (st_local st') = Some w).
  { intros k w X. destruct (pv_deps pv n v) as [[|d ds]|]; [injection H as <-; exact X|eapply K; [exact H|exact X]|injection H as <-; exact X]. }
  split; [apply G, lookup_insert_eq, beqb_spec|]. intros k w X. apply G, insert_keeps; auto.
Qed.
Lemma install_loop_keeps go pv : keeps go -> forall rs st st', install_loop go pv rs st = IDone st' ->
  (forall n v, lookup beqb n (st_local st) = Some v -> lookup beqb n (st_local st') = Some v) /\ forall n v, In (n, v) rs -> exists w, lookup beqb n (st_local st') = Some w.
Proof.
  intros K. induction rs as [|[n v] r IH]; intros st st' H; cbn [install_loop] in H.
  - injection H as <-. split; [auto|intros n v []].
  - destruct (mem beqb n (st_local st)) eqn:M.
    + destruct (IH _ _ H) as [A B]. split; [exact A|]. intros k w [X|X]; [|eapply B, X]. injection X as <- <-. apply mem_some in M as (x & M). exists x. apply A, M.
    + apply mem_none in M. destruct (existsb _ (st_cache st)).
      * destruct (IH _ _ H) as [A B]. cbn [st_local] in A. split; [intros k w X; apply A, insert_keeps; auto|]. intros k w [X|X]; [|eapply B, X]. injection X as <- <-. exists v. apply A, lookup_insert_eq, beqb_spec.
      * destruct (install_one go pv st n v) as [st1| |] eqn:O; try discriminate. destruct (install_one_keeps go pv st n v st1 K M O) as [O1 O2]. destruct (IH _ _ H) as [A B].
        split; [intros k w X; apply A, O2, X|]. intros k w [X|X]; [|eapply B, X]. injection X as <- <-. exists v. apply A, O1.
Qed.
Lemma install_simple_keeps go pv : keeps go -> forall ds st st', install_simple go pv ds st = IDone st' ->
  (forall n v, lookup beqb n (st_local st) = Some v -> lookup beqb n (st_local st') = Some v) /\ forall d, In d ds -> exists w, lookup beqb (d_name d) (st_local st') = Some w.
Proof.
  intros K. induction ds as [|d r IH]; intros st st' H; cbn [install_simple] in H.
  - injection H as <-. split; [auto|intros d []].
  - destruct (mem beqb (d_name d) (st_local st)) eqn:M.
    + destruct (IH _ _ H) as [A B]. split; [exact A|]. intros x [<-|X]; [|eapply B, X]. apply mem_some in M as (w & M). exists w. apply A, M.
    + apply mem_none in M. destruct (match pv_versions pv (d_name d) with Some vs => best pv vs [d_req d] | None => None end) as [v|]; [|discriminate].
      destruct (install_one go pv st (d_name d) v) as [st1| |] eqn:O; try discriminate. destruct (install_one_keeps go pv st _ v st1 K M O) as [O1 O2]. destruct (IH _ _ H) as [A B].
      split; [intros k w X; apply A, O2, X|]. intros x [<-|X]; [|eapply B, X]. exists v. apply A, O1.
Qed.
Lemma install_deps_keeps rf pv : forall fuel, keeps (install_deps fuel rf pv).
Proof.
  induction fuel as [|f IH]; intros st ds st' H n v L; cbn [install_deps] in H; [discriminate|]. destruct (resolve rf pv ds) as [[rs|c]|]; [| |discriminate].
  - apply install_loop_keeps in H as [A _]; auto.
  - apply install_simple_keeps in H as [A _]; auto.
Qed.
(** Where what is installed comes from: the cache, in that very version, or the registry. *)
Definition comes (pv : Provider) (st st' : Store) : Prop := st_cache st' = st_cache st /\ forall n v, lookup beqb n (st_local st') = Some v -> lookup beqb n (st_local st) = Some v \/ In (n, v) (st_cache st) \/ pv_fetch pv n v = true.
Lemma comes_refl pv st : comes pv st st.
Proof. split; auto. Qed.
Lemma comes_trans pv a b c : comes pv a b -> comes pv b c -> comes pv a c.
Proof. intros [A1 A2] [B1 B2]. split; [congruence|]. intros n v L. apply B2 in L. rewrite A1 in L. destruct L as [L|L]; auto. Qed.
Lemma comes_insert pv st n v : In (n, v) (st_cache st) \/ pv_fetch pv n v = true -> comes pv st (mkStore (insert beqb n v (st_local st)) (st_cache st)).
Proof.
  intros H. split; [reflexivity|]. intros k w L. cbn [st_local] in L. destruct (beqb k n) eqn:E.
  - apply beqb_spec in E as ->. rewrite lookup_insert_eq in L by apply beqb_spec. injection L as <-. auto.
  - rewrite lookup_insert_neq in L; [auto|apply beqb_spec|intros ->; rewrite beqb_refl in E; discriminate].
Qed.
Lemma install_one_comes go pv st n v st' : (forall s d s', go s d = IDone s' -> comes pv s s') -> install_one go pv st n v = IDone st' -> comes pv st st'.
Proof.
  intros G H. unfold install_one in H. destruct (pv_fetch pv n v) eqn:F; [|discriminate]. cbv zeta in H.
  pose proof (comes_insert pv st n v (or_intror F)) as I. destruct (pv_deps pv n v) as [[|d ds]|]; try (injection H as <-; exact I).
  eapply comes_trans; [exact I|eapply G, H].
Qed.
Lemma install_loop_comes go pv : (forall s d s', go s d = IDone s' -> comes pv s s') -> forall rs st st', install_loop go pv rs st = IDone st' -> comes pv st st'.
Proof.
  intros G. induction rs as [|[n v] r IH]; intros st st' H; cbn [install_loop] in H; [injection H as <-; apply comes_refl|].
  destruct (mem beqb n (st_local st)); [apply IH, H|]. destruct (existsb _ (st_cache st)) eqn:X.
  - eapply comes_trans; [|apply IH, H]. apply comes_insert. left. apply existsb_exists in X as ([a b] & X1 & X2). cbn [fst snd] in X2.
    apply andb_true_iff in X2 as [X2 X3]. apply beqb_spec in X2 as <-. apply N.eqb_eq in X3 as <-. exact X1.
  - destruct (install_one go pv st n v) as [st1| |] eqn:O; try discriminate. eapply comes_trans; [eapply install_one_comes; eauto|apply IH, H].
Qed.
Lemma install_simple_comes go pv : (forall s d s', go s d = IDone s' -> comes pv s s') -> forall ds st st', install_simple go pv ds st = IDone st' -> comes pv st st'.
Proof.
  intros G. induction ds as [|d r IH]; intros st st' H; cbn [install_simple] in H; [injection H as <-; apply comes_refl|].
  destruct (mem beqb (d_name d) (st_local st)); [apply IH, H|].
  destruct (match pv_versions pv (d_name d) with Some vs => best pv vs [d_req d] | None => None end) as [v|]; [|discriminate].
  destruct (install_one go pv st (d_name d) v) as [st1| |] eqn:O; try discriminate. eapply comes_trans; [eapply install_one_comes; eauto|apply IH, H].
Qed.
Lemma install_deps_comes rf pv : forall fuel st ds st', install_deps fuel rf pv st ds = IDone st' -> comes pv st st'.
Proof.
  induction fuel as [|f IH]; intros st ds st' H; cbn [install_deps] in H; [discriminate|]. destruct (resolve rf pv ds) as [[rs|c]|]; [| |discriminate].
  - eapply install_loop_comes; eauto.
  - eapply install_simple_comes; eauto.
Qed.
(** Where no package has dependencies of its own, each gets its version. *)
Lemma install_loop_leaves go pv : forall rs st st', (forall n v, In (n, v) rs -> pv_deps pv n v = Some [] \/ pv_deps pv n v = None) -> NoDup (map fst rs) -> install_loop go pv rs st = IDone st' ->
  forall n, lookup beqb n (st_local st') = match lookup beqb n (st_local st) with Some w => Some w | None => lookup beqb n rs end.
Proof.
  induction rs as [|[k u] r IH]; intros st st' L N H n; cbn [install_loop] in H.
  - injection H as <-. cbn [lookup]. destruct (lookup beqb n (st_local st)); reflexivity.
  - cbn [map fst] in N. inversion N as [|a b N1 N2]; subst. assert (Nr : lookup beqb k r = None) by (destruct (lookup beqb k r) as [w|] eqn:X; [exfalso; apply N1; apply lookup_In in X; [apply (in_map fst) in X; exact X|apply beqb_spec]|reflexivity]).
    assert (L' : forall n v, In (n, v) r -> pv_deps pv n v = Some [] \/ pv_deps pv n v = None) by (intros a b X; apply L; right; exact X).
    destruct (mem beqb k (st_local st)) eqn:M.
    + rewrite (IH _ _ L' N2 H n). destruct (lookup beqb n (st_local st)) eqn:E; [reflexivity|]. cbn [lookup]. rewrite beqb_neq; [reflexivity|]. intros ->. apply mem_some in M as (w & M). congruence.
    + apply mem_none in M. assert (St : exists st1, install_loop go pv r st1 = IDone st' /\ st_local st1 = insert beqb k u (st_local st)).
      { destruct (existsb _ (st_cache st)); [eexists; split; [exact H|reflexivity]|]. unfold install_one in H. destruct (pv_fetch pv k u); [|discriminate]. cbv zeta in H.
        destruct (L k u (or_introl eq_refl)) as [X|X]; rewrite X in H; (eexists; split; [exact H|reflexivity]). }
      destruct St as (st1 & H1 & E1). rewrite (IH _ _ L' N2 H1 n), E1. cbn [lookup]. destruct (list_eq_dec N.eq_dec n k) as [->|Ne].
      * rewrite lookup_insert_eq by apply beqb_spec. rewrite M, beqb_refl. reflexivity.
      * rewrite lookup_insert_neq; [|apply beqb_spec|exact Ne]. rewrite (beqb_neq n k Ne). reflexivity.
Qed.

(** ** Reading *)
Lemma split_once_none c s : ~ In c s -> split_once c s = None.
Proof. induction s as [|x r IH]; intros H; cbn [split_once]; [reflexivity|]. destruct (x =? c) eqn:E; [apply N.eqb_eq in E; exfalso; apply H; left; exact E|]. rewrite IH; [reflexivity|intros I; apply H; right; exact I]. Qed.
Lemma split_once_app c a b : ~ In c a -> split_once c (a ++ c :: b) = Some (a, b).
Proof.
  induction a as [|x r IH]; intros H; cbn [app split_once]; [rewrite N.eqb_refl; reflexivity|]. destruct (x =? c) eqn:E; [apply N.eqb_eq in E; exfalso; apply H; left; exact E|].
  rewrite IH; [reflexivity|intros I; apply H; right; exact I].
Qed.
