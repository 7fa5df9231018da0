(** The participant table keeps its counters exact. *)
From Verif.Base Require Import Prelude.
From Verif.Model Require Import Topology.
From Verif.Spec Require Import TopologySpec.
Local Open Scope N_scope.

Lemma set_nth_length {A} (l : list A) i a : length (set_nth l i a) = length l.
Proof. revert i; induction l; intros [|i]; cbn [set_nth length]; auto. Qed.
Lemma set_nth_eq {A} (l : list A) i a d : (i < length l)%nat -> nth i (set_nth l i a) d = a.
Proof. revert i; induction l; intros [|i] H; cbn [set_nth length nth] in *; try lia; auto. apply IHl. lia. Qed.
Lemma set_nth_neq {A} (l : list A) i j a d : i <> j -> nth j (set_nth l i a) d = nth j l d.
Proof. revert i j; induction l; intros [|i] [|j] H; cbn [set_nth nth]; auto; try congruence. Qed.
Lemma find_idx_some {A} (f : A -> bool) l i d : find_idx f l = Some i ->
  (i < length l)%nat /\ f (nth i l d) = true /\ forall j, (j < i)%nat -> f (nth j l d) = false.
Proof.
  revert i; induction l as [|a l IH]; intros i; cbn [find_idx]; [discriminate|].
  destruct (f a) eqn:E; [intros H; injection H as <-; cbn [length nth]; split; [lia|split; auto; intros; lia]|].
  destruct (find_idx f l) as [k|] eqn:F; [|discriminate]. intros H; injection H as <-.
  destruct (IH k eq_refl) as (A1 & A2 & A3). cbn [length nth]. split; [lia|]. split; auto. intros [|j] Hj; auto. apply A3. lia.
Qed.
Lemma find_idx_none {A} (f : A -> bool) l : find_idx f l = None <-> forall a, In a l -> f a = false.
Proof.
  induction l as [|a l IH]; cbn [find_idx]; [split; auto; intros _ a []|].
  destruct (f a) eqn:E.
  - split; [discriminate|]. intros H. rewrite (H a) in E by (left; auto). discriminate.
  - destruct (find_idx f l); (split; [|]).
    + discriminate.
    + intros H. destruct IH as (_ & IH). discriminate IH. intros b Hb. apply H. right; auto.
    + intros _ b [<-|Hb]; auto. apply IH; auto.
    + auto.
Qed.

Definition ind (b : bool) : nat := if b then 1%nat else 0%nat.
Lemma count_set {A} (f : A -> bool) (l : list A) i a d : (i < length l)%nat ->
  (length (filter f (set_nth l i a)) + ind (f (nth i l d)) = length (filter f l) + ind (f a))%nat.
Proof.
  revert i; induction l as [|x l IH]; intros [|i] H; cbn [set_nth length nth filter] in *; try lia.
  - unfold ind. destruct (f a), (f x); cbn [length]; lia.
  - specialize (IH i ltac:(lia)). destruct (f x); cbn [length]; lia.
Qed.
Lemma filter_le {A} (f : A -> bool) l : (length (filter f l) <= length l)%nat.
Proof. induction l; cbn [filter length]; [lia|]. destruct (f a); cbn [length]; lia. Qed.

Record tinv (t : ptab) : Prop := TInv {
  i_len : length (t_parts t) = MAX_PARTICIPANTS;
  i_pub : t_pubs t = holders 1 (t_parts t);
  i_sub : t_subs t = holders 2 (t_parts t);
  i_nd : NoDup (occupants (t_parts t))
}.
Lemma tinv0 : tinv ptab0.
Proof. constructor; try reflexivity. cbn. constructor. Qed.

(** Changing slot [i] to an occupant that no other slot has keeps occupants distinct. *)
Lemma occupants_set l i p d : (i < length l)%nat -> NoDup (occupants l) -> p_active p = true ->
  (forall j, (j < length l)%nat -> j <> i -> p_active (nth j l d) = true -> (p_pid (nth j l d), p_tid (nth j l d)) <> (p_pid p, p_tid p)) ->
  NoDup (occupants (set_nth l i p)).
Proof.
  revert i; induction l as [|x l IH]; intros [|i] Hi N Ha H; cbn [length] in *; try lia.
  - cbn [set_nth]. unfold occupants in *. cbn [filter]. rewrite Ha. cbn [map].
    assert (NoDup (map (fun p => (p_pid p, p_tid p)) (filter p_active l))) as Nl.
    { cbn [filter] in N. destruct (p_active x); [inversion N|]; auto. }
    constructor; auto. rewrite in_map_iff. intros (q & E & Hq). apply filter_In in Hq. destruct Hq as (Hq & Aq).
    destruct (In_nth _ _ d Hq) as (j & Hj & E'). apply (H (S j)); [lia|discriminate| |]; cbn [nth]; rewrite E'; auto.
  - cbn [set_nth]. unfold occupants in *. cbn [filter] in *.
    assert (NoDup (map (fun p => (p_pid p, p_tid p)) (filter p_active (set_nth l i p)))) as Nl.
    { apply IH; auto; [lia| |]. { destruct (p_active x); [inversion N|]; auto. }
      intros j Hj Hij. apply (H (S j)); lia. }
    destruct (p_active x) eqn:Ex; auto. cbn [map] in *. constructor; auto.
    rewrite in_map_iff. intros (q & E & Hq). apply filter_In in Hq. destruct Hq as (Hq & Aq).
    destruct (In_nth _ _ d Hq) as (j & Hj & E'). rewrite set_nth_length in Hj.
    destruct (Nat.eq_dec i j) as [<-|Hn].
    + rewrite set_nth_eq in E' by auto. subst q. apply (H 0%nat); cbn [nth]; try lia; auto.
    + rewrite set_nth_neq in E' by auto. inversion N as [|a b Na Nb]; subst. apply Na. rewrite in_map_iff.
      exists (nth j l d). split; [auto|]. apply filter_In. split; auto. apply nth_In; auto.
Qed.
Lemma occupants_distinct l i j d : NoDup (occupants l) -> (i < length l)%nat -> (j < length l)%nat ->
  p_active (nth i l d) = true -> p_active (nth j l d) = true ->
  (p_pid (nth i l d), p_tid (nth i l d)) = (p_pid (nth j l d), p_tid (nth j l d)) -> i = j.
Proof.
  revert i j; induction l as [|x l IH]; intros i j N Hi Hj Ai Aj E; cbn [length] in *; [lia|].
  unfold occupants in N. cbn [filter] in N.
  assert (In' : forall k, (k < length l)%nat -> p_active (nth k l d) = true -> In (p_pid (nth k l d), p_tid (nth k l d)) (occupants l)).
  { intros k Hk Ak. unfold occupants. rewrite in_map_iff. exists (nth k l d). split; auto. apply filter_In. split; auto. apply nth_In; auto. }
  destruct i as [|i], j as [|j]; cbn [nth] in *; auto.
  - exfalso. rewrite Ai in N. inversion N as [|a b Na Nb]; subst. apply Na. rewrite E. apply In'; auto; lia.
  - exfalso. rewrite Aj in N. inversion N as [|a b Na Nb]; subst. apply Na. rewrite <- E. apply In'; auto; lia.
  - f_equal. apply IH; auto; try lia. destruct (p_active x); [inversion N|]; auto.
Qed.

Lemma small_inc n : n < 2 ^ 32 - 1 -> u32_inc n = n + 1.
Proof. intros H. apply N.mod_small. change (2 ^ 32) with 4294967296 in *. lia. Qed.
Lemma small_dec n : 0 < n -> n < 2 ^ 32 -> u32_dec n = n - 1.
Proof.
  intros H1 H2. unfold u32_dec. replace (n + (2 ^ 32 - 1)) with ((n - 1) + 1 * 2 ^ 32) by (change (2 ^ 32) with 4294967296 in *; lia).
  rewrite N.mod_add by discriminate. apply N.mod_small. lia.
Qed.
Lemma holders_le b l : holders b l <= N.of_nat (length l).
Proof. unfold holders. pose proof (filter_le (fun p => p_active p && has_bit (p_role p) b) l). lia. Qed.
Lemma holders_set b l i p d : (i < length l)%nat ->
  holders b (set_nth l i p) + N.of_nat (ind (p_active (nth i l d) && has_bit (p_role (nth i l d)) b)) =
  holders b l + N.of_nat (ind (p_active p && has_bit (p_role p) b)).
Proof. intros H. unfold holders. pose proof (count_set (fun p => p_active p && has_bit (p_role p) b) l i p d H). lia. Qed.

Lemma holders_ge b l i d : (i < length l)%nat -> N.of_nat (ind (p_active (nth i l d) && has_bit (p_role (nth i l d)) b)) <= holders b l.
Proof. intros H. pose proof (holders_set b l i part0 d H). cbn [part0 p_active andb ind] in H0. lia. Qed.

Lemma has_bit_lor r b c : has_bit (N.lor r b) c = has_bit r c || has_bit b c.
Proof.
  unfold has_bit. rewrite N.land_lor_distr_l, <- negb_andb. f_equal.
  destruct (N.lor (N.land r c) (N.land b c) =? 0) eqn:E.
  - apply N.eqb_eq in E. apply N.lor_eq_0_iff in E. destruct E as (-> & ->). reflexivity.
  - apply N.eqb_neq in E. symmetry. apply andb_false_iff. destruct (N.eqb_spec (N.land r c) 0) as [E1|]; auto.
    destruct (N.eqb_spec (N.land b c) 0) as [E2|]; auto. rewrite E1, E2 in E. destruct E; auto.
Qed.

Lemma bump_parts b t : t_parts (bump b t) = t_parts t.
Proof. unfold bump. destruct (b =? 1); auto. Qed.

Lemma bump1 t : bump 1 t = PTab (t_parts t) (u32_inc (t_pubs t)) (t_subs t) (t_total t).
Proof. reflexivity. Qed.
Lemma bump2 t : bump 2 t = PTab (t_parts t) (t_pubs t) (u32_inc (t_subs t)) (t_total t).
Proof. reflexivity. Qed.
Lemma register_inv pid tid b now t : tinv t -> tinv (fst (register_role pid tid (role_bit b) now t)).
Proof.
  intros [L P S D]. unfold register_role.
  pose proof (holders_le 1 (t_parts t)) as H1. pose proof (holders_le 2 (t_parts t)) as H2. rewrite L in H1, H2.
  change (N.of_nat MAX_PARTICIPANTS) with 16 in *.
  assert (Big : 17 < 2 ^ 32 - 1) by (vm_compute; reflexivity).
  destruct (find_idx (is_mine pid tid) (t_parts t)) as [i|] eqn:F.
  - destruct (find_idx_some _ _ _ part0 F) as (Hi & Hm & _). unfold is_mine in Hm. bool_prop.
    set (p := nth i (t_parts t) part0) in *. set (p' := Part _ _ _ _ _).
    assert (Hn : NoDup (occupants (set_nth (t_parts t) i p'))).
    { apply occupants_set with (d := part0); auto. intros j Hj Hij Aj E. apply Hij. symmetry.
      apply (occupants_distinct (t_parts t) i j part0); auto. }
    pose proof (holders_set 1 (t_parts t) i p' part0 Hi) as E1. pose proof (holders_set 2 (t_parts t) i p' part0 Hi) as E2.
    fold p in E1, E2. 
    change (p_active p') with (p_active p) in E1, E2. change (p_role p') with (N.lor (p_role p) (role_bit b)) in E1, E2. rewrite H, has_bit_lor in E1, E2.
    destruct (has_bit (p_role p) (role_bit b)) eqn:Eb; cbn [fst].
    + constructor; cbn [t_parts t_pubs t_subs]; rewrite ?set_nth_length; auto; destruct b; cbn [role_bit] in *;
        rewrite ?P, ?S; change (has_bit 1 2) with false in *; change (has_bit 2 1) with false in *;
        change (has_bit 1 1) with true in *; change (has_bit 2 2) with true in *; rewrite ?orb_true_r, ?orb_false_r, ?Eb in *; unfold ind in *;
        destruct (has_bit (p_role p) 1), (has_bit (p_role p) 2); cbn [andb orb] in *; lia.
    + constructor; destruct b; cbn [role_bit] in *; rewrite ?bump1, ?bump2; cbn [t_parts t_pubs t_subs] in *; rewrite ?set_nth_length; auto;
        rewrite ?P, ?S; change (has_bit 1 2) with false in *; change (has_bit 2 1) with false in *;
        change (has_bit 1 1) with true in *; change (has_bit 2 2) with true in *; rewrite ?orb_true_r, ?orb_false_r, ?Eb in *; unfold ind in *;
        cbn [andb orb] in *; rewrite ?small_inc by lia;
        try lia; destruct (has_bit (p_role p) 1), (has_bit (p_role p) 2); cbn [andb orb] in *; try discriminate; lia.
  - destruct (find_idx (is_claimable now) (t_parts t)) as [i|] eqn:G; [|constructor; auto].
    destruct (find_idx_some _ _ _ part0 G) as (Hi & _ & _). set (p := nth i (t_parts t) part0) in *.
    set (p' := Part _ _ _ _ _).
    assert (Hn : NoDup (occupants (set_nth (t_parts t) i p'))).
    { apply occupants_set with (d := part0); auto. intros j Hj Hij Aj E.
      pose proof (proj1 (find_idx_none _ _) F (nth j (t_parts t) part0) (nth_In _ _ Hj)) as K. unfold is_mine in K.
      injection E as E1 E2. rewrite Aj, E1, E2, !N.eqb_refl in K. discriminate. }
    pose proof (holders_set 1 (t_parts t) i p' part0 Hi) as E1. pose proof (holders_set 2 (t_parts t) i p' part0 Hi) as E2.
    fold p in E1, E2. 
    change (p_active p') with true in E1, E2. change (p_role p') with (role_bit b) in E1, E2. cbn [andb] in E1, E2.
    pose proof (holders_le 1 (set_nth (t_parts t) i p')) as H3. pose proof (holders_le 2 (set_nth (t_parts t) i p')) as H4.
    rewrite set_nth_length, L in H3, H4. change (N.of_nat MAX_PARTICIPANTS) with 16 in *.
    pose proof (holders_ge 1 (t_parts t) i part0 Hi) as G1. pose proof (holders_ge 2 (t_parts t) i part0 Hi) as G2. fold p in G1, G2.
    cbn [fst].
    constructor; destruct b; cbn [role_bit] in *; rewrite ?bump1, ?bump2; cbn [t_parts t_pubs t_subs] in *; rewrite ?set_nth_length; auto;
      rewrite ?P, ?S; change (has_bit 1 2) with false in *; change (has_bit 2 1) with false in *;
      change (has_bit 1 1) with true in *; change (has_bit 2 2) with true in *; unfold ind in *;
      destruct (p_active p && has_bit (p_role p) 1), (p_active p && has_bit (p_role p) 2); rewrite ?small_dec, ?small_inc by lia; lia.
Qed.

Lemma refresh_inv i now t : tinv t -> tinv (refresh_slot i now t).
Proof.
  intros [L P S D]. unfold refresh_slot. destruct (Nat.ltb_spec i (length (t_parts t))) as [Hi|]; [|constructor; auto].
  set (p := nth i (t_parts t) part0).
  pose proof (holders_set 1 (t_parts t) i (refreshed p now) part0 Hi) as E1. pose proof (holders_set 2 (t_parts t) i (refreshed p now) part0 Hi) as E2.
  fold p in E1, E2. 
  change (p_active (refreshed p now)) with (p_active p) in E1, E2. change (p_role (refreshed p now)) with (p_role p) in E1, E2.
  constructor; cbn [t_parts t_pubs t_subs]; rewrite ?set_nth_length; auto; [lia|lia|].
  destruct (p_active p) eqn:A.
  - apply occupants_set with (d := part0); auto. intros j Hj Hij Aj E. apply Hij. symmetry.
    apply (occupants_distinct (t_parts t) i j part0); auto.
  - replace (occupants (set_nth (t_parts t) i (refreshed p now))) with (occupants (t_parts t)); auto.
    clear -A Hi. unfold occupants. f_equal. revert i p A Hi. induction (t_parts t) as [|x l IH]; intros [|i] p A Hi; cbn [length] in *; try lia;
      cbn [set_nth filter nth] in *.
    + unfold p in *. unfold refreshed. cbn [p_active]. rewrite A. auto.
    + unfold p in *. rewrite <- (IH i); auto; lia.
Qed.

Lemma run_inv h : tinv (p_run h).
Proof.
  unfold p_run. cut (forall t, tinv t -> tinv (fold_left p_step h t)); [intros H; apply H, tinv0|].
  induction h as [|o h IH]; intros t Ht; cbn [fold_left]; auto. apply IH. destruct o; cbn [p_step].
  - apply register_inv; auto.
  - apply refresh_inv; auto.
Qed.

(** What a registration does to the slots. *)
Lemma register_slot pid tid b now t t' i : tinv t -> register_role pid tid (role_bit b) now t = (t', Some i) ->
  (i < length (t_parts t))%nat /\
  (let p := nth i (t_parts t') part0 in
   p_active p = true /\ p_pid p = pid /\ p_tid p = tid /\ has_bit (p_role p) (role_bit b) = true /\ p_lease p = now + LEASE_TIMEOUT_MS) /\
  (forall j, j <> i -> nth j (t_parts t') part0 = nth j (t_parts t) part0) /\
  (is_mine pid tid (nth i (t_parts t) part0) = true \/ is_claimable now (nth i (t_parts t) part0) = true).
Proof.
  intros [L P S D]. unfold register_role. destruct (find_idx (is_mine pid tid) (t_parts t)) as [k|] eqn:F.
  - destruct (find_idx_some _ _ _ part0 F) as (Hi & Hm & _). pose proof Hm as Hm'. unfold is_mine in Hm. bool_prop.
    assert (B : has_bit (N.lor (p_role (nth k (t_parts t) part0)) (role_bit b)) (role_bit b) = true)
      by (rewrite has_bit_lor; destruct b; rewrite orb_true_r; auto).
    destruct (has_bit (p_role (nth k (t_parts t) part0)) (role_bit b)); intros E; injection E as <- <-; rewrite ?bump_parts; cbn [t_parts]; split; auto; split.
    + cbv zeta. rewrite ?bump_parts; cbn [t_parts]; rewrite set_nth_eq by auto. cbn [p_active p_pid p_tid p_role p_lease]. auto 10.
    + split; auto. intros j Hj. apply set_nth_neq. auto.
    + cbv zeta. rewrite ?bump_parts; cbn [t_parts]; rewrite set_nth_eq by auto. cbn [p_active p_pid p_tid p_role p_lease]. auto 10.
    + split; auto. intros j Hj. apply set_nth_neq. auto.
  - destruct (find_idx (is_claimable now) (t_parts t)) as [k|] eqn:G; [|discriminate].
    destruct (find_idx_some _ _ _ part0 G) as (Hi & Hc & _). intros E; injection E as <- <-. rewrite bump_parts; cbn [t_parts]. split; auto. split.
    + cbv zeta. rewrite ?bump_parts; cbn [t_parts]; rewrite set_nth_eq by auto. cbn [p_active p_pid p_tid p_role p_lease]. repeat split; auto. destruct b; auto.
    + split; auto. intros j Hj. apply set_nth_neq. auto.
Qed.

(** A participant that keeps its lease alive keeps its slot. *)
Definition mine_at (pid tid bit : N) (i : nat) (last : N) (t : ptab) : Prop :=
  let p := nth i (t_parts t) part0 in (i < length (t_parts t))%nat /\
  p_active p = true /\ p_pid p = pid /\ p_tid p = tid /\ has_bit (p_role p) bit = true /\ p_lease p = last + LEASE_TIMEOUT_MS.
Lemma mine_other pid tid bit i last p' t' b now t : tinv t -> mine_at pid tid bit i last t -> (p', t') <> (pid, tid) -> now <= last + 5000 ->
  mine_at pid tid bit i last (fst (register_role p' t' (role_bit b) now t)).
Proof.
  intros T (L & A & P & D & B & Ls) Hn Hl. destruct (register_role p' t' (role_bit b) now t) as [t1 [k|]] eqn:E; cbn [fst].
  - destruct (register_slot _ _ _ _ _ _ _ T E) as (_ & _ & O & C). assert (i <> k) as Hik.
    { intros ->. destruct C as [C|C].
      - unfold is_mine in C. bool_prop. apply Hn. congruence.
      - unfold is_claimable, is_lease_expired in C. rewrite A, Ls in C. cbn [negb orb] in C. change LEASE_TIMEOUT_MS with 5000 in C.
        destruct (N.eqb_spec (last + 5000) 0); [lia|]. apply N.ltb_lt in C. lia. }
    unfold mine_at. rewrite O by auto. assert (length (t_parts t1) = length (t_parts t)) as ->; [|auto 10].
    pose proof (i_len _ (register_inv p' t' b now t T)) as L1. rewrite E in L1. cbn [fst] in L1. rewrite L1. symmetry. apply (i_len _ T).
  - assert (t1 = t) as ->; [|repeat split; auto].
    revert E. unfold register_role. destruct (find_idx (is_mine p' t') (t_parts t)); [discriminate|].
    destruct (find_idx (is_claimable now) (t_parts t)); [discriminate|]. intros E. injection E as <-. auto.
Qed.
Lemma mine_self pid tid bit i last b now t : tinv t -> mine_at pid tid bit i last t ->
  mine_at pid tid bit i now (fst (register_role pid tid (role_bit b) now t)).
Proof.
  intros T (L & A & P & D & B & Ls). unfold register_role.
  destruct (find_idx (is_mine pid tid) (t_parts t)) as [k|] eqn:F.
  - destruct (find_idx_some _ _ _ part0 F) as (Hk & Hm & _). unfold is_mine in Hm. bool_prop.
    assert (k = i) as -> by (apply (occupants_distinct (t_parts t) k i part0); auto; [apply (i_nd _ T)|rewrite P, D; congruence]).
    assert (X : forall u, t_parts u = set_nth (t_parts t) i (Part (p_active (nth i (t_parts t) part0)) (p_pid (nth i (t_parts t) part0)) (p_tid (nth i (t_parts t) part0))
        (N.lor (p_role (nth i (t_parts t) part0)) (role_bit b)) (now + LEASE_TIMEOUT_MS)) -> mine_at pid tid bit i now u).
    { intros u E. unfold mine_at. rewrite E, set_nth_length, set_nth_eq by auto. cbn [p_active p_pid p_tid p_role p_lease].
      rewrite has_bit_lor, B. repeat split; auto. }
    destruct (has_bit (p_role (nth i (t_parts t) part0)) (role_bit b)); cbn [fst]; apply X; rewrite ?bump_parts; auto.
  - pose proof (proj1 (find_idx_none _ _) F (nth i (t_parts t) part0) (nth_In _ _ L)) as K. unfold is_mine in K.
    rewrite A, P, D, !N.eqb_refl in K. discriminate.
Qed.
Lemma kept_mine pid tid bit i h : forall last t, tinv t -> mine_at pid tid bit i last t -> kept pid tid i last h ->
  exists last', mine_at pid tid bit i last' (fold_left p_step h t).
Proof.
  induction h as [|o h IH]; intros last t T M K; cbn [fold_left]; [eauto|].
  destruct o as [p' t' b now|j now]; cbn [kept p_step] in *.
  - destruct K as [(-> & -> & K)|(Hn & Hl & K)].
    + eapply IH; eauto; [apply register_inv; auto|]. eapply mine_self; eauto.
    + eapply IH; eauto; [apply register_inv; auto|]. apply mine_other; auto.
  - assert (T' := refresh_inv j now t T). destruct K as [(-> & K)|(Hn & K)].
    + eapply IH; eauto. destruct M as (L & A & P & D & B & Ls). unfold refresh_slot. rewrite (proj2 (Nat.ltb_lt _ _) L).
      unfold mine_at. cbn [t_parts]. rewrite set_nth_length, set_nth_eq by auto. unfold refreshed. cbn [p_active p_pid p_tid p_role p_lease]. repeat split; auto.
    + eapply IH; eauto. destruct M as (L & A & P & D & B & Ls). unfold refresh_slot. destruct (j <? length (t_parts t))%nat; [|repeat split; auto].
      unfold mine_at. cbn [t_parts]. rewrite set_nth_length, set_nth_neq by auto. repeat split; auto.
Qed.
