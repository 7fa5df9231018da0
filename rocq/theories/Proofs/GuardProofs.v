From Verif.Base Require Import Prelude Bytes AMap Str.
From Verif.Model Require Import Wire Reliability Registry Guard.
From Verif.Spec Require Import GuardSpec.
Local Open Scope N_scope.

Lemma starts_with_iff s p : starts_with s p = true <-> exists t, s = p ++ t.
Proof.
  unfold starts_with. rewrite beqb_spec. split.
  - intros H. exists (skipn (length p) s). rewrite <- H at 1. symmetry; apply firstn_skipn.
  - intros [t ->]. rewrite firstn_app, firstn_all, Nat.sub_diag, firstn_O, app_nil_r. auto.
Qed.
Lemma ends_with_iff s p : ends_with s p = true <-> exists t, s = t ++ p.
Proof.
  unfold ends_with. rewrite andb_true_iff, Nat.leb_le, beqb_spec. split.
  - intros [_ H]. exists (firstn (length s - length p) s). rewrite <- H at 2. symmetry; apply firstn_skipn.
  - intros [t ->]. rewrite app_length. split; [lia|].
    replace (length t + length p - length p)%nat with (length t) by lia.
    rewrite skipn_app, skipn_all, Nat.sub_diag. auto.
Qed.
Lemma find_sub_some p s : forall i, find_sub s p = Some i ->
  exists x, s = x ++ p ++ skipn (i + length p) s /\ length x = i.
Proof.
  induction s as [|c s IH]; intros i; cbn [find_sub]; destruct (starts_with _ p) eqn:E; try discriminate.
  - intros H; injection H as <-. apply starts_with_iff in E as [t E]. exists []. cbn [app plus length]. split; auto.
    rewrite E at 2. rewrite skipn_app, skipn_all, Nat.sub_diag. auto.
  - intros H; injection H as <-. apply starts_with_iff in E as [t E]. exists []. cbn [app plus length]. split; auto.
    rewrite E at 2. rewrite skipn_app, skipn_all, Nat.sub_diag. auto.
  - destruct (find_sub s p) as [j|]; try discriminate. intros H; injection H as <-.
    destruct (IH j eq_refl) as (x & E2 & Hx). exists (c :: x). cbn [app plus skipn length]. split; [f_equal; auto|lia].
Qed.
(** The leftmost occurrence leaves the longest remainder. *)
Lemma find_sub_left p : forall s x u, s = x ++ p ++ u ->
  exists i y, find_sub s p = Some i /\ skipn (i + length p) s = y ++ u.
Proof.
  induction s as [|c s IH]; intros x u E.
  - destruct x; [|discriminate]. destruct p; [|discriminate]. destruct u; [|discriminate].
    exists 0%nat, []. auto.
  - cbn [find_sub]. destruct (starts_with (c :: s) p) eqn:Es.
    + exists 0%nat. apply starts_with_iff in Es as [t Et]. cbn [plus]. rewrite Et.
      rewrite skipn_app, skipn_all, Nat.sub_diag. cbn [skipn app].
      assert (L : (length u <= length t)%nat).
      { rewrite Et in E. apply (f_equal (@length N)) in E. rewrite !app_length in E. lia. }
      exists (firstn (length t - length u) t). split; auto.
      rewrite Et in E. assert (E2 : t = skipn (length p) (x ++ p ++ u)).
      { rewrite <- E, skipn_app, skipn_all, Nat.sub_diag. auto. }
      assert (Hu : u = skipn (length t - length u) t).
      { rewrite E2 at 2. rewrite skipn_skipn. rewrite app_assoc.
        assert (Hn : (length t - length u + length p)%nat = length (x ++ p)).
        { apply (f_equal (@length N)) in E. rewrite !app_length in *. lia. }
        rewrite Hn, skipn_app, skipn_all, Nat.sub_diag. auto. }
      rewrite Hu at 2. symmetry; apply firstn_skipn.
    + destruct x as [|c' x].
      * exfalso. cbn [app] in E. assert (starts_with (c :: s) p = true) by (apply starts_with_iff; exists u; auto). congruence.
      * cbn [app] in E. injection E as <- E. destruct (IH x u E) as (i & y & E1 & E2). rewrite E1.
        exists (S i), y. auto.
Qed.

(** Patterns as lists of parts between stars. *)
Fixpoint rest_match (ps : list bytes) (t : bytes) : Prop :=
  match ps with
  | [] => t = []
  | p :: r => exists x u, t = x ++ p ++ u /\ rest_match r u
  end.
Definition parts_match (ps : list bytes) (s : bytes) : Prop :=
  match ps with [] => False | p :: r => exists t, s = p ++ t /\ rest_match r t end.

Lemma glob_parts p : forall s, glob p s <-> parts_match (split_on STAR p) s.
Proof.
  induction p as [|c p IH]; intros s; cbn [split_on].
  - cbn [parts_match rest_match app]. split.
    + intros H; inversion H; subst. exists []; auto.
    + intros (t & -> & ->). constructor.
  - change (c =? STAR) with (c =? 42). destruct (N.eqb_spec c 42) as [->|Hc].
    + cbn [parts_match app]. split.
      * intros H. inversion H as [|? ? ? Hc Hg|? s1 s2 Hg]; subst; [congruence|]. apply IH in Hg.
        exists (s1 ++ s2). split; auto. destruct (split_on STAR p) as [|q qs]; [destruct Hg|].
        destruct Hg as (t & -> & Hr). cbn [rest_match]. exists s1, t. auto.
      * intros (t & -> & Hr). destruct (split_on STAR p) as [|q qs] eqn:Es.
        { exfalso. destruct p; cbn in Es; [discriminate|]. destruct (n =? STAR); [discriminate|]. destruct (split_on STAR p); discriminate. }
        cbn [rest_match] in Hr. destruct Hr as (x & u & -> & Hr). apply glob_star. apply IH. exists u; auto.
    + destruct (split_on STAR p) as [|q qs] eqn:Es.
      { exfalso. destruct p; cbn in Es; [discriminate|]. destruct (n =? STAR); [discriminate|]. destruct (split_on STAR p); discriminate. }
      cbn [parts_match]. split.
      * intros H. inversion H as [|? ? ? Hc' Hg|? s1 s2 Hg]; subst; [|congruence]. apply IH in Hg. destruct Hg as (t & -> & Hr). exists t; auto.
      * intros (t & -> & Hr). cbn [app]. constructor; auto. apply IH. exists t; auto.
Qed.

Lemma rest_match_prepend ps x u : ps <> [] -> rest_match ps u -> rest_match ps (x ++ u).
Proof.
  destruct ps as [|p ps]; [congruence|]. intros _ (y & v & -> & H). exists (x ++ y), v. rewrite <- app_assoc. auto.
Qed.

(** The loop after the first part. *)
Lemma glob_loop_rest n : forall parts i rem, (0 < i)%nat -> (i + length parts = n)%nat -> parts <> [] ->
  glob_loop n i parts rem = true <-> rest_match parts rem.
Proof.
  induction parts as [|p r IH]; intros i rem Hi Hn Hne; [congruence|]. cbn [length] in Hn.
  cbn [glob_loop]. destruct r as [|p2 r].
  - (* last part *)
    cbn [rest_match]. destruct p as [|c p].
    + cbn [glob_loop]. split; auto. intros _. exists rem, []. rewrite app_nil_r. auto.
    + rewrite (proj2 (Nat.eqb_neq i 0)) by lia. cbn [length] in Hn. rewrite (proj2 (Nat.eqb_eq i (n - 1))) by lia.
      destruct (ends_with rem (c :: p)) eqn:E.
      * apply ends_with_iff in E as [t ->]. cbn [glob_loop]. split; auto. intros _. exists t, []. rewrite app_nil_r. auto.
      * split; [discriminate|]. intros (x & u & -> & ->). rewrite app_nil_r in E.
        assert (ends_with (x ++ c :: p) (c :: p) = true) by (apply ends_with_iff; exists x; auto). congruence.
  - assert (IH' : forall rem, glob_loop n (S i) (p2 :: r) rem = true <-> rest_match (p2 :: r) rem).
    { intros. apply IH; try lia; congruence. }
    destruct p as [|c p].
    + rewrite IH'. split.
      * intros H. exists [], rem. auto.
      * intros (x & u & -> & H). apply rest_match_prepend; auto. congruence.
    + rewrite (proj2 (Nat.eqb_neq i 0)) by lia. cbn [length] in Hn. rewrite (proj2 (Nat.eqb_neq i (n - 1))) by lia.
      destruct (find_sub rem (c :: p)) as [pos|] eqn:E.
      * rewrite IH'. destruct (find_sub_some _ _ _ E) as (x & Ex & Hx). split.
        -- intros H. exists x, (skipn (pos + length (c :: p)) rem). split; auto.
        -- intros (y & u & Ey & H). destruct (find_sub_left _ _ _ _ Ey) as (i' & z & E1 & E2).
           rewrite E in E1. injection E1 as <-. rewrite E2. apply rest_match_prepend; auto. congruence.
      * split; [discriminate|]. intros (y & u & Ey & H). destruct (find_sub_left _ _ _ _ Ey) as (i' & z & E1 & E2). congruence.
Qed.

Lemma glob_loop_first n p rest rem :
  glob_loop n 0 (p :: rest) rem =
  match p with [] => glob_loop n 1 rest rem
  | _ => if starts_with rem p then glob_loop n 1 rest (skipn (length p) rem) else false end.
Proof. reflexivity. Qed.

Lemma split_no_star p : contains_char p STAR = false -> split_on STAR p = [p].
Proof.
  unfold contains_char. induction p as [|c p IH]; cbn [existsb split_on]; auto. intros H.
  apply orb_false_elim in H as [H1 H2]. rewrite N.eqb_sym, H1, IH by auto. auto.
Qed.
Lemma split_star_len p : contains_char p STAR = true -> (2 <= length (split_on STAR p))%nat.
Proof.
  unfold contains_char. assert (Hne : forall q, split_on STAR q <> []).
  { intros q. destruct q; cbn; [congruence|]. destruct (n =? STAR); [congruence|]. destruct (split_on STAR q); congruence. }
  induction p as [|c p IH]; cbn [existsb split_on]; [discriminate|].
  rewrite N.eqb_sym. destruct (c =? STAR).
  - intros _. specialize (Hne p). destruct (split_on STAR p); [congruence|]. cbn; lia.
  - cbn [orb]. intros H. specialize (IH H). destruct (split_on STAR p) as [|a b]; cbn [length] in *; lia.
Qed.

Lemma glob_match_iff topic pattern : glob_match topic pattern = true <-> glob pattern topic.
Proof.
  unfold glob_match. destruct (beqb pattern [STAR]) eqn:E1.
  - apply beqb_spec in E1; subst. split; auto. intros _. rewrite <- (app_nil_r topic). apply glob_star. constructor.
  - rewrite glob_parts. destruct (contains_char pattern STAR) eqn:E2; cbn [negb].
    + pose proof (split_star_len _ E2) as Hl. destruct (split_on STAR pattern) as [|p [|q [|r l]]]; cbn [length] in Hl; try lia.
      * rewrite !andb_true_iff, starts_with_iff, ends_with_iff, Nat.leb_le. cbn [parts_match rest_match]. split.
        -- intros [[[t ->] [u E]] Hle]. exists t. split; auto. rewrite app_length in Hle.
           assert (Hu : length u = (length p + (length t - length q))%nat).
           { apply (f_equal (@length N)) in E. rewrite !app_length in E. lia. }
           exists (skipn (length p) u), []. rewrite app_nil_r. split; auto.
           apply (f_equal (skipn (length p))) in E. rewrite !skipn_app, skipn_all, !Nat.sub_diag in E. cbn [skipn app] in E.
           replace (length p - length u)%nat with 0%nat in E by lia. auto.
        -- intros (t & -> & x & u & -> & ->). rewrite app_nil_r. rewrite !app_length. repeat split; try lia.
           ++ exists (x ++ q); auto.
           ++ exists (p ++ x). rewrite <- app_assoc; auto.
      * cbn [parts_match].
        assert (Hr : forall rem, glob_loop (length (p :: q :: r :: l)) 1 (q :: r :: l) rem = true <-> rest_match (q :: r :: l) rem).
        { intros. apply glob_loop_rest; cbn [length]; try lia; congruence. }
        remember (length (p :: q :: r :: l)) as n eqn:En. clear En. rewrite glob_loop_first. destruct p as [|c p].
        -- rewrite Hr. split; [intros; exists topic; auto | intros (t & -> & H); auto].
        -- destruct (starts_with topic (c :: p)) eqn:E.
           ++ apply starts_with_iff in E as [t ->]. rewrite Hr. rewrite skipn_app, skipn_all, Nat.sub_diag. cbn [skipn app].
              split; [intros; exists t; auto|]. intros (t' & E & H). apply (app_inv_head (c :: p)) in E; subst; auto.
           ++ split; [discriminate|]. intros (t & -> & H). exfalso.
              assert (starts_with ((c :: p) ++ t) (c :: p) = true) by (apply starts_with_iff; exists t; auto). congruence.
    + rewrite beqb_spec, split_no_star by auto. cbn [parts_match rest_match]. split.
      * intros ->. exists []. rewrite app_nil_r. auto.
      * intros (t & -> & ->). rewrite app_nil_r. auto.
Qed.

Lemma glob_any_iff topic ps : glob_match_any topic ps = true <-> matches_any topic ps.
Proof.
  unfold glob_match_any, matches_any. rewrite existsb_exists. split; intros (p & H1 & H2); exists p; split; auto; apply glob_match_iff; auto.
Qed.

Lemma reserved_iff name : is_system_topic name = true <-> reserved name.
Proof.
  unfold is_system_topic, reserved. rewrite !orb_true_iff, !beqb_spec.
  unfold SYSTEM_TOPIC_PRESENCE, SYSTEM_TOPIC_LOGS, SYSTEM_TOPIC_ESTOP. tauto.
Qed.

Lemma import_iff g name : allow_import g name = true <-> import_allowed g name.
Proof.
  unfold allow_import, import_allowed. destruct (is_system_topic name) eqn:E.
  - apply reserved_iff in E. tauto.
  - assert (Hn : ~ reserved name) by (intros H; apply reserved_iff in H; congruence).
    destruct (g_import g) as [| |ps].
    + split; [discriminate|]. tauto.
    + unfold has_subscribers, has_publishers. destruct (g_registry g) as [reg|].
      * split.
        -- intros H. right. exists reg. split; auto. destruct (lookup beqb name reg) as [e|]; [|discriminate].
           destruct (te_role e); try discriminate; auto.
        -- intros [H|(reg' & Hr & H1 & H2)]; [contradiction|]. injection Hr as <-.
           destruct (lookup beqb name reg) as [e|]; [|discriminate]. destruct (te_role e); try discriminate; auto.
      * split; [discriminate|]. intros [H|(reg' & Hr & _)]; [contradiction|discriminate].
    + rewrite glob_any_iff. tauto.
Qed.

Lemma export_iff g name : allow_export g name = true <-> export_allowed g name.
Proof.
  unfold allow_export, export_allowed.
  assert (H : (match g_export g with EAll => true | EAllowList ps => glob_match_any name ps
              | EDenyList ps => negb (glob_match_any name ps) end) = true <->
              match g_export g with EAll => True | EAllowList ps => matches_any name ps | EDenyList ps => ~ matches_any name ps end).
  { destruct (g_export g) as [|ps|ps].
    - tauto.
    - apply glob_any_iff.
    - rewrite negb_true_iff, <- not_true_iff_false, glob_any_iff. tauto. }
  destruct (is_system_topic name); auto.
Qed.
