(** Registration and delivery in the fan-out matrix. *)
From Verif.Base Require Import Prelude.
From Verif.Model Require Import Fanout.
From Verif.Spec Require Import FanoutSpec.

Lemma set1_eq {B} (f : nat -> B) i b : set1 f i b i = b.
Proof. unfold set1. rewrite Nat.eqb_refl; auto. Qed.
Lemma set1_neq {B} (f : nat -> B) i j b : j <> i -> set1 f i b j = f j.
Proof. unfold set1. intros. destruct (Nat.eqb_spec j i); congruence. Qed.

Lemma f_sent_app {A} h (a b : list (fevent A)) : f_sent h (a ++ b) = f_sent h a ++ f_sent h b.
Proof. induction a as [|e a IH]; auto. destruct e; cbn [f_sent app]; auto. destruct (Nat.eqb _ _); cbn [app]; congruence. Qed.
Lemma f_got_app {A} h (a b : list (fevent A)) : f_got h (a ++ b) = f_got h a ++ f_got h b.
Proof. induction a as [|e a IH]; auto. destruct e; cbn [f_got app]; auto. destruct (Nat.eqb _ _); cbn [app]; congruence. Qed.

Lemma passed_take {A} l n r (m : A) : passed l n r -> passed (l ++ [m]) n (r ++ [m]).
Proof. induction 1; cbn [app]; repeat constructor; auto. Qed.
Lemma passed_skip {A} l n r (l' : list A) : passed l n r -> passed (l ++ l') (n + length l') r.
Proof.
  induction 1; cbn [app].
  - induction l'; cbn [length Nat.add]; constructor; auto.
  - constructor; auto.
  - cbn [Nat.add]. constructor; auto.
Qed.
Lemma passed_filter {A} f (l : list A) n r : passed l n r -> exists n', n' <= n /\ passed (filter f l) n' (filter f r).
Proof.
  induction 1 as [|a l n r H (n' & L & IH)|a l n r H (n' & L & IH)]; cbn [filter].
  - exists 0. repeat constructor.
  - exists n'. split; auto. destruct (f a); auto. constructor; auto.
  - destruct (f a); [exists (S n'); split; [lia|constructor; auto]|exists n'; split; auto].
Qed.
Lemma passed_in {A} (l : list A) n r a : passed l n r -> In a r -> In a l.
Proof. induction 1; cbn; intros; intuition auto. Qed.
Lemma passed_zero {A} (l r : list A) : passed l 0 r -> l = r.
Proof. remember 0 as z eqn:E. intros H. revert E. induction H; intros; try discriminate; auto. f_equal; auto. Qed.

Section P.
  Variables (M cap : nat) (pid_of : nat -> nat).
  Notation fsys := (fsys lmsg).
  Notation f_step := (f_step M cap pid_of).

  (** ** Registration *)
  Lemma claim_some n : forall i h sd j sd', claim_from pid_of n i h sd = (Some j, sd') ->
    i <= j < i + n /\ sd_lock sd j = None /\
    sd' = Side (set1 (sd_active sd) j true) (set1 (sd_pid sd) j (pid_of h)) (set1 (sd_lock sd) j (Some h)).
  Proof.
    induction n as [|n IH]; intros i h sd j sd'; cbn [claim_from]; [discriminate|].
    destruct (sd_lock sd i) eqn:E.
    - intros H. destruct (IH _ _ _ _ _ H) as (A & B). split; [lia|auto].
    - destruct (_ && _) eqn:E2.
      + intros H. destruct (IH _ _ _ _ _ H) as (A & B). split; [lia|auto].
      + intros H. injection H as <- <-. split; [lia|auto].
  Qed.
  Lemma claim_none n : forall i h sd sd', claim_from pid_of n i h sd = (None, sd') ->
    sd' = sd /\ forall j, i <= j < i + n -> sd_lock sd j <> None \/ (sd_pid sd j = pid_of h /\ sd_active sd j = true).
  Proof.
    induction n as [|n IH]; intros i h sd sd'; cbn [claim_from].
    - intros H; injection H as <-. split; auto. lia.
    - destruct (sd_lock sd i) eqn:E.
      + intros H. destruct (IH _ _ _ _ H) as (A & B). split; auto. intros j Hj.
        destruct (Nat.eq_dec j i) as [->|]; [left; congruence|]. apply B. lia.
      + destruct (_ && _) eqn:E2; [|discriminate].
        intros H. destruct (IH _ _ _ _ H) as (A & B). split; auto. intros j Hj.
        destruct (Nat.eq_dec j i) as [->|]; [|apply B; lia].
        apply andb_true_iff in E2. rewrite Nat.eqb_eq in E2. auto.
  Qed.

  Definition side_ok (sd : side) (hs : nat -> option nat) : Prop :=
    (forall h i, hs h = Some i -> i < M /\ sd_lock sd i = Some h /\ sd_active sd i = true /\ sd_pid sd i = pid_of h) /\
    (forall h i, sd_lock sd i = Some h -> hs h = Some i).
  Definition reg_ok (s : fsys) : Prop := side_ok (fs_pub s) (fs_hpub s) /\ side_ok (fs_sub s) (fs_hsub s).

  Lemma side_ok_claim h sd hs j sd' : side_ok sd hs -> hs h = None -> claim_endpoint M pid_of h sd = (Some j, sd') ->
    side_ok sd' (set1 hs h (Some j)).
  Proof.
    intros (A & B) Hn H. apply claim_some in H. destruct H as (Hj & Hl & ->). split.
    - intros h2 i. unfold set1 at 1. cbn [sd_lock sd_active sd_pid]. destruct (Nat.eqb_spec h2 h) as [->|Hh].
      + intros E; injection E as <-. rewrite !set1_eq. repeat split; auto; lia.
      + intros E. destruct (A _ _ E) as (A1 & A2 & A3 & A4). assert (i <> j) by congruence.
        rewrite !set1_neq by auto. auto.
    - intros h2 i. cbn [sd_lock]. unfold set1. destruct (Nat.eqb_spec i j) as [->|Hi].
      + intros E; injection E as <-. rewrite Nat.eqb_refl. auto.
      + intros E. destruct (Nat.eqb_spec h2 h) as [->|]; auto. apply B in E. congruence.
  Qed.
  Lemma side_ok_drop h sd hs : side_ok sd hs ->
    side_ok (match hs h with Some i => deregister i sd | None => sd end) (set1 hs h None).
  Proof.
    intros (A & B). destruct (hs h) as [i|] eqn:Eh.
    - destruct (A _ _ Eh) as (A1 & A2 & A3 & A4). split.
      + intros h2 j. unfold set1 at 1. destruct (Nat.eqb_spec h2 h) as [->|Hh]; [discriminate|].
        intros E. destruct (A _ _ E) as (B1 & B2 & B3 & B4). assert (j <> i) by congruence.
        unfold deregister. cbn [sd_lock sd_active sd_pid]. rewrite !set1_neq by auto. auto.
      + intros h2 j. unfold deregister. cbn [sd_lock]. unfold set1. destruct (Nat.eqb_spec j i) as [->|Hj]; [discriminate|].
        intros E. destruct (Nat.eqb_spec h2 h) as [->|]; auto. apply B in E. congruence.
    - split.
      + intros h2 j. unfold set1. destruct (Nat.eqb_spec h2 h); [discriminate|auto].
      + intros h2 j E. unfold set1. destruct (Nat.eqb_spec h2 h) as [->|]; auto. apply B in E. congruence.
  Qed.
  Lemma side_ok_crash pid sd hs : side_ok sd hs ->
    side_ok (unlock pid_of pid sd) (fun h => if Nat.eqb (pid_of h) pid then None else hs h).
  Proof.
    intros (A & B). split.
    - intros h i. destruct (Nat.eqb_spec (pid_of h) pid); [discriminate|]. intros E.
      destruct (A _ _ E) as (A1 & A2 & A3 & A4). cbn [unlock sd_lock sd_active sd_pid]. rewrite A2.
      destruct (Nat.eqb_spec (pid_of h) pid); [contradiction|]. auto.
    - intros h i. cbn [unlock sd_lock]. destruct (sd_lock sd i) as [g|] eqn:E; [|discriminate].
      destruct (Nat.eqb_spec (pid_of g) pid); [discriminate|]. intros H; injection H as <-.
      destruct (Nat.eqb_spec (pid_of g) pid); [contradiction|]. auto.
  Qed.
  Lemma side_ok_same h sd hs i : side_ok sd hs -> hs h = Some i -> side_ok sd (set1 hs h (Some i)).
  Proof.
    intros (A & B) E. split.
    - intros h2 j. unfold set1. destruct (Nat.eqb_spec h2 h) as [->|]; auto. intros X; injection X as <-. auto.
    - intros h2 j X. unfold set1. destruct (Nat.eqb_spec h2 h) as [->|]; auto. apply B in X. congruence.
  Qed.

  (** What a send or receive does with the endpoint table. *)
  Lemma send_cases (s : fsys) h a s' ev : f_send M pid_of h a s = (s', ev) ->
    (s' = s /\ ev = [FRefused h a] /\ fs_hpub s h = None /\ fst (claim_endpoint M pid_of h (fs_pub s)) = None) \/
    exists p pub, ev = [FSent h a] /\
      (fs_hpub s h = Some p /\ pub = fs_pub s \/ fs_hpub s h = None /\ claim_endpoint M pid_of h (fs_pub s) = (Some p, pub)) /\
      s' = FSys (send_pod M p a (sd_active (fs_sub s)) (fs_chan s)) pub (fs_sub s)
                (set1 (fs_hpub s) h (Some p)) (fs_hsub s) (fs_cursor s) (fs_missed s).
  Proof.
    unfold f_send. destruct (fs_hpub s h) as [p|] eqn:E.
    - intros H; injection H as <- <-. right. eauto 10.
    - destruct (claim_endpoint M pid_of h (fs_pub s)) as [[p|] pub] eqn:E2; intros H; injection H as <- <-; eauto 10.
  Qed.
  Lemma recv_cases (s : fsys) h s' ev : f_recv M cap pid_of h s = (s', ev) ->
    (s' = s /\ ev = [FNone h] /\ fs_hsub s h = None /\ fst (claim_endpoint M pid_of h (fs_sub s)) = None) \/
    exists i sub ch,
      (fs_hsub s h = Some i /\ sub = fs_sub s /\ ch = fs_chan s \/
       fs_hsub s h = None /\ claim_endpoint M pid_of h (fs_sub s) = (Some i, sub) /\ ch = reset_sub M i (fs_chan s)) /\
      ((recv_loop M cap M 0 (fs_cursor s h mod M) i (sd_active (fs_pub s)) ch = None /\ ev = [FNone h] /\
        s' = FSys ch (fs_pub s) sub (fs_hpub s) (set1 (fs_hsub s) h (Some i)) (fs_cursor s) (fs_missed s)) \/
       exists a p c' sk, recv_loop M cap M 0 (fs_cursor s h mod M) i (sd_active (fs_pub s)) ch = Some (a, p, c', sk) /\ ev = [FGot h a] /\
        s' = FSys (fun p' s' => if Nat.eqb p' p && Nat.eqb s' i then c' else ch p' s') (fs_pub s) sub
                  (fs_hpub s) (set1 (fs_hsub s) h (Some i)) (set1 (fs_cursor s) h (S p))
                  (set1 (fs_missed s) h (fs_missed s h + sk))).
  Proof.
    unfold f_recv. destruct (fs_hsub s h) as [i|] eqn:E.
    - destruct (recv_loop _ _ _ _ _ _ _ _) as [[[[a p] c'] sk]|] eqn:E3; intros H; injection H as <- <-; right; exists i, (fs_sub s), (fs_chan s);
        (split; [auto|]); [right; exists a, p, c', sk|left]; auto.
    - destruct (claim_endpoint M pid_of h (fs_sub s)) as [[i|] sub] eqn:E2.
      + destruct (recv_loop _ _ _ _ _ _ _ _) as [[[[a p] c'] sk]|] eqn:E3; intros H; injection H as <- <-; right; exists i, sub, (reset_sub M i (fs_chan s));
        (split; [auto|]); [right; exists a, p, c', sk|left]; auto.
      + intros H; injection H as <- <-. left. auto.
  Qed.

  Lemma reg_step s o : reg_ok s -> reg_ok (fst (f_step s o)).
  Proof.
    intros (P & S). destruct o as [h a|h|h|pid]; cbn [Fanout.f_step].
    - destruct (f_send M pid_of h a s) as (s', ev) eqn:E. cbn [fst].
      destruct (send_cases _ _ _ _ _ E) as [(-> & _)|(p & pub & _ & [(H1 & ->)|(H1 & H2)] & ->)]; [split; auto| |]; split; cbn [fs_pub fs_hpub fs_sub fs_hsub]; auto.
      + apply side_ok_same; auto.
      + eapply side_ok_claim; eauto.
    - destruct (f_recv M cap pid_of h s) as (s', ev) eqn:E. cbn [fst].
      destruct (recv_cases _ _ _ _ E) as [(-> & _)|(i & sub & ch & H & H2)]; [split; auto|].
      assert (S' : side_ok sub (set1 (fs_hsub s) h (Some i))).
      { destruct H as [(H0 & -> & _)|(H0 & H1 & _)]; [apply side_ok_same; auto|eapply side_ok_claim; eauto]. }
      destruct H2 as [(_ & _ & ->)|(a & p & c' & sk & _ & _ & ->)]; split; auto.
    - cbn [fst]. split; cbn [f_drop fs_pub fs_hpub fs_sub fs_hsub]; apply side_ok_drop; auto.
    - cbn [fst]. split; cbn [f_crash fs_pub fs_hpub fs_sub fs_hsub]; apply side_ok_crash; auto.
  Qed.
  Lemma reg_init : reg_ok f_init.
  Proof. split; (split; [intros h i E; discriminate|intros h i E; discriminate]). Qed.

  Lemma f_run_app (s : fsys) (a b : list (fop lmsg)) : f_run M cap pid_of s (a ++ b) =
    let '(s1, e1) := f_run M cap pid_of s a in let '(s2, e2) := f_run M cap pid_of s1 b in (s2, e1 ++ e2).
  Proof.
    revert s; induction a as [|x a IH]; intros s; cbn [app f_run].
    - destruct (f_run M cap pid_of s b); auto.
    - destruct (f_step s x) as (s1, e1). rewrite IH. destruct (f_run M cap pid_of s1 a) as (s2, e2).
      destruct (f_run M cap pid_of s2 b) as (s3, e3). rewrite app_assoc. auto.
  Qed.
  Lemma reach_app (pre post : list (fop lmsg)) : f_trace M cap pid_of (pre ++ post) = f_trace M cap pid_of pre ++ snd (f_run M cap pid_of (f_final M cap pid_of pre) post)
    /\ f_final M cap pid_of (pre ++ post) = fst (f_run M cap pid_of (f_final M cap pid_of pre) post).
  Proof.
    unfold f_trace, f_final. rewrite f_run_app. destruct (f_run M cap pid_of f_init pre) as (s1, e1). cbn [fst snd].
    destruct (f_run M cap pid_of s1 post) as (s2, e2). auto.
  Qed.
  Lemma final_snoc (ops : list (fop lmsg)) o : f_final M cap pid_of (ops ++ [o]) = fst (f_step (f_final M cap pid_of ops) o).
  Proof. rewrite (proj2 (reach_app _ _)). cbn [f_run]. destruct (f_step _ o); auto. Qed.
  Lemma trace_snoc (ops : list (fop lmsg)) o : f_trace M cap pid_of (ops ++ [o]) = f_trace M cap pid_of ops ++ snd (f_step (f_final M cap pid_of ops) o).
  Proof. rewrite (proj1 (reach_app _ _)). cbn [f_run]. destruct (f_step _ o) as (x, y); cbn [snd]. rewrite app_nil_r; auto. Qed.
  Lemma reg_reach (ops : list (fop lmsg)) : reg_ok (f_final M cap pid_of ops).
  Proof.
    induction ops as [|o ops IH] using rev_ind; [apply reg_init|]. rewrite final_snoc. apply reg_step; auto.
  Qed.
End P.

(** ** The two loops *)
  Lemma send_loop_spec (p : nat) (a : lmsg) act : forall n s ch p' s',
    send_loop n s p a act ch p' s' =
    if Nat.eqb p' p && (s <=? s') && (s' <? s + n) && act s' then fc_send a (ch p' s') else ch p' s'.
  Proof.
    induction n as [|n IH]; intros s ch p' s'; cbn [send_loop].
    - destruct (Nat.leb_spec s s'), (Nat.ltb_spec s' (s + 0)); try lia; rewrite ?andb_false_r; auto.
    - rewrite IH. destruct (Nat.eqb_spec p' p) as [->|]; cbn [andb].
      2: { destruct (act s); auto. destruct (Nat.eqb_spec p' p); [contradiction|auto]. }
      destruct (Nat.eq_dec s' s) as [->|].
      + destruct (Nat.leb_spec (S s) s), (Nat.leb_spec s s), (Nat.ltb_spec s (s + S n)); try lia. cbn [andb].
        destruct (act s); auto. rewrite !Nat.eqb_refl. auto.
      + replace (if act s then _ else ch) with (if act s then (fun p'0 s'0 : nat => if (p'0 =? p) && (s'0 =? s) then fc_send a (ch p s) else ch p'0 s'0) else ch) by auto.
        assert (E : (if act s then (fun p'0 s'0 : nat => if (p'0 =? p) && (s'0 =? s) then fc_send a (ch p s) else ch p'0 s'0) else ch) p s' = ch p s').
        { destruct (act s); auto. destruct (Nat.eqb_spec s' s); [contradiction|]. rewrite andb_false_r. auto. }
        rewrite E. destruct (Nat.leb_spec (S s) s'), (Nat.leb_spec s s'), (Nat.ltb_spec s' (S s + n)), (Nat.ltb_spec s' (s + S n)); try lia; auto.
  Qed.
Section Slots.
  Variable M : nat.
  Lemma send_pod_spec p (a : lmsg) act ch p' s' :
    send_pod M p a act ch p' s' = if Nat.eqb p' p && (s' <? M) && act s' then fc_send a (ch p' s') else ch p' s'.
  Proof. unfold send_pod. rewrite send_loop_spec. cbn [Nat.leb Nat.add]. rewrite andb_true_r. auto. Qed.
  Lemma all_slots start p : p < M -> exists j, 0 <= j < M /\ (start + j) mod M = p.
  Proof.
    intros Hp. assert (HM : M <> 0) by lia. pose proof (Nat.mod_upper_bound start M HM).
    exists ((p + (M - start mod M)) mod M). split.
    - split; [lia|]. apply Nat.mod_upper_bound; auto.
    - rewrite Nat.add_mod_idemp_r by auto. rewrite <- Nat.add_mod_idemp_l by auto.
      replace (start mod M + (p + (M - start mod M))) with (p + 1 * M) by lia. rewrite Nat.mod_add by auto. apply Nat.mod_small; auto.
  Qed.
End Slots.
Section Chan.
  Variable cap : nat.
  Lemma fc_recv_none (c : fch lmsg) : fc_tail c <= length (fc_log c) -> 0 < cap ->
    (fc_recv cap c = None <-> fc_tail c = length (fc_log c)).
  Proof.
    intros Ht Hc. unfold fc_recv. destruct (Nat.ltb_spec cap (length (fc_log c) - fc_tail c)) as [L|L].
    - destruct (nth_error (fc_log c) (length (fc_log c) - cap)) eqn:E.
      + split; [discriminate|lia].
      + apply nth_error_None in E. lia.
    - destruct (nth_error (fc_log c) (fc_tail c)) eqn:E.
      + split; [discriminate|]. intros E2. assert (nth_error (fc_log c) (fc_tail c) <> None) by congruence.
        apply nth_error_Some in H. lia.
      + apply nth_error_None in E. split; auto. lia.
  Qed.
  Lemma fc_recv_some (c c' : fch lmsg) a sk : fc_tail c <= length (fc_log c) -> fc_recv cap c = Some (a, c', sk) ->
    exists next, fc_tail c <= next /\ sk = next - fc_tail c /\ nth_error (fc_log c) next = Some a /\
      c' = FCh (fc_log c) (S next) /\ next < length (fc_log c).
  Proof.
    intros Ht. unfold fc_recv. destruct (nth_error _ _) eqn:E; [|discriminate]. intros H; injection H as <- <- <-.
    eexists. split; [|split; [reflexivity|split; [exact E|split; [reflexivity|]]]].
    - destruct (Nat.ltb_spec cap (length (fc_log c) - fc_tail c)); lia.
    - apply nth_error_Some. congruence.
  Qed.
End Chan.
Section Loop.
  Variables (M cap : nat).
  Lemma recv_loop_some s act (ch : nat -> nat -> fch lmsg) start : forall n off a p c' sk,
    recv_loop M cap n off start s act ch = Some (a, p, c', sk) ->
    act p = true /\ fc_recv cap (ch p s) = Some (a, c', sk) /\
    exists j, off <= j < off + n /\ p = (start + j) mod M /\
      forall j', off <= j' < j -> act ((start + j') mod M) = true -> fc_recv cap (ch ((start + j') mod M) s) = None.
  Proof.
    induction n as [|n IH]; intros off a p c' sk; cbn [recv_loop]; [discriminate|].
    assert (Next : act ((start + off) mod M) = false \/ fc_recv cap (ch ((start + off) mod M) s) = None ->
      recv_loop M cap n (S off) start s act ch = Some (a, p, c', sk) ->
      act p = true /\ fc_recv cap (ch p s) = Some (a, c', sk) /\
    exists j, off <= j < off + S n /\ p = (start + j) mod M /\
      forall j', off <= j' < j -> act ((start + j') mod M) = true -> fc_recv cap (ch ((start + j') mod M) s) = None).
    { intros H0 H. destruct (IH _ _ _ _ _ H) as (A & B & j & C & D & E). split; auto. split; auto.
      exists j. split; [lia|]. split; auto. intros j' Hj' Ha. destruct (Nat.eq_dec j' off) as [->|]; [|apply E; auto; lia].
      destruct H0; [congruence|auto]. }
    destruct (act ((start + off) mod M)) eqn:Ea; auto.
    destruct (fc_recv cap (ch ((start + off) mod M) s)) as [[[x y] z]|] eqn:Er; auto.
    intros H; injection H as <- <- <- <-. split; auto. split; auto. exists off. split; [lia|]. split; auto. intros; lia.
  Qed.
  Lemma recv_loop_none s act (ch : nat -> nat -> fch lmsg) start : forall n off,
    recv_loop M cap n off start s act ch = None ->
    forall j, off <= j < off + n -> act ((start + j) mod M) = true -> fc_recv cap (ch ((start + j) mod M) s) = None.
  Proof.
    induction n as [|n IH]; intros off; cbn [recv_loop]; [intros; lia|].
    intros H j Hj Ha. destruct (Nat.eq_dec j off) as [->|].
    - rewrite Ha in H. destruct (fc_recv cap _) as [[[x y] z]|]; [discriminate|auto].
    - apply (IH (S off)); auto; [|lia]. destruct (act _); auto. destruct (fc_recv cap _) as [[[x y] z]|]; [discriminate|auto].
  Qed.
End Loop.
