From Verif.Base Require Import Prelude.
From Verif.Model Require Import Migrate.
From Verif.Spec Require Import MigrateSpec.
Open Scope nat_scope.

Lemma upd_same : forall A (f : nat -> A) t x, upd f t x t = x.
Proof. intros; unfold upd. rewrite Nat.eqb_refl. reflexivity. Qed.
Lemma upd_other : forall A (f : nat -> A) t x u, u <> t -> upd f t x u = f u.
Proof. intros; unfold upd. destruct (Nat.eqb_spec u t); [contradiction|reflexivity]. Qed.

Lemma changes_ret : forall s t m r, changes (ret s t m r) = changes s ++ match r with Success e => [(m, e)] | _ => [] end.
Proof. intros. unfold changes, ret. cbn [out]. rewrite flat_map_app. cbn [flat_map]. rewrite app_nil_r. destruct r; reflexivity. Qed.

(** ** Without forced unlocks *)
Record good (m0 : nat) (s : st) : Prop := mkGood {
  g_one : forall t u, inside (at_ s t) -> inside (at_ s u) -> t = u;
  g_num : map snd (changes s) = seq 1 (length (changes s));
  g_free : lock s = false -> (forall t, ~ inside (at_ s t)) /\ epoch s = length (changes s) /\ mode s = final m0 (changes s);
  g_held : lock s = true -> exists t, match at_ s t with
    | Draining _ => epoch s = length (changes s) /\ mode s = final m0 (changes s)
    | Stored m => epoch s = length (changes s) /\ mode s = m
    | Bumped m e => e = epoch s /\ epoch s = S (length (changes s)) /\ mode s = m
    | _ => False end }.

Lemma good_init : forall m0, good m0 (init m0).
Proof. intros; constructor; cbn; auto; try tauto; try discriminate. Qed.

(** A step of a caller that stays outside. *)
Lemma good_outside : forall m0 s s' t, good m0 s -> ~ inside (at_ s t) -> mode s' = mode s -> lock s' = lock s -> epoch s' = epoch s ->
  changes s' = changes s -> ~ inside (at_ s' t) -> (forall u, u <> t -> at_ s' u = at_ s u) -> good m0 s'.
Proof.
  intros m0 s s' t [G1 G2 G3 G4] N M L E C N' O.
  assert (X : forall u, inside (at_ s' u) -> u <> t /\ inside (at_ s u)).
  { intros u U. destruct (Nat.eq_dec u t) as [->|D]; [contradiction|]. rewrite O in U by exact D. auto. }
  constructor; rewrite ?M, ?L, ?E, ?C; auto.
  - intros a b A B. apply X in A as [_ A]. apply X in B as [_ B]. auto.
  - intros F. destruct (G3 F) as (A & B). split; [|exact B]. intros u U. apply X in U as [_ U]. exact (A u U).
  - intros F. destruct (G4 F) as (u & U). exists u. destruct (Nat.eq_dec u t) as [->|D].
    + destruct (at_ s t); cbn in N; tauto.
    + rewrite O by exact D. exact U.
Qed.

Lemma held_is : forall m0 s t, good m0 s -> inside (at_ s t) -> lock s = true /\ match at_ s t with
    | Draining _ => epoch s = length (changes s) /\ mode s = final m0 (changes s)
    | Stored m => epoch s = length (changes s) /\ mode s = m
    | Bumped m e => e = epoch s /\ epoch s = S (length (changes s)) /\ mode s = m
    | _ => False end.
Proof.
  intros m0 s t G I. destruct (lock s) eqn:L; [|destruct (g_free _ _ G L) as (A & _); destruct (A t I)].
  split; [reflexivity|]. destruct (g_held _ _ G L) as (u & U).
  assert (J : inside (at_ s u)) by (destruct (at_ s u); cbn; tauto). rewrite (g_one _ _ G t u I J). exact U.
Qed.

Lemma final_snoc : forall m0 l m e, final m0 (l ++ [(m, e)]) = m.
Proof. intros. unfold final. rewrite map_app. cbn [map fst]. apply last_last. Qed.

Lemma good_ret : forall m0 s t m r, good m0 s -> ~ inside (at_ s t) -> (forall e, r <> Success e) -> good m0 (ret s t m r).
Proof.
  intros m0 s t m r G N R. apply (good_outside m0 s _ t G N); try reflexivity.
  - rewrite changes_ret. destruct r as [e| | |]; [destruct (R e eq_refl)| | |]; apply app_nil_r.
  - cbn [ret at_]. rewrite upd_same. cbn. auto.
  - intros u U. cbn [ret at_]. apply upd_other, U.
Qed.
Lemma good_goto : forall m0 s t p, good m0 s -> ~ inside (at_ s t) -> ~ inside p -> good m0 (goto s t p).
Proof.
  intros m0 s t p G N P. apply (good_outside m0 s _ t G N); try reflexivity.
  - cbn [goto at_]. rewrite upd_same. exact P.
  - intros u U. cbn [goto at_]. apply upd_other, U.
Qed.

Lemma good_step : forall m0 s a, good m0 s -> (forall t, a <> Force t) -> good m0 (step s a).
Proof.
  intros m0 s [t m|t|t|t] G F; cbn [step].
  - destruct (dead s t); [exact G|]. destruct (at_ s t) eqn:A; try exact G. destruct (mode s =? m).
    + apply good_ret; [exact G|rewrite A; cbn; auto|discriminate].
    + apply good_goto; [exact G|rewrite A; cbn; auto|cbn; auto].
  - destruct (dead s t); [exact G|]. unfold go. destruct (at_ s t) as [|m|m|m|m|m e] eqn:A; [exact G| | | | |].
    + destruct (lock s).
      * apply good_ret; [exact G|rewrite A; cbn; auto|discriminate].
      * apply good_goto; [exact G|rewrite A; cbn; auto|cbn; auto].
    + destruct (lock s) eqn:L.
      * apply good_ret; [exact G|rewrite A; cbn; auto|discriminate].
      * destruct (g_free _ _ G L) as (Fr & E & M). constructor; cbn [goto at_ lock mode epoch].
        -- intros a b. destruct (Nat.eq_dec a t) as [->|Da], (Nat.eq_dec b t) as [->|Db]; auto.
           ++ intros _. rewrite upd_other by auto. intros X. destruct (Fr b X).
           ++ rewrite upd_other by auto. intros X. destruct (Fr a X).
           ++ rewrite upd_other by auto. intros X. destruct (Fr a X).
        -- apply G.
        -- discriminate.
        -- intros _. exists t. rewrite upd_same. exact (conj E M).
    + destruct (held_is m0 s t G) as (L & H); [rewrite A; exact I|]. rewrite A in H. destruct H as [E M].
      assert (On : forall u, inside (at_ s u) -> u = t) by (intros u U; apply (g_one _ _ G); [exact U|rewrite A; exact I]).
      constructor; cbn [goto at_ lock mode epoch].
      * intros a b X Y. assert (Z : forall c, inside (upd (at_ s) t (Stored m) c) -> c = t).
        { intros c C. destruct (Nat.eq_dec c t) as [|D]; [auto|]. rewrite upd_other in C by auto. auto. }
        rewrite (Z a X), (Z b Y). reflexivity.
      * apply G.
      * congruence.
      * intros _. exists t. rewrite upd_same. split; [exact E|reflexivity].
    + destruct (held_is m0 s t G) as (L & H); [rewrite A; exact I|]. rewrite A in H. destruct H as [E M].
      assert (On : forall u, inside (at_ s u) -> u = t) by (intros u U; apply (g_one _ _ G); [exact U|rewrite A; exact I]).
      constructor; cbn [goto at_ lock mode epoch].
      * intros a b X Y. assert (Z : forall c, inside (upd (at_ s) t (Bumped m (S (epoch s))) c) -> c = t).
        { intros c C. destruct (Nat.eq_dec c t) as [|D]; [auto|]. rewrite upd_other in C by auto. auto. }
        rewrite (Z a X), (Z b Y). reflexivity.
      * apply G.
      * congruence.
      * intros _. exists t. rewrite upd_same. split; [reflexivity|]. split; [f_equal; exact E|exact M].
    + destruct (held_is m0 s t G) as (L & H); [rewrite A; exact I|]. rewrite A in H. destruct H as (He & E & M).
      assert (On : forall u, inside (at_ s u) -> u = t) by (intros u U; apply (g_one _ _ G); [exact U|rewrite A; exact I]).
      assert (Z : forall c, ~ inside (upd (at_ s) t Idle c)).
      { intros c. destruct (Nat.eq_dec c t) as [->|D]; [rewrite upd_same; cbn; auto|]. rewrite upd_other by auto. intros C. apply D, On, C. }
      set (s1 := mkSt (mode s) false (epoch s) (at_ s) (dead s) (out s)).
      assert (C : changes (ret s1 t m (Success e)) = changes s ++ [(m, e)]) by (rewrite changes_ret; reflexivity).
      constructor; rewrite ?C.
      * intros a b X. destruct (Z a X).
      * rewrite map_app, (g_num _ _ G), app_length, Nat.add_1_r, seq_S. cbn [map snd]. f_equal. f_equal. lia.
      * intros _. split; [exact Z|]. cbn [ret s1 epoch mode]. rewrite app_length, Nat.add_1_r, final_snoc. split; [exact E|exact M].
      * cbn [ret s1 lock]. discriminate.
  - destruct G as [G1 G2 G3 G4]. constructor; auto.
  - destruct (F t eq_refl).
Qed.

Lemma good_run : forall m0 tr s, good m0 s -> unforced tr -> good m0 (run s tr).
Proof.
  intros m0; induction tr as [|a tr IH]; intros s G U; cbn [run fold_left]; [exact G|]. apply IH.
  - apply good_step; [exact G|]. intros t ->. apply (U t). left; reflexivity.
  - intros t H. apply (U t). right; exact H.
Qed.

(** ** With forced unlocks *)
Record fair (s : st) : Prop := mkFair {
  f_new : forall m e, In (m, e) (changes s) -> 1 <= e <= epoch s;
  f_once : NoDup (map snd (changes s));
  f_pend : forall t m e, at_ s t = Bumped m e -> 1 <= e <= epoch s /\ ~ In e (map snd (changes s));
  f_apart : forall t u m e m' , at_ s t = Bumped m e -> at_ s u = Bumped m' e -> t = u }.

Lemma fair_keep : forall s s' t, fair s -> (epoch s' = epoch s) -> changes s' = changes s -> (forall m e, at_ s' t <> Bumped m e) -> (forall u, u <> t -> at_ s' u = at_ s u) -> fair s'.
Proof.
  intros s s' t [F1 F2 F3 F4] E C N O.
  assert (X : forall u m e, at_ s' u = Bumped m e -> at_ s u = Bumped m e).
  { intros u m e U. destruct (Nat.eq_dec u t) as [->|D]; [destruct (N _ _ U)|]. rewrite O in U by exact D. exact U. }
  constructor; rewrite ?E, ?C; auto.
  - intros u m e U. apply (F3 u m e). auto.
  - intros u v m e m' U V. apply (F4 u v m e m'); auto.
Qed.

Lemma fair_step : forall s a, fair s -> fair (step s a).
Proof.
  intros s [t m|t|t|t] F; cbn [step].
  - destruct (dead s t); [exact F|]. destruct (at_ s t); try exact F. destruct (mode s =? m).
    + apply (fair_keep s _ t); auto; cbn [ret at_]; [rewrite changes_ret, app_nil_r; reflexivity|rewrite upd_same; discriminate|intros; apply upd_other; auto].
    + apply (fair_keep s _ t); auto; cbn [goto at_]; [rewrite upd_same; discriminate|intros; apply upd_other; auto].
  - destruct (dead s t); [exact F|]. unfold go. destruct (at_ s t) as [|m|m|m|m|m e] eqn:A; [exact F| | | | |].
    + destruct (lock s).
      * apply (fair_keep s _ t); auto; cbn [ret at_]; [rewrite changes_ret, app_nil_r; reflexivity|rewrite upd_same; discriminate|intros; apply upd_other; auto].
      * apply (fair_keep s _ t); auto; cbn [goto at_]; [rewrite upd_same; discriminate|intros; apply upd_other; auto].
    + destruct (lock s).
      * apply (fair_keep s _ t); auto; cbn [ret at_]; [rewrite changes_ret, app_nil_r; reflexivity|rewrite upd_same; discriminate|intros; apply upd_other; auto].
      * apply (fair_keep s _ t); auto; cbn [goto at_]; [rewrite upd_same; discriminate|intros; apply upd_other; auto].
    + apply (fair_keep s _ t); auto; cbn [goto at_]; [rewrite upd_same; discriminate|intros; apply upd_other; auto].
    + destruct F as [F1 F2 F3 F4]. change (changes (goto (mkSt (mode s) (lock s) (S (epoch s)) (at_ s) (dead s) (out s)) t (Bumped m (S (epoch s))))) with (changes s) in *.
      constructor.
      * intros k e I. cbn [goto epoch]. apply F1 in I. lia.
      * exact F2.
      * intros u k e U. cbn [goto at_ epoch] in *. destruct (Nat.eq_dec u t) as [->|D].
        -- rewrite upd_same in U. injection U as <- <-. split; [lia|]. intros I. apply in_map_iff in I as ([k' e'] & X & I). cbn [snd] in X. apply F1 in I. lia.
        -- rewrite upd_other in U by auto. destruct (F3 u k e U). split; [lia|auto].
      * intros u v k e k' U V. cbn [goto at_] in *. destruct (Nat.eq_dec u t) as [->|D], (Nat.eq_dec v t) as [->|D']; auto.
        -- rewrite upd_same in U. injection U as <- <-. rewrite upd_other in V by auto. apply F3 in V. lia.
        -- rewrite upd_same in V. injection V as <- <-. rewrite upd_other in U by auto. apply F3 in U. lia.
        -- rewrite upd_other in U, V by auto. eapply F4; eauto.
    + destruct F as [F1 F2 F3 F4]. set (s1 := mkSt (mode s) false (epoch s) (at_ s) (dead s) (out s)).
      assert (C : changes (ret s1 t m (Success e)) = changes s ++ [(m, e)]) by (rewrite changes_ret; reflexivity).
      destruct (F3 t m e A) as (Le & Ni). constructor; rewrite ?C; cbn [ret s1 at_ epoch].
      * intros k x I. apply in_app_or in I as [I|[[= <- <-]|[]]]; [exact (F1 k x I)|exact Le].
      * rewrite map_app. cbn [map snd].
        clear - F2 Ni. induction (map snd (changes s)) as [|y l IH]; cbn [app]; [constructor; [cbn; tauto|constructor]|].
        inversion F2; subst. constructor; [|apply IH; [assumption|intros X; apply Ni; right; exact X]].
        intros X. apply in_app_or in X as [X|[->|[]]]; [contradiction|]. apply Ni. left. reflexivity.
      * intros u k x U. destruct (Nat.eq_dec u t) as [->|D]; [rewrite upd_same in U; discriminate|]. rewrite upd_other in U by auto.
        destruct (F3 u k x U) as (L1 & L2). split; [exact L1|]. rewrite map_app. intros I. apply in_app_or in I as [I|[I|[]]]; [contradiction|].
        cbn [snd] in I. subst x. apply D. eapply F4; eauto.
      * intros u v k x k' U V. destruct (Nat.eq_dec u t) as [->|D]; [rewrite upd_same in U; discriminate|]. destruct (Nat.eq_dec v t) as [->|D']; [rewrite upd_same in V; discriminate|].
        rewrite upd_other in U, V by auto. eapply F4; eauto.
  - destruct F as [F1 F2 F3 F4]. constructor; auto.
  - destruct (dead s t); [exact F|]. destruct (at_ s t); try exact F. destruct F as [F1 F2 F3 F4]. constructor; auto.
Qed.
Lemma fair_run : forall tr s, fair s -> fair (run s tr).
Proof. induction tr as [|a tr IH]; intros s F; cbn [run fold_left]; [exact F|]. apply IH, fair_step, F. Qed.
Lemma fair_init : forall m0, fair (init m0).
Proof. intros; constructor; cbn; try tauto; try discriminate. constructor. Qed.

(** ** After a crash *)
Lemma stuck_step : forall s h a, lock s = true -> dead s h = true -> (forall t, inside (at_ s t) -> t = h) -> (forall t, a <> Force t) ->
  let s' := step s a in lock s' = true /\ mode s' = mode s /\ epoch s' = epoch s /\ dead s' h = true /\ (forall t, inside (at_ s' t) -> t = h) /\ changes s' = changes s.
Proof.
  intros s h a L D On F. cbv zeta.
  assert (Out : forall t p, ~ inside p -> forall u, inside (upd (at_ s) t p u) -> u = h).
  { intros t p N u U. destruct (Nat.eq_dec u t) as [->|X]; [rewrite upd_same in U; contradiction|]. rewrite upd_other in U by auto. auto. }
  destruct a as [t m|t|t|t]; cbn [step].
  - destruct (dead s t); [tauto|]. destruct (at_ s t); try tauto. destruct (mode s =? m); cbn [ret goto lock mode epoch dead at_].
    + rewrite changes_ret, app_nil_r. repeat split; auto; apply Out; cbn; auto.
    + repeat split; auto; apply Out; cbn; auto.
  - destruct (dead s t) eqn:Dt; [tauto|].
    assert (No : ~ inside (at_ s t)) by (intros I; apply On in I as ->; congruence).
    unfold go. destruct (at_ s t) as [|m|m|m|m|m e]; cbn [inside] in No; try tauto; rewrite L; cbn [ret lock mode epoch dead at_];
      rewrite changes_ret, app_nil_r; repeat split; auto; apply Out; cbn; auto.
  - cbn [lock mode epoch dead at_]. repeat split; auto. unfold upd. destruct (h =? t); auto.
  - destruct (F t eq_refl).
Qed.
Lemma stuck_run : forall tr s h, lock s = true -> dead s h = true -> (forall t, inside (at_ s t) -> t = h) -> unforced tr ->
  lock (run s tr) = true /\ mode (run s tr) = mode s /\ epoch (run s tr) = epoch s /\ changes (run s tr) = changes s.
Proof.
  induction tr as [|a tr IH]; intros s h L D On U; cbn [run fold_left]; [auto|].
  destruct (stuck_step s h a L D On) as (A & B & C & E & F & G); [intros t ->; apply (U t); left; reflexivity|].
  destruct (IH (step s a) h A E F) as (A' & B' & C' & G'); [intros t H; apply (U t); right; exact H|]. unfold run in *. rewrite B', C', G'. auto.
Qed.

Lemma same_run : forall tr s m, mode s = m -> (forall t, dead s t = true \/ at_ s t = Idle) -> all_for m tr -> epoch (run s tr) = epoch s /\ mode (run s tr) = m.
Proof.
  induction tr as [|a tr IH]; intros s m M Q A; cbn [run fold_left]; [auto|].
  assert (A' : all_for m tr) by (intros t m' I; apply (A t m'); right; exact I).
  assert (St : epoch (step s a) = epoch s /\ mode (step s a) = m /\ forall t, dead (step s a) t = true \/ at_ (step s a) t = Idle).
  { destruct a as [t k|t|t|t]; cbn [step].
    - destruct (dead s t) eqn:D; [auto|]. destruct (at_ s t) eqn:P; auto. rewrite (A t k (or_introl eq_refl)), M, Nat.eqb_refl.
      cbn [ret epoch mode dead at_]. repeat split; auto. intros u. destruct (Q u) as [X|X]; auto. right. unfold upd. destruct (u =? t); auto.
    - destruct (dead s t) eqn:D; [auto|]. destruct (Q t) as [X|X]; [congruence|]. unfold go. rewrite X. auto.
    - cbn [epoch mode dead at_]. repeat split; auto. intros u. destruct (Q u) as [X|X]; auto. left. unfold upd. destruct (u =? t); auto.
    - destruct (dead s t) eqn:D; [auto|]. destruct (at_ s t); auto. }
  destruct St as (S1 & S2 & S3). destruct (IH (step s a) m S2 S3 A') as [B C]. unfold run in *. rewrite B. auto.
Qed.
