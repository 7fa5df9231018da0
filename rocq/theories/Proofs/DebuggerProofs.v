(** Proofs about comparing recordings and about the replay debugger. *)
From Coq Require Import String Sorting.Sorted.
From Verif.Base Require Import Prelude Bytes AMap Str.
From Verif.Model Require Import Recording Debugger.
From Verif.Spec Require Import RecordingSpec DebuggerSpec.
From Verif.Proofs Require Import RecordingProofs.
Local Open Scope N_scope.
Local Open Scope list_scope.

(** ** Comparing *)
Lemma put_tick_In t l x : In x (put_tick t l) <-> x = t \/ In x l.
Proof.
  induction l as [|u l IH]; cbn [put_tick In]; [intuition|]. destruct (t <? u); [cbn [In]; intuition|].
  destruct (t =? u) eqn:E; cbn [In]; [apply N.eqb_eq in E; subst; intuition|]. rewrite IH. intuition.
Qed.
Lemma put_tick_sorted t l : StronglySorted N.lt l -> StronglySorted N.lt (put_tick t l).
Proof.
  induction l as [|u l IH]; intros S; cbn [put_tick]; [repeat constructor|]. apply StronglySorted_inv in S as [S F].
  destruct (t <? u) eqn:E.
  - apply N.ltb_lt in E. constructor; [constructor; auto|]. constructor; [exact E|]. eapply Forall_impl; [|exact F]. intros a Ha. cbn beta in Ha. lia.
  - destruct (t =? u) eqn:E2; [constructor; auto|]. apply N.ltb_ge in E. apply N.eqb_neq in E2. constructor; [apply IH; exact S|].
    apply Forall_forall. intros x Hx. apply put_tick_In in Hx as [->|Hx]; [lia|]. rewrite Forall_forall in F. auto.
Qed.
Lemma ticks_sorted l : StronglySorted N.lt (fold_right put_tick [] l).
Proof. induction l as [|t l IH]; cbn [fold_right]; [constructor|]. apply put_tick_sorted, IH. Qed.
Lemma ticks_In l x : In x (fold_right put_tick [] l) <-> In x l.
Proof. induction l as [|t l IH]; cbn [fold_right In]; [tauto|]. rewrite put_tick_In, IH. intuition. Qed.
Lemma diff_ticks_In r1 r2 t : In t (diff_ticks r1 r2) <-> in_overlap r1 r2 t /\ ((exists s, has r1 t s) \/ exists s, has r2 t s).
Proof.
  unfold diff_ticks. rewrite ticks_In, filter_In, in_app_iff, andb_true_iff, !N.leb_le, !in_map_iff. unfold in_overlap, has. split.
  - intros [[(s & E & I)|(s & E & I)] [A B]]; (split; [lia|]); [left|right]; exists s; auto.
  - intros [O [(s & I & E)|(s & I & E)]]; (split; [|lia]); [left|right]; exists s; auto.
Qed.
Lemma at_tick_Some r t s : at_tick r t = Some s -> has r t s.
Proof. intros H. apply find_some in H as [H E]. apply N.eqb_eq in E. split; [|exact E]. apply in_rev. exact H. Qed.
Lemma at_tick_None r t : at_tick r t = None -> forall s, ~ has r t s.
Proof. intros H s [I E]. pose proof (find_none _ _ H s) as X. rewrite <- in_rev in X. specialize (X I). cbn beta in X. apply N.eqb_neq in X. contradiction. Qed.
Lemma NoDup_map_inj {A B} (f : A -> B) l x y : NoDup (map f l) -> In x l -> In y l -> f x = f y -> x = y.
Proof.
  induction l as [|a l IH]; intros N Hx Hy E; [destruct Hx|]. inversion N as [|? ? N1 N2]; subst. destruct Hx as [->|Hx], Hy as [->|Hy]; auto.
  - exfalso. apply N1. rewrite E. apply in_map, Hy.
  - exfalso. apply N1. rewrite <- E. apply in_map, Hx.
Qed.
Lemma has_unique r t s s' : distinct r -> has r t s -> has r t s' -> s = s'.
Proof. intros [N _] [I E] [I' E']. eapply NoDup_map_inj; eauto. congruence. Qed.
Lemma at_tick_has r t s : distinct r -> has r t s -> at_tick r t = Some s.
Proof.
  intros D H. destruct (at_tick r t) as [s'|] eqn:E; [f_equal; apply at_tick_Some in E; eapply has_unique; eauto|]. exfalso. eapply at_tick_None; eauto.
Qed.
Lemma out_lookup r t s topic d : distinct r -> has r t s -> (lookup beqb topic (sn_out s) = Some d <-> In (topic, d) (sn_out s)).
Proof.
  intros [_ D] [I _]. split; [apply lookup_In; apply beqb_spec|]. apply In_lookup; [apply beqb_spec|]. apply D, I.
Qed.
Lemma diff_In r1 r2 d : In d (diff_recordings r1 r2) <-> exists t, In t (diff_ticks r1 r2) /\ In d (diff_tick r1 r2 t).
Proof. unfold diff_recordings. apply in_flat_map. Qed.
Lemma diff_tick_at r1 r2 t d : In d (diff_tick r1 r2 t) -> diff_at d = t.
Proof.
  unfold diff_tick. destruct (at_tick r1 t) as [s1|], (at_tick r2 t) as [s2|]; intros H; try (destruct H as [<-|[]]; reflexivity); [|destruct H].
  apply in_app_or in H as [H|H]; apply in_flat_map in H as ([k v] & _ & H); cbn [fst snd] in H.
  - destruct (lookup beqb k (sn_out s2)); [destruct (beqb v b); [destruct H|]|]; destruct H as [<-|[]]; reflexivity.
  - destruct (lookup beqb k (sn_out s1)); [destruct H|]. destruct H as [<-|[]]; reflexivity.
Qed.
Lemma diff_difference r1 r2 t topic n1 n2 : distinct r1 -> distinct r2 ->
  (In (OutputDifference t topic n1 n2) (diff_recordings r1 r2) <->
   in_overlap r1 r2 t /\ exists s1 s2 d1 d2, has r1 t s1 /\ has r2 t s2 /\ In (topic, d1) (sn_out s1) /\ In (topic, d2) (sn_out s2) /\ d1 <> d2 /\ n1 = length d1 /\ n2 = length d2).
Proof.
  intros D1 D2. rewrite diff_In. split.
  - intros (u & Hu & H). pose proof (diff_tick_at _ _ _ _ H) as E. cbn in E. subst u. apply diff_ticks_In in Hu as [O _]. split; [exact O|].
    unfold diff_tick in H. destruct (at_tick r1 t) as [s1|] eqn:E1, (at_tick r2 t) as [s2|] eqn:E2; try (destruct H as [H|[]]; discriminate H); [|destruct H].
    apply at_tick_Some in E1, E2. exists s1, s2. apply in_app_or in H as [H|H]; apply in_flat_map in H as ([k v] & Hk & H); cbn [fst snd] in H.
    + destruct (lookup beqb k (sn_out s2)) as [d2|] eqn:El; [|destruct H as [H|[]]; discriminate H]. destruct (beqb v d2) eqn:Eb; [destruct H|].
      destruct H as [H|[]]. injection H as -> <- <-. exists v, d2. repeat (split; [assumption|]). split; [eapply out_lookup; eauto|].
      split; [intros ->; rewrite (proj2 (beqb_spec d2 d2) eq_refl) in Eb; discriminate|split; reflexivity].
    + destruct (lookup beqb k (sn_out s1)); [destruct H|destruct H as [H|[]]; discriminate H].
  - intros (O & s1 & s2 & d1 & d2 & H1 & H2 & I1 & I2 & Hd & -> & ->). exists t. split; [apply diff_ticks_In; split; [exact O|left; exists s1; exact H1]|].
    unfold diff_tick. rewrite (at_tick_has r1 t s1 D1 H1), (at_tick_has r2 t s2 D2 H2). apply in_or_app. left. apply in_flat_map. exists (topic, d1). split; [exact I1|]. cbn [fst snd].
    rewrite (proj2 (out_lookup r2 t s2 topic d2 D2 H2) I2). destruct (beqb d1 d2) eqn:Eb; [apply beqb_spec in Eb; contradiction|left; reflexivity].
Qed.
Lemma lookup_absent (k : bytes) (m : list (bytes * bytes)) : lookup beqb k m = None <-> ~ In k (map fst m).
Proof. apply lookup_None_keys. apply beqb_spec. Qed.
Lemma diff_missing_output r1 r2 t topic k : distinct r1 -> distinct r2 ->
  (In (MissingOutput t topic k) (diff_recordings r1 r2) <->
   in_overlap r1 r2 t /\ exists s1 s2, has r1 t s1 /\ has r2 t s2 /\
     ((k = 1 /\ In topic (map fst (sn_out s1)) /\ ~ In topic (map fst (sn_out s2))) \/ (k = 2 /\ In topic (map fst (sn_out s2)) /\ ~ In topic (map fst (sn_out s1))))).
Proof.
  intros D1 D2. rewrite diff_In. split.
  - intros (u & Hu & H). pose proof (diff_tick_at _ _ _ _ H) as E. cbn in E. subst u. apply diff_ticks_In in Hu as [O _]. split; [exact O|].
    unfold diff_tick in H. destruct (at_tick r1 t) as [s1|] eqn:E1, (at_tick r2 t) as [s2|] eqn:E2; try (destruct H as [H|[]]; discriminate H); [|destruct H].
    apply at_tick_Some in E1, E2. exists s1, s2. split; [exact E1|]. split; [exact E2|]. apply in_app_or in H as [H|H]; apply in_flat_map in H as ([k' v] & Hk & H); cbn [fst snd] in H.
    + destruct (lookup beqb k' (sn_out s2)) as [d2|] eqn:El; [destruct (beqb v d2); [destruct H|destruct H as [H|[]]; discriminate H]|].
      destruct H as [H|[]]. injection H as -> <-. left. split; [reflexivity|]. split; [exact (in_map fst _ _ Hk)|apply lookup_absent; exact El].
    + destruct (lookup beqb k' (sn_out s1)) eqn:El; [destruct H|]. destruct H as [H|[]]. injection H as -> <-.
      right. split; [reflexivity|]. split; [exact (in_map fst _ _ Hk)|apply lookup_absent; exact El].
  - intros (O & s1 & s2 & H1 & H2 & C). exists t. split; [apply diff_ticks_In; split; [exact O|left; exists s1; exact H1]|].
    unfold diff_tick. rewrite (at_tick_has r1 t s1 D1 H1), (at_tick_has r2 t s2 D2 H2). apply in_or_app.
    destruct C as [(-> & I & N)|(-> & I & N)]; apply in_map_iff in I as ([k' v] & E & I); cbn in E; subst k'; [left|right]; apply in_flat_map; exists (topic, v); (split; [exact I|]); cbn [fst snd];
      apply lookup_absent in N; rewrite N; left; reflexivity.
Qed.
Lemma diff_missing_tick r1 r2 t k : distinct r1 -> distinct r2 ->
  (In (MissingTick t k) (diff_recordings r1 r2) <->
   in_overlap r1 r2 t /\ ((k = 1 /\ (exists s, has r2 t s) /\ forall s, ~ has r1 t s) \/ (k = 2 /\ (exists s, has r1 t s) /\ forall s, ~ has r2 t s))).
Proof.
  intros D1 D2. rewrite diff_In. split.
  - intros (u & Hu & H). pose proof (diff_tick_at _ _ _ _ H) as E. cbn in E. subst u. apply diff_ticks_In in Hu as [O _]. split; [exact O|].
    unfold diff_tick in H. destruct (at_tick r1 t) as [s1|] eqn:E1, (at_tick r2 t) as [s2|] eqn:E2.
    + apply in_app_or in H as [H|H]; apply in_flat_map in H as ([k' v] & Hk & H); cbn [fst snd] in H.
      * destruct (lookup beqb k' (sn_out s2)) as [d2|]; [destruct (beqb v d2); [destruct H|]|]; destruct H as [H|[]]; discriminate H.
      * destruct (lookup beqb k' (sn_out s1)); [destruct H|]. destruct H as [H|[]]; discriminate H.
    + destruct H as [H|[]]. injection H as <-. right. split; [reflexivity|]. split; [exists s1; apply at_tick_Some; exact E1|apply at_tick_None; exact E2].
    + destruct H as [H|[]]. injection H as <-. left. split; [reflexivity|]. split; [exists s2; apply at_tick_Some; exact E2|apply at_tick_None; exact E1].
    + destruct H.
  - intros [O C]. exists t. split; [apply diff_ticks_In; split; [exact O|]; destruct C as [(_ & C & _)|(_ & C & _)]; auto|]. unfold diff_tick.
    destruct C as [(-> & (s & H) & N)|(-> & (s & H) & N)].
    + rewrite (at_tick_has r2 t s D2 H). destruct (at_tick r1 t) as [s1|] eqn:E1; [apply at_tick_Some in E1; exfalso; eapply N; eauto|left; reflexivity].
    + rewrite (at_tick_has r1 t s D1 H). destruct (at_tick r2 t) as [s2|] eqn:E2; [apply at_tick_Some in E2; exfalso; eapply N; eauto|left; reflexivity].
Qed.
Lemma diff_sorted r1 r2 : StronglySorted N.le (map diff_at (diff_recordings r1 r2)).
Proof.
  unfold diff_recordings. pose proof (ticks_sorted (filter (fun t => (N.max (r_first r1) (r_first r2) <=? t) && (t <=? N.min (r_last r1) (r_last r2))) (map sn_tick (r_snaps r1) ++ map sn_tick (r_snaps r2)))) as S.
  fold (diff_ticks r1 r2) in S. induction (diff_ticks r1 r2) as [|t l IH]; cbn [flat_map map]; [constructor|]. apply StronglySorted_inv in S as [S F].
  rewrite map_app. assert (A : forall x, In x (map diff_at (diff_tick r1 r2 t)) -> x = t) by (intros x Hx; apply in_map_iff in Hx as (d & <- & Hd); eapply diff_tick_at; eauto).
  assert (B : forall x, In x (map diff_at (flat_map (diff_tick r1 r2) l)) -> t <= x).
  { intros x Hx. apply in_map_iff in Hx as (d & <- & Hd). apply in_flat_map in Hd as (u & Hu & Hd). rewrite (diff_tick_at _ _ _ _ Hd). rewrite Forall_forall in F. apply N.lt_le_incl, F, Hu. }
  specialize (IH S). clear S F. induction (map diff_at (diff_tick r1 r2 t)) as [|x xs IHx]; cbn [app]; [exact IH|].
  constructor; [apply IHx; intros y Hy; apply A; right; exact Hy|]. pose proof (A x (or_introl eq_refl)). subst x. apply Forall_forall. intros y Hy. apply in_app_or in Hy as [Hy|Hy].
  - rewrite (A y (or_intror Hy)). lia.
  - apply B, Hy.
Qed.
Lemma diff_nil r1 r2 : distinct r1 -> distinct r2 ->
  (diff_recordings r1 r2 = [] <-> forall t, in_overlap r1 r2 t ->
     (forall s1, has r1 t s1 -> exists s2, has r2 t s2 /\ same_outputs s1 s2) /\ (forall s2, has r2 t s2 -> exists s1, has r1 t s1 /\ same_outputs s1 s2)).
Proof.
  intros D1 D2. split.
  - intros E t O.
    assert (X : forall d, ~ In d (diff_recordings r1 r2)) by (intros d; rewrite E; intros []).
    assert (G : forall s1 s2, has r1 t s1 -> has r2 t s2 -> same_outputs s1 s2).
    { intros s1 s2 H1 H2 topic data. split; intros I.
      - destruct (lookup beqb topic (sn_out s2)) as [d2|] eqn:El.
        + apply (out_lookup r2 t s2) in El; auto. destruct (beqb data d2) eqn:Eb; [apply beqb_spec in Eb; subst; exact El|]. exfalso.
          apply (X (OutputDifference t topic (length data) (length d2))). apply diff_difference; auto. split; [exact O|]. exists s1, s2, data, d2. repeat (split; [assumption|]).
          split; [intros ->; rewrite (proj2 (beqb_spec d2 d2) eq_refl) in Eb; discriminate|split; reflexivity].
        + exfalso. apply (X (MissingOutput t topic 1)). apply diff_missing_output; auto. split; [exact O|]. exists s1, s2. repeat (split; [assumption|]). left.
          split; [reflexivity|]. split; [exact (in_map fst _ _ I)|apply lookup_absent; exact El].
      - destruct (lookup beqb topic (sn_out s1)) as [d1|] eqn:El.
        + apply (out_lookup r1 t s1) in El; auto. destruct (beqb d1 data) eqn:Eb; [apply beqb_spec in Eb; subst; exact El|]. exfalso.
          apply (X (OutputDifference t topic (length d1) (length data))). apply diff_difference; auto. split; [exact O|]. exists s1, s2, d1, data. repeat (split; [assumption|]).
          split; [intros ->; rewrite (proj2 (beqb_spec data data) eq_refl) in Eb; discriminate|split; reflexivity].
        + exfalso. apply (X (MissingOutput t topic 2)). apply diff_missing_output; auto. split; [exact O|]. exists s1, s2. repeat (split; [assumption|]). right.
          split; [reflexivity|]. split; [exact (in_map fst _ _ I)|apply lookup_absent; exact El]. }
    split.
    + intros s1 H1. destruct (at_tick r2 t) as [s2|] eqn:E2; [apply at_tick_Some in E2; exists s2; auto|]. exfalso.
      apply (X (MissingTick t 2)). apply diff_missing_tick; auto. split; [exact O|]. right. split; [reflexivity|]. split; [exists s1; exact H1|apply at_tick_None; exact E2].
    + intros s2 H2. destruct (at_tick r1 t) as [s1|] eqn:E1; [apply at_tick_Some in E1; exists s1; auto|]. exfalso.
      apply (X (MissingTick t 1)). apply diff_missing_tick; auto. split; [exact O|]. left. split; [reflexivity|]. split; [exists s2; exact H2|apply at_tick_None; exact E1].
  - intros G. assert (K : forall (s1 s2 : Snap), same_outputs s1 s2 -> forall topic, In topic (map fst (sn_out s1)) <-> In topic (map fst (sn_out s2))).
    { intros s1 s2 S topic. rewrite !in_map_iff. split; intros ([k v] & E & I); exists (k, v); (split; [exact E|]); apply S; exact I. }
    destruct (diff_recordings r1 r2) as [|d l] eqn:E; [reflexivity|]. exfalso. assert (I : In d (diff_recordings r1 r2)) by (rewrite E; left; reflexivity).
    destruct d as [t topic n1 n2|t topic k|t k].
    + apply diff_difference in I as (O & s1 & s2 & d1 & d2 & H1 & H2 & I1 & I2 & Hd & _); auto. destruct (G t O) as [G1 _].
      destruct (G1 s1 H1) as (s2' & H2' & S). rewrite (has_unique r2 t s2' s2 D2 H2' H2) in S. apply S in I1.
      apply (out_lookup r2 t s2) in I1, I2; auto. congruence.
    + apply diff_missing_output in I as (O & s1 & s2 & H1 & H2 & C); auto. destruct (G t O) as [G1 _]. destruct (G1 s1 H1) as (s2' & H2' & S).
      rewrite (has_unique r2 t s2' s2 D2 H2' H2) in S. pose proof (K s1 s2 S topic). tauto.
    + apply diff_missing_tick in I as (O & C); auto. destruct (G t O) as [G1 G2]. destruct C as [(_ & (s & H) & N)|(_ & (s & H) & N)].
      * destruct (G2 s H) as (s1 & H1 & _). eapply N; eauto.
      * destruct (G1 s H) as (s2 & H2 & _). eapply N; eauto.
Qed.
Lemma increasing_NoDup r : increasing r -> NoDup (map sn_tick (r_snaps r)).
Proof.
  intros H. rewrite NoDup_nth_error. intros i j Hi E. rewrite map_length in Hi. rewrite !nth_error_map in E.
  destruct (nth_error (r_snaps r) i) as [s|] eqn:Es; [|apply nth_error_None in Es; lia].
  destruct (nth_error (r_snaps r) j) as [t|] eqn:Et; [|discriminate]. cbn in E. injection E as E.
  destruct (Nat.lt_trichotomy i j) as [L|[L|L]]; [pose proof (H i j s t L Es Et); lia|exact L|pose proof (H j i t s L Et Es); lia].
Qed.
Lemma NoDup_front {A} (a b : list A) : NoDup (a ++ b) -> NoDup a.
Proof. induction a as [|x a IH]; cbn [app]; intros N; [constructor|]. inversion N as [|? ? N1 N2]; subst. constructor; [intros X; apply N1; apply in_or_app; left; exact X|auto]. Qed.
Lemma diff_extension r1 r2 more : increasing r2 -> (forall s, In s (r_snaps r2) -> NoDup (map fst (sn_out s))) -> truthful r1 -> truthful r2 ->
  r_snaps r2 = r_snaps r1 ++ more -> diff_recordings r1 r2 = [].
Proof.
  intros I2 T2 (s & t & l & m & A & B & F1 & L1) (s' & t' & l' & m' & A' & B' & F2 & L2) E.
  assert (D2 : distinct r2) by (split; [apply increasing_NoDup, I2|exact T2]).
  assert (D1 : distinct r1).
  { destruct D2 as [N T]. rewrite E, map_app in N. split; [apply NoDup_front in N; exact N|]. intros x Hx. apply T. rewrite E. apply in_or_app. left. exact Hx. }
  apply diff_nil; auto. intros u O. split.
  - intros s1 [H1 H1']. exists s1. split; [split; [rewrite E; apply in_or_app; left; exact H1|exact H1']|]. intros topic data. reflexivity.
  - intros s2 [H2 H2']. exists s2. split; [|intros topic data; reflexivity]. split; [|exact H2']. rewrite E in H2. apply in_app_or in H2 as [H2|H2]; [exact H2|]. exfalso.
    apply In_nth_error in H2 as (j & Hj). destruct O as (_ & _ & O & _). rewrite L1 in O.
    assert (X : sn_tick t < sn_tick s2).
    { apply (I2 (length m) (length (r_snaps r1) + j)%nat).
      - rewrite B, app_length. cbn. lia.
      - rewrite E, B, <- app_assoc. rewrite nth_error_app2, Nat.sub_diag; [reflexivity|lia].
      - rewrite E. rewrite nth_error_app2 by lia. replace (length (r_snaps r1) + j - length (r_snaps r1))%nat with j by lia. exact Hj. }
    lia.
Qed.

(** ** The debugger *)
Lemma emit_frame e d : d_rp (emit e d) = d_rp d /\ d_state (emit e d) = d_state d /\ d_bps (emit e d) = d_bps d /\ d_watches (emit e d) = d_watches d /\ d_last (emit e d) = d_last d /\ d_next (emit e d) = d_next d.
Proof. repeat split. Qed.
Lemma emits_frame es : forall d, let d' := fold_left (fun d e => emit e d) es d in
  d_rp d' = d_rp d /\ d_state d' = d_state d /\ d_bps d' = d_bps d /\ d_watches d' = d_watches d /\ d_last d' = d_last d /\ d_next d' = d_next d.
Proof. induction es as [|e es IH]; intros d; cbn [fold_left]; [repeat split|]. destruct (IH (emit e d)) as (A & B & C & D & E & F). cbv zeta in *. rewrite A, B, C, D, E, F. repeat split. Qed.
Lemma ew_frame d : let d' := fst (evaluate_watches d) in
  d_rp d' = d_rp d /\ d_state d' = d_state d /\ d_bps d' = d_bps d /\ d_watches d' = d_watches d /\ d_next d' = d_next d.
Proof.
  cbv zeta. unfold evaluate_watches. destruct (current (d_rp d)) as [s|]; [|repeat split]. destruct (watch_pass s (d_watches d) (d_last d)) as [[last es] vs]. cbn [fst].
  destruct (emits_frame es (with_last last d)) as (A & B & C & D & _ & F). rewrite A, B, C, D, F. repeat split.
Qed.
Lemma emit_told e d : told (emit e d) e.
Proof.
  unfold told, emit. cbn [d_events]. destruct (MAX_EVENTS <? length (d_events d ++ [e]))%nat eqn:E; [|exists (d_events d); reflexivity].
  apply Nat.ltb_lt in E. rewrite app_length in E. cbn [length] in E. destruct (d_events d) as [|x l]; [cbn [length] in E; unfold MAX_EVENTS in E; lia|]. exists l. reflexivity.
Qed.

Section Run.
  Variable err : bytes -> bool.
  Lemma holds_meets c s prev : cond_holds err c s prev = true <-> meets err prev s c.
  Proof.
    destruct c as [t|t|topic|topic pattern| |n|w]; cbn [cond_holds].
    - rewrite N.eqb_eq. split; [constructor; assumption|inversion 1; assumption].
    - rewrite N.eqb_eq. split; [constructor; assumption|inversion 1; assumption].
    - rewrite orb_true_iff. unfold mem. assert (X : forall m : list (bytes * bytes), (match lookup beqb topic m with Some _ => true | None => false end) = true <-> In topic (map fst m)).
      { intros m. destruct (lookup beqb topic m) as [v|] eqn:E.
        - split; [intros _; apply lookup_In in E; [exact (in_map fst _ _ E)|apply beqb_spec]|reflexivity].
        - apply lookup_absent in E. split; [discriminate|intros; contradiction]. }
      rewrite !X. split; [constructor; assumption|inversion 1; assumption].
    - split.
      + intros H. constructor. destruct (lookup beqb topic (sn_out s)) as [d|] eqn:E; [|discriminate]. apply beqb_spec in H. subst. reflexivity.
      + inversion 1 as [| | |? ? E| | |]; subst. rewrite E. apply beqb_spec. reflexivity.
    - rewrite orb_true_iff, !existsb_exists. split.
      + intros [(t & I & E)|(t & I & E)]; econstructor; eauto.
      + inversion 1 as [| | | |t [I|I] E| |]; subst; [right|left]; exists t; auto.
    - rewrite N.leb_le. split; [constructor; assumption|inversion 1; assumption].
    - split.
      + intros H. destruct (evaluate w s) as [v|] eqn:E; [|discriminate]. econstructor; eauto.
      + inversion 1 as [| | | | | |? ? E]; subst. rewrite E. reflexivity.
  Qed.
  Lemma triggers_spec b s prev : triggers err b s prev = true <-> b_on b = true /\ meets err prev s (b_cond b).
  Proof. unfold triggers. destruct (b_on b); [rewrite holds_meets; intuition|]. split; [discriminate|intros [H _]; discriminate]. Qed.
  Lemma hit_none s prev l : find (fun b => triggers err b s prev) l = None -> hit_all err s prev l = l.
  Proof.
    intros H. unfold hit_all. rewrite <- (map_id l) at 2. apply map_ext_in. intros b Hb. rewrite (find_none _ _ H b Hb). reflexivity.
  Qed.
  Lemma find_split {A} (f : A -> bool) l x : find f l = Some x -> exists l1 l2, l = l1 ++ x :: l2 /\ f x = true /\ forall y, In y l1 -> f y = false.
  Proof.
    induction l as [|a l IH]; cbn [find]; [discriminate|]. destruct (f a) eqn:E.
    - intros H. injection H as ->. exists [], l. split; [reflexivity|]. split; [exact E|]. intros y [].
    - intros H. apply IH in H as (l1 & l2 & -> & F & G). exists (a :: l1), l2. split; [reflexivity|]. split; [exact F|]. intros y [<-|Hy]; auto.
  Qed.
  (** What the loop ends with. *)
  Definition stopped_at (d d' : Dbg) (j : nat) (b : Bp) (s : Snap) : Prop :=
    breaks err d j b /\ nth_error (snaps d) j = Some s /\ (forall k b', (k < j)%nat -> ~ breaks err d k b') /\
    (exists l1 l2, d_bps d = l1 ++ b :: l2 /\ forall b', In b' l1 -> ~ breaks err d j b') /\
    d_rp d' = mkReplayer (rp_rec (d_rp d)) j (sn_tick s) /\ d_state d' = Paused /\ told d' (EHit (b_id b) (sn_tick s)) /\
    forall i b0, nth_error (d_bps d) i = Some b0 -> exists n, nth_error (d_bps d') i = Some (mkBp (b_id b0) (b_cond b0) (b_on b0) n) /\
      (breaks err d j b0 -> n = b_hits b0 + 1) /\ (~ breaks err d j b0 -> n = b_hits b0).
  Definition ran_out (d d' : Dbg) : Prop :=
    (forall j b, ~ breaks err d j b) /\ d_state d' = Stopped /\ pos d' = Nat.max (pos d) (length (snaps d) - 1) /\ rp_rec (d_rp d') = rp_rec (d_rp d) /\
    d_bps d' = d_bps d /\ told d' (EFinished (rp_tick (d_rp d'))).
  Lemma breaks_later d d1 s : rp_rec (d_rp d1) = rp_rec (d_rp d) -> d_bps d1 = d_bps d -> pos d1 = S (pos d) -> nth_error (snaps d) (S (pos d)) = Some s -> rp_tick (d_rp d1) = sn_tick s ->
    forall j b, (S (pos d) < j)%nat -> (breaks err d1 j b <-> breaks err d j b).
  Proof.
    intros Er Eb Ep Es Et j b Hj. unfold breaks, snaps. rewrite Er, Eb, Ep. replace (j =? S (pos d))%nat with false by (symmetry; apply Nat.eqb_neq; lia).
    fold (snaps d). split.
    - intros (_ & I & O & s1 & prev & N & P & M). split; [lia|]. split; [exact I|]. split; [exact O|]. exists s1, prev. split; [exact N|]. split; [|exact M].
      destruct (j =? S (S (pos d)))%nat eqn:E; [|exact P]. apply Nat.eqb_eq in E. subst j. replace (S (S (pos d)) - 1)%nat with (S (pos d)) by lia. exists s. split; [exact Es|]. congruence.
    - intros (_ & I & O & s1 & prev & N & P & M). split; [lia|]. split; [exact I|]. split; [exact O|]. exists s1, prev. split; [exact N|]. split; [|exact M].
      destruct (j =? S (S (pos d)))%nat eqn:E; [|exact P]. apply Nat.eqb_eq in E. subst j. replace (S (S (pos d)) - 1)%nat with (S (pos d)) in P by lia. destruct P as (s' & A & ->). rewrite Es in A. injection A as <-. congruence.
  Qed.
  Lemma breaks_next d b s : nth_error (snaps d) (S (pos d)) = Some s -> (breaks err d (S (pos d)) b <-> In b (d_bps d) /\ triggers err b s (rp_tick (d_rp d)) = true).
  Proof.
    intros Es. rewrite triggers_spec. unfold breaks. rewrite Nat.eqb_refl. split.
    - intros (_ & I & O & s1 & prev & N & -> & M). rewrite Es in N. injection N as <-. auto.
    - intros (I & O & M). split; [lia|]. split; [exact I|]. split; [exact O|]. exists s, (rp_tick (d_rp d)). auto.
  Qed.
  Lemma breaks_none d j b : (length (snaps d) <= S (pos d))%nat -> ~ breaks err d j b.
  Proof. intros H (A & _ & _ & s & prev & N & _). assert (j < length (snaps d))%nat by (apply nth_error_Some; congruence). lia. Qed.
  Lemma run_spec fuel : forall d, d_state d = Running -> (length (snaps d) - pos d < fuel)%nat ->
    (exists j b s, stopped_at d (run_on err fuel d) j b s) \/ ran_out d (run_on err fuel d).
  Proof.
    induction fuel as [|fuel IH]; intros d Hs Hf; [lia|]. cbn [run_on]. rewrite Hs. cbn [dstate_eqb]. unfold step_internal.
    destruct (Nat.le_gt_cases (length (snaps d)) (S (pos d))) as [L|L].
    - assert (X : forall d1, d1 = emit (EFinished (rp_tick (d_rp d))) (with_state Stopped d) -> ran_out d d1).
      { intros d1 ->. split; [intros j b; apply breaks_none, L|]. split; [reflexivity|]. split; [unfold pos, emit, with_state; cbn [d_rp]; fold (pos d); lia|]. split; [reflexivity|]. split; [reflexivity|]. apply emit_told. }
      right. destruct (is_finished (d_rp d)); [apply X; reflexivity|]. unfold advance.
      replace (rp_idx (d_rp d) + 1 <? length (r_snaps (rp_rec (d_rp d))))%nat with false by (symmetry; apply Nat.ltb_ge; fold (snaps d); fold (pos d); lia). cbn [negb]. apply X. reflexivity.
    - destruct (nth_error (snaps d) (S (pos d))) as [s|] eqn:Es; [|apply nth_error_None in Es; lia].
      replace (is_finished (d_rp d)) with false by (symmetry; apply Nat.leb_gt; fold (snaps d); fold (pos d); lia).
      assert (Ea : advance (d_rp d) = (mkReplayer (rp_rec (d_rp d)) (S (pos d)) (sn_tick s), true)).
      { unfold advance. replace (rp_idx (d_rp d) + 1 <? length (r_snaps (rp_rec (d_rp d))))%nat with true by (symmetry; apply Nat.ltb_lt; fold (snaps d); fold (pos d); lia).
        replace (rp_idx (d_rp d) + 1)%nat with (S (pos d)) by (unfold pos; lia). fold (snaps d). rewrite Es. reflexivity. }
      rewrite Ea. cbn [negb rp_tick rp_idx]. set (rp := mkReplayer (rp_rec (d_rp d)) (S (pos d)) (sn_tick s)). set (d1 := emit (EPos (sn_tick s) (S (pos d))) (with_rp rp d)).
      destruct (ew_frame d1) as (F1 & F2 & F3 & _ & _). set (d2 := fst (evaluate_watches d1)) in *. change (d_rp d1) with rp in F1. change (d_state d1) with (d_state d) in F2. change (d_bps d1) with (d_bps d) in F3.
      unfold check_bps. rewrite F1. unfold current. cbn [rp rp_rec rp_idx]. fold (snaps d). rewrite Es, F3. fold rp.
      destruct (find (fun b => triggers err b s (rp_tick (d_rp d))) (d_bps d)) as [b|] eqn:Eb.
      + left. exists (S (pos d)), b, s.
        set (d3 := emit (EHit (b_id b) (rp_tick rp)) (with_state Paused (with_bps (hit_all err s (rp_tick (d_rp d)) (d_bps d)) d2))).
        assert (E3 : run_on err fuel d3 = d3) by (destruct fuel; reflexivity). rewrite E3.
        apply find_split in Eb as (l1 & l2 & El & Et & Ef). assert (Ib : In b (d_bps d)) by (rewrite El; apply in_or_app; right; left; reflexivity).
        split; [apply (breaks_next d b s Es); auto|]. split; [exact Es|]. split; [intros k b' Hk (A & _); lia|]. split.
        { exists l1, l2. split; [exact El|]. intros b' Hb' X. apply (breaks_next d b' s Es) in X as [_ X]. rewrite (Ef b' Hb') in X. discriminate. }
        split; [exact F1|]. split; [reflexivity|]. split; [apply emit_told|]. intros i b0 Hi.
        exists (if triggers err b0 s (rp_tick (d_rp d)) then b_hits b0 + 1 else b_hits b0).
        change (d_bps d3) with (hit_all err s (rp_tick (d_rp d)) (d_bps d)). unfold hit_all. rewrite nth_error_map, Hi. cbn [option_map].
        assert (Ib0 : In b0 (d_bps d)) by (eapply nth_error_In; eauto). split; [destruct (triggers err b0 s (rp_tick (d_rp d))); [reflexivity|destruct b0; reflexivity]|].
        rewrite (breaks_next d b0 s Es). destruct (triggers err b0 s (rp_tick (d_rp d))); [split; [reflexivity|intros X; exfalso; apply X; auto]|].
        split; [intros [_ X]; discriminate|reflexivity].
      + rewrite hit_none by exact Eb. set (d3 := with_bps (d_bps d) d2).
        assert (R3 : rp_rec (d_rp d3) = rp_rec (d_rp d)) by (change (d_rp d3) with (d_rp d2); rewrite F1; reflexivity).
        assert (P3 : pos d3 = S (pos d)) by (unfold pos at 1; change (d_rp d3) with (d_rp d2); rewrite F1; reflexivity).
        assert (T3 : rp_tick (d_rp d3) = sn_tick s) by (change (d_rp d3) with (d_rp d2); rewrite F1; reflexivity).
        assert (S3 : snaps d3 = snaps d) by (unfold snaps; rewrite R3; reflexivity).
        assert (NB : forall b', ~ breaks err d (S (pos d)) b').
        { intros b' X. apply (breaks_next d b' s Es) in X as [X Y]. pose proof (find_none _ _ Eb b' X) as Z. cbn beta in Z. congruence. }
        pose proof (breaks_later d d3 s R3 eq_refl P3 Es T3) as BL.
        assert (St3 : d_state d3 = Running) by (change (d_state d3) with (d_state d2); congruence).
        destruct (IH d3 St3) as [(j & b & s' & (A & N & K & (l1 & l2 & El & Ef) & R & Sd & T & H))|(A & Sd & P & R & B & T)]; [rewrite S3, P3; lia| |].
        * left. exists j, b, s'. assert (Hj : (S (pos d) < j)%nat) by (destruct A as (A & _); rewrite P3 in A; exact A).
          split; [apply BL; assumption|]. split; [rewrite <- S3; exact N|]. split.
          { intros k b' Hk X. assert (k = S (pos d) \/ (S (pos d) < k)%nat) as [->|Hk'] by (destruct X as (X & _); lia); [eapply NB; eauto|]. apply BL in X; [|exact Hk']. eapply K; eauto. }
          split; [exists l1, l2; split; [exact El|]; intros b' Hb' X; apply BL in X; [|exact Hj]; eapply Ef; eauto|].
          split; [rewrite R; f_equal; exact R3|]. split; [exact Sd|]. split; [exact T|]. intros i b0 Hi. destruct (H i b0 Hi) as (n & H1 & H2 & H3). exists n. split; [exact H1|].
          split; intros X; [apply H2; apply BL; assumption|apply H3; intros Y; apply X; apply BL; assumption].
        * right. split.
          { intros j b X. assert (j = S (pos d) \/ (S (pos d) < j)%nat) as [->|Hj] by (destruct X as (X & _); lia); [eapply NB; eauto|]. apply BL in X; [|exact Hj]. eapply A; eauto. }
          split; [exact Sd|]. split; [rewrite P, P3, S3; lia|]. split; [rewrite R; exact R3|]. split; [exact B|exact T].
  Qed.
  Lemma continue_spec d : (exists j b s, stopped_at d (continue_execution err d) j b s) \/ ran_out d (continue_execution err d).
  Proof.
    unfold continue_execution. set (d1 := emit (EState (d_state d) Running) (with_state Running d)).
    apply (run_spec (S (length (r_snaps (rp_rec (d_rp d1))))) d1 eq_refl). unfold snaps. lia.
  Qed.
End Run.
(** ** Back and forth *)
Lemma change_state_frame s d : d_rp (change_state s d) = d_rp d /\ d_state (change_state s d) = s /\ d_bps (change_state s d) = d_bps d /\
  d_watches (change_state s d) = d_watches d /\ d_last (change_state s d) = d_last d /\ d_next (change_state s d) = d_next d.
Proof. unfold change_state. destruct (dstate_eqb (d_state d) s); repeat split. Qed.
Lemma forward_frame err d : let '(d', ok) := step_forward err d in
  d_rp d' = fst (advance (d_rp d)) /\ d_state d' = Paused /\ d_bps d' = d_bps d /\ ok = snd (advance (d_rp d)).
Proof.
  unfold step_forward, step_internal. destruct (change_state_frame StepForward d) as (A & _ & B & _). set (d0 := change_state StepForward d) in *. rewrite A.
  destruct (is_finished (d_rp d)) eqn:E.
  - apply Nat.leb_le in E. unfold advance. replace (rp_idx (d_rp d) + 1 <? length (r_snaps (rp_rec (d_rp d))))%nat with false by (symmetry; apply Nat.ltb_ge; lia).
    cbn [fst snd]. repeat split; assumption.
  - destruct (advance (d_rp d)) as [rp moved] eqn:Ea. destruct moved; cbn [negb fst snd].
    + destruct (ew_frame (emit (EPos (rp_tick rp) (rp_idx rp)) (with_rp rp d0))) as (F1 & _ & F3 & _). cbn [with_state d_rp d_state d_bps]. rewrite F1, F3. repeat split. exact B.
    + unfold advance in Ea. destruct (_ <? _)%nat; [discriminate|]. injection Ea as <-. repeat split; assumption.
Qed.
Lemma forward_spec err d : let '(d', ok) := step_forward err d in
  (ok = true <-> (S (pos d) < length (snaps d))%nat) /\
  (ok = true -> pos d' = S (pos d) /\ synced d' /\ rp_rec (d_rp d') = rp_rec (d_rp d)) /\ (ok = false -> d_rp d' = d_rp d).
Proof.
  pose proof (forward_frame err d) as F. destruct (step_forward err d) as [d' ok]. destruct F as (R & _ & _ & ->). unfold pos, snaps, synced. unfold advance in *.
  destruct (rp_idx (d_rp d) + 1 <? length (r_snaps (rp_rec (d_rp d))))%nat eqn:E; cbn [fst snd] in *; [apply Nat.ltb_lt in E|apply Nat.ltb_ge in E].
  - split; [split; [lia|reflexivity]|]. split; [|discriminate]. intros _. rewrite R. cbn [rp_idx rp_rec rp_tick]. split; [lia|]. split; [|reflexivity].
    unfold snaps, pos. rewrite R. cbn [rp_idx rp_rec rp_tick]. destruct (nth_error (r_snaps (rp_rec (d_rp d))) (rp_idx (d_rp d) + 1)) as [s|] eqn:Es; [|apply nth_error_None in Es; lia]. exists s. auto.
  - split; [split; [discriminate|lia]|]. split; [discriminate|]. intros _. exact R.
Qed.
Lemma prev_tick_some l : forall cur acc, (forall i j s t, (i < j)%nat -> nth_error l i = Some s -> nth_error l j = Some t -> sn_tick s < sn_tick t) ->
  forall k s, nth_error l k = Some s -> sn_tick s < cur -> (forall s', nth_error l (S k) = Some s' -> cur <= sn_tick s') -> prev_tick cur l acc = Some (sn_tick s).
Proof.
  induction l as [|x l IH]; intros cur acc I k s Hk Hs Hn; [destruct k; discriminate|]. cbn [prev_tick].
  assert (I' : forall i j s t, (i < j)%nat -> nth_error l i = Some s -> nth_error l j = Some t -> sn_tick s < sn_tick t) by (intros i j a b L; apply (I (S i) (S j)); lia).
  destruct k as [|k].
  - cbn in Hk. injection Hk as ->. replace (sn_tick s <? cur) with true by (symmetry; apply N.ltb_lt; exact Hs). destruct l as [|y l]; [reflexivity|].
    cbn [prev_tick]. specialize (Hn y eq_refl). replace (sn_tick y <? cur) with false by (symmetry; apply N.ltb_ge; exact Hn). reflexivity.
  - cbn in Hk. pose proof (I 0%nat (S k) x s ltac:(lia) eq_refl Hk) as Lt. replace (sn_tick x <? cur) with true by (symmetry; apply N.ltb_lt; lia). eapply IH; eauto.
Qed.
Lemma prev_tick_none l cur acc : (forall s, In s l -> cur <= sn_tick s) -> prev_tick cur l acc = acc.
Proof. destruct l as [|s l]; intros H; [reflexivity|]. cbn [prev_tick]. replace (sn_tick s <? cur) with false; [reflexivity|]. symmetry. apply N.ltb_ge, H. left. reflexivity. Qed.
Lemma seek_exact r k s : increasing r -> nth_error (r_snaps r) k = Some s -> seek_from 0 (r_snaps r) (sn_tick s) = Some (k, sn_tick s).
Proof.
  intros I H. destruct (seek_from 0 (r_snaps r) (sn_tick s)) as [[j t]|] eqn:E.
  - apply seek_some in E as (_ & s' & A & B & C & D). rewrite Nat.sub_0_r in *. destruct (Nat.lt_trichotomy j k) as [L|[L|L]].
    + pose proof (I j k s' s L A H). lia.
    + subst j. rewrite H in A. injection A as <-. subst t. reflexivity.
    + specialize (D k s L H). lia.
  - exfalso. eapply seek_exists; [eapply nth_error_In; exact H|apply N.le_refl|exact E].
Qed.
Lemma seek_to rp k s : increasing (rp_rec rp) -> nth_error (r_snaps (rp_rec rp)) k = Some s -> seek (sn_tick s) rp = (mkReplayer (rp_rec rp) k (sn_tick s), true).
Proof. intros I H. unfold seek. rewrite (seek_exact _ k s I H). reflexivity. Qed.
Lemma backward_rp d : d_rp (fst (step_backward d)) = match prev_tick (rp_tick (d_rp d)) (snaps d) None with Some t => fst (seek t (d_rp d)) | None => d_rp d end /\
  snd (step_backward d) = match prev_tick (rp_tick (d_rp d)) (snaps d) None with Some _ => true | None => false end.
Proof.
  unfold step_backward. destruct (change_state_frame StepBackward d) as (A & _). rewrite A. fold (snaps d). destruct (prev_tick (rp_tick (d_rp d)) (snaps d) None) as [t|]; [|split; [exact A|reflexivity]].
  cbn [fst snd]. split; [|reflexivity]. cbn [with_state d_rp emit]. destruct (ew_frame (with_rp (fst (seek t (d_rp d))) (change_state StepBackward d))) as (F & _). rewrite F. reflexivity.
Qed.
(** Where [step_backward] goes. *)
Lemma backward_spec d : increasing (rp_rec (d_rp d)) -> synced d ->
  match pos d with
  | O => snd (step_backward d) = false /\ d_rp (fst (step_backward d)) = d_rp d
  | S k => snd (step_backward d) = true /\ exists s, nth_error (snaps d) k = Some s /\ d_rp (fst (step_backward d)) = mkReplayer (rp_rec (d_rp d)) k (sn_tick s)
  end.
Proof.
  intros I (s & Hs & Ht). destruct (backward_rp d) as [R O]. rewrite R, O, Ht. destruct (pos d) as [|k] eqn:Ep.
  - rewrite prev_tick_none; [auto|]. intros x Hx. apply In_nth_error in Hx as (i & Hi). destruct i as [|i]; [rewrite Hs in Hi; injection Hi as <-; lia|]. apply N.lt_le_incl. apply (I 0%nat (S i) s x); auto. lia.
  - destruct (nth_error (snaps d) k) as [p|] eqn:Ek.
    2:{ apply nth_error_None in Ek. assert (S k < length (snaps d))%nat by (apply nth_error_Some; congruence). lia. }
    assert (Lt : sn_tick p < sn_tick s) by (apply (I k (S k) p s); auto).
    rewrite (prev_tick_some (snaps d) (sn_tick s) None I k p Ek Lt); [|intros s' Hs'; rewrite Hs in Hs'; injection Hs' as <-; lia].
    split; [reflexivity|]. exists p. split; [reflexivity|]. rewrite (seek_to _ k p I Ek). reflexivity.
Qed.
(** ** Sessions *)
Lemma restore_rp d : d_rp (create_debugger (session_of d)) = fst (seek (rp_tick (d_rp d)) (replayer_new (rp_rec (d_rp d)))).
Proof.
  unfold create_debugger, dbg_seek. cbn [session_of se_rec se_tick se_bps se_watches d_rp]. destruct (seek (rp_tick (d_rp d)) (replayer_new (rp_rec (d_rp d)))) as [rp found] eqn:E.
  destruct found; cbn [fst emit d_rp].
  - match goal with |- context [evaluate_watches ?x] => destruct (ew_frame x) as (F & _); rewrite F; reflexivity end.
  - unfold seek in E. destruct (seek_from _ _ _) as [[]|]; [discriminate|]. injection E as <-. reflexivity.
Qed.
Lemma restore_frame d : d_bps (create_debugger (session_of d)) = d_bps d /\ d_watches (create_debugger (session_of d)) = d_watches d /\
  d_next (create_debugger (session_of d)) = fold_left (fun n b => if n <=? b_id b then b_id b + 1 else n) (d_bps d) 1.
Proof.
  unfold create_debugger, dbg_seek. cbn [session_of se_rec se_tick se_bps se_watches d_rp]. destruct (seek (rp_tick (d_rp d)) (replayer_new (rp_rec (d_rp d)))) as [rp found].
  destruct found; cbn [fst emit d_bps d_watches d_next]; [|repeat split].
  match goal with |- context [evaluate_watches ?x] => destruct (ew_frame x) as (_ & _ & A & B & C); rewrite A, B, C; repeat split end.
Qed.
Lemma restore_pos d : increasing (rp_rec (d_rp d)) -> synced d \/ fresh d -> pos (create_debugger (session_of d)) = pos d /\ rp_rec (d_rp (create_debugger (session_of d))) = rp_rec (d_rp d).
Proof.
  intros I H. unfold pos. rewrite restore_rp. destruct H as [(s & Hs & Ht)|F].
  - rewrite Ht. rewrite (seek_to (replayer_new (rp_rec (d_rp d))) (pos d) s I Hs). split; reflexivity.
  - rewrite F. cbn [replayer_new rp_tick rp_rec rp_idx]. unfold seek. cbn [replayer_new rp_rec]. destruct (r_snaps (rp_rec (d_rp d))) as [|s l]; [split; reflexivity|]. cbn [seek_from].
    change (0 <=? sn_tick s) with (0 <=? sn_tick s). replace (0 <=? sn_tick s) with true by (symmetry; apply N.leb_le; lia). split; reflexivity.
Qed.
(** ** Numbers of breakpoints *)
Definition ids_ok (d : Dbg) : Prop := NoDup (map b_id (d_bps d)) /\ forall b, In b (d_bps d) -> b_id b < d_next d.
Lemma hit_ids err s prev l : map b_id (hit_all err s prev l) = map b_id l.
Proof. unfold hit_all. rewrite map_map. apply map_ext. intros b. destruct (triggers err b s prev); reflexivity. Qed.
Lemma ids_ok_map d bps : map b_id bps = map b_id (d_bps d) -> ids_ok d -> ids_ok (with_bps bps d).
Proof.
  intros E [A B]. split; cbn [with_bps d_bps d_next]; [rewrite E; exact A|]. intros b Hb. assert (H : In (b_id b) (map b_id (d_bps d))) by (rewrite <- E; apply in_map, Hb).
  apply in_map_iff in H as (b' & E' & H). rewrite <- E'. apply B, H.
Qed.
Definition same_bps (d d' : Dbg) : Prop := map b_id (d_bps d') = map b_id (d_bps d) /\ d_next d' = d_next d.
Lemma ids_ok_same d d' : same_bps d d' -> ids_ok d -> ids_ok d'.
Proof.
  intros [E N] [A B]. split; [rewrite E; exact A|]. intros b Hb. rewrite N. assert (H : In (b_id b) (map b_id (d_bps d))) by (rewrite <- E; apply in_map, Hb).
  apply in_map_iff in H as (b' & E' & H). rewrite <- E'. apply B, H.
Qed.
Lemma same_trans d1 d2 d3 : same_bps d1 d2 -> same_bps d2 d3 -> same_bps d1 d3.
Proof. intros [A B] [C D]. split; congruence. Qed.
Lemma same_ew d : same_bps d (fst (evaluate_watches d)).
Proof. destruct (ew_frame d) as (_ & _ & A & _ & B). split; [rewrite A; reflexivity|exact B]. Qed.
Lemma same_check err prev d : same_bps d (check_bps err prev d).
Proof. unfold check_bps. destruct (current (d_rp d)) as [s|]; [|split; reflexivity]. destruct (find _ _); split; cbn; try reflexivity; apply hit_ids. Qed.
Lemma same_step err check d : same_bps d (fst (step_internal err check d)).
Proof.
  unfold step_internal. destruct (is_finished (d_rp d)); [split; reflexivity|]. destruct (advance (d_rp d)) as [rp moved]. destruct moved; cbn [negb fst]; [|split; reflexivity].
  set (d1 := emit (EPos (rp_tick rp) (rp_idx rp)) (with_rp rp d)). assert (X : same_bps d d1) by (split; reflexivity). pose proof (same_trans _ _ _ X (same_ew d1)) as Y.
  destruct check; [|exact Y]. eapply same_trans; [exact Y|apply same_check].
Qed.
Lemma same_run err fuel : forall d, same_bps d (run_on err fuel d).
Proof.
  induction fuel as [|k IH]; intros d; cbn [run_on]; [split; reflexivity|]. destruct (dstate_eqb (d_state d) Running); [|split; reflexivity].
  pose proof (same_step err true d) as X. destruct (step_internal err true d) as [d' go]. cbn [fst] in X. destruct go; [|exact X]. eapply same_trans; [exact X|apply IH].
Qed.
Lemma same_change s d : same_bps d (change_state s d).
Proof. destruct (change_state_frame s d) as (_ & _ & A & _ & _ & B). split; [rewrite A; reflexivity|exact B]. Qed.
Lemma same_forward err d : same_bps d (fst (step_forward err d)).
Proof.
  unfold step_forward. pose proof (same_step err false (change_state StepForward d)) as X. destruct (step_internal err false (change_state StepForward d)) as [d' ok]. cbn [fst] in *.
  eapply same_trans; [apply same_change|]. eapply same_trans; [exact X|]. split; reflexivity.
Qed.
Lemma same_backward d : same_bps d (fst (step_backward d)).
Proof.
  unfold step_backward. destruct (prev_tick _ _ _) as [t|]; cbn [fst].
  - eapply same_trans; [apply (same_change StepBackward)|]. set (d1 := change_state StepBackward d). eapply same_trans; [|split; reflexivity].
    eapply same_trans; [|apply same_ew]. split; reflexivity.
  - eapply same_trans; [apply (same_change StepBackward)|]. split; reflexivity.
Qed.
Lemma same_seek t d : same_bps d (fst (dbg_seek t d)).
Proof.
  unfold dbg_seek. destruct (seek t (d_rp d)) as [rp found]. destruct found; cbn [fst]; [|split; reflexivity]. eapply same_trans; [|split; reflexivity]. eapply same_trans; [|apply same_ew]. split; reflexivity.
Qed.
Lemma next_fold l : forall n, n <= fold_left (fun n b => if n <=? b_id b then b_id b + 1 else n) l n /\
  forall b, In b l -> b_id b < fold_left (fun n b => if n <=? b_id b then b_id b + 1 else n) l n.
Proof.
  induction l as [|a l IH]; intros n; cbn [fold_left]; [split; [lia|intros b []]|]. destruct (IH (if n <=? b_id a then b_id a + 1 else n)) as [A B].
  destruct (n <=? b_id a) eqn:E; [apply N.leb_le in E|apply N.leb_gt in E]; (split; [lia|]); intros b [<-|Hb]; auto; lia.
Qed.
Lemma remove_first_In {A} (f : A -> bool) l x : In x (remove_first f l) -> In x l.
Proof. induction l as [|a l IH]; cbn [remove_first]; [auto|]. destruct (f a); [right; assumption|]. intros [<-|H]; [left; reflexivity|right; auto]. Qed.
Lemma remove_first_NoDup {A B} (g : A -> B) (f : A -> bool) l : NoDup (map g l) -> NoDup (map g (remove_first f l)).
Proof.
  induction l as [|a l IH]; cbn [remove_first map]; intros N; [constructor|]. inversion N as [|? ? N1 N2]; subst. destruct (f a); [exact N2|]. cbn [map]. constructor; [|auto].
  intros X. apply N1. apply in_map_iff in X as (y & E & Y). rewrite <- E. apply in_map. eapply remove_first_In; eauto.
Qed.
Lemma set_first_ids id on l : map b_id (set_first id on l) = map b_id l.
Proof. induction l as [|b l IH]; cbn [set_first map]; [reflexivity|]. destruct (b_id b =? id); cbn [map b_id]; [reflexivity|rewrite IH; reflexivity]. Qed.
Lemma NoDup_snoc {A} (l : list A) x : NoDup l -> ~ In x l -> NoDup (l ++ [x]).
Proof. intros N H. induction N as [|a l Ha N IH]; cbn [app]; [repeat constructor; intros []|]. constructor; [intros X; apply in_app_or in X as [X|[->|[]]]; [contradiction|apply H; left; reflexivity]|apply IH; intros X; apply H; right; exact X]. Qed.
Lemma ids_step err d o : ids_ok d -> ids_ok (dop_do err d o).
Proof.
  intros H. destruct o as [c|id|id on| |w|id| | | | | |t| |]; cbn [dop_do].
  - destruct H as [A B]. split; cbn [add_breakpoint fst d_bps d_next].
    + rewrite map_app. cbn [map b_id]. apply NoDup_snoc; [exact A|]. intros X. apply in_map_iff in X as (b & E & X). apply B in X. lia.
    + intros b Hb. apply in_app_or in Hb as [Hb|[<-|[]]]; [apply B in Hb; lia|cbn; lia].
  - destruct H as [A B]. split; cbn [remove_breakpoint with_bps d_bps d_next]; [apply remove_first_NoDup, A|]. intros b Hb. apply B. eapply remove_first_In; eauto.
  - apply ids_ok_map; [apply set_first_ids|exact H].
  - split; cbn; [constructor|intros b []].
  - destruct H as [A B]. split; assumption.
  - unfold remove_watch. destruct (existsb _ _); [|exact H]. destruct H as [A B]. split; assumption.
  - eapply ids_ok_same; [|exact H]. unfold continue_execution. eapply same_trans; [|apply same_run]. split; reflexivity.
  - eapply ids_ok_same; [apply same_forward|exact H].
  - eapply ids_ok_same; [apply same_backward|exact H].
  - eapply ids_ok_same; [apply same_change|exact H].
  - eapply ids_ok_same; [apply same_change|exact H].
  - eapply ids_ok_same; [apply same_seek|exact H].
  - eapply ids_ok_same; [|exact H]. split; reflexivity.
  - destruct (restore_frame d) as (A & _ & N). destruct H as [H _]. split; [rewrite A; exact H|]. rewrite A, N. apply (next_fold (d_bps d) 1).
Qed.
Lemma ids_run err ops : forall d, ids_ok d -> ids_ok (fold_left (dop_do err) ops d).
Proof. induction ops as [|o ops IH]; intros d H; cbn [fold_left]; [exact H|]. apply IH, ids_step, H. Qed.
(** ** The history *)
Lemma newest_all {A} n (l : list A) : (length l <= n)%nat -> newest n l = l.
Proof. intros H. destruct n; [reflexivity|]. unfold newest. replace (length l - S n)%nat with 0%nat by lia. reflexivity. Qed.
Lemma newest_length {A} n (l : list A) : (0 < n)%nat -> (length (newest n l) <= n)%nat.
Proof. intros H. destruct n; [lia|]. unfold newest. rewrite skipn_length. lia. Qed.
Lemma newest_app {A} n (l m : list A) : (0 < n)%nat -> newest n (newest n l ++ m) = newest n (l ++ m).
Proof.
  intros H. induction m as [|x m IH] using rev_ind; [rewrite !app_nil_r; apply newest_all, newest_length, H|].
  rewrite !app_assoc. rewrite newest_snoc by exact H. rewrite IH. symmetry. apply newest_snoc, H.
Qed.
Lemma max_pos : (0 < MAX_EVENTS)%nat.
Proof. unfold MAX_EVENTS. lia. Qed.
Definition grown (d d' : Dbg) : Prop :=
  (length (d_events d) <= MAX_EVENTS)%nat -> (length (d_events d') <= MAX_EVENTS)%nat /\ exists new, d_events d' = newest MAX_EVENTS (d_events d ++ new).
Lemma grown_same d d' : d_events d' = d_events d -> grown d d'.
Proof. intros E H. rewrite E. split; [exact H|]. exists []. rewrite app_nil_r. symmetry. apply newest_all, H. Qed.
Lemma grown_trans d1 d2 d3 : grown d1 d2 -> grown d2 d3 -> grown d1 d3.
Proof.
  intros A B H. destruct (A H) as [H2 [n2 E2]]. destruct (B H2) as [H3 [n3 E3]]. split; [exact H3|]. exists (n2 ++ n3). rewrite E3, E2. rewrite newest_app by apply max_pos. rewrite app_assoc. reflexivity.
Qed.
Lemma tl_skipn {A} (l : list A) : tl l = skipn 1 l.
Proof. destruct l; reflexivity. Qed.
Lemma grown_emit e d : grown d (emit e d).
Proof.
  intros H. assert (E : d_events (emit e d) = newest MAX_EVENTS (d_events d ++ [e])).
  { cbn [emit d_events]. destruct (MAX_EVENTS <? length (d_events d ++ [e]))%nat eqn:E.
    - apply Nat.ltb_lt in E. rewrite tl_skipn. unfold newest. pose proof max_pos as M. destruct MAX_EVENTS as [|m]; [lia|]. f_equal. rewrite app_length in *. cbn [length] in *. lia.
    - apply Nat.ltb_ge in E. symmetry. apply newest_all, E. }
  rewrite E. split; [apply newest_length, max_pos|]. exists [e]. reflexivity.
Qed.
Lemma grown_emits es : forall d, grown d (fold_left (fun d e => emit e d) es d).
Proof. induction es as [|e es IH]; intros d; cbn [fold_left]; [apply grown_same; reflexivity|]. eapply grown_trans; [apply grown_emit|apply IH]. Qed.
Lemma grown_ew d : grown d (fst (evaluate_watches d)).
Proof.
  unfold evaluate_watches. destruct (current (d_rp d)) as [s|]; [|apply grown_same; reflexivity]. destruct (watch_pass s (d_watches d) (d_last d)) as [[last es] vs]. cbn [fst].
  eapply grown_trans; [|apply grown_emits]. apply grown_same. reflexivity.
Qed.
Lemma grown_check err prev d : grown d (check_bps err prev d).
Proof.
  unfold check_bps. destruct (current (d_rp d)) as [s|]; [|apply grown_same; reflexivity]. destruct (find _ _); [|apply grown_same; reflexivity]. eapply grown_trans; [|apply grown_emit]. apply grown_same. reflexivity.
Qed.
Lemma grown_step err check d : grown d (fst (step_internal err check d)).
Proof.
  assert (X : grown d (emit (EFinished (rp_tick (d_rp d))) (with_state Stopped d))) by (eapply grown_trans; [|apply grown_emit]; apply grown_same; reflexivity).
  unfold step_internal. destruct (is_finished (d_rp d)); [exact X|]. destruct (advance (d_rp d)) as [rp moved]. destruct moved; cbn [negb fst]; [|exact X].
  set (d1 := emit (EPos (rp_tick rp) (rp_idx rp)) (with_rp rp d)).
  assert (Y : grown d (fst (evaluate_watches d1))) by (eapply grown_trans; [|apply grown_ew]; eapply grown_trans; [|apply grown_emit]; apply grown_same; reflexivity).
  destruct check; [|exact Y]. eapply grown_trans; [exact Y|apply grown_check].
Qed.
Lemma grown_run err fuel : forall d, grown d (run_on err fuel d).
Proof.
  induction fuel as [|k IH]; intros d; cbn [run_on]; [apply grown_same; reflexivity|]. destruct (dstate_eqb (d_state d) Running); [|apply grown_same; reflexivity].
  pose proof (grown_step err true d) as X. destruct (step_internal err true d) as [d' go]. cbn [fst] in X. destruct go; [|exact X]. eapply grown_trans; [exact X|apply IH].
Qed.
Lemma grown_change s d : grown d (change_state s d).
Proof. unfold change_state. destruct (dstate_eqb (d_state d) s); [apply grown_same; reflexivity|]. eapply grown_trans; [|apply grown_emit]. apply grown_same. reflexivity. Qed.
Lemma grown_dop err d o : o <> DRestore -> grown d (dop_do err d o).
Proof.
  intros Ho. destruct o as [c|id|id on| |w|id| | | | | |t| |]; cbn [dop_do]; try (apply grown_same; reflexivity); try contradiction.
  - apply grown_same. unfold remove_watch. destruct (existsb _ _); reflexivity.
  - unfold continue_execution. eapply grown_trans; [|apply grown_run]. eapply grown_trans; [|apply grown_emit]. apply grown_same. reflexivity.
  - unfold step_forward. pose proof (grown_step err false (change_state StepForward d)) as X. destruct (step_internal err false (change_state StepForward d)) as [d' ok]. cbn [fst] in *.
    eapply grown_trans; [apply grown_change|]. eapply grown_trans; [exact X|]. apply grown_same. reflexivity.
  - unfold step_backward. eapply grown_trans; [apply (grown_change StepBackward)|]. set (d1 := change_state StepBackward d). destruct (prev_tick _ _ _) as [t|]; cbn [fst]; [|apply grown_same; reflexivity].
    set (d2 := fst (evaluate_watches (with_rp (fst (seek t (d_rp d1))) d1))). eapply grown_trans with (d2 := d2); [eapply grown_trans; [|apply grown_ew]; apply grown_same; reflexivity|].
    eapply grown_trans; [apply grown_emit|]. apply grown_same. reflexivity.
  - apply grown_change.
  - apply grown_change.
  - unfold dbg_seek. destruct (seek t (d_rp d)) as [rp found]. destruct found; cbn [fst]; [|apply grown_same; reflexivity]. eapply grown_trans; [|apply grown_emit].
    eapply grown_trans; [|apply grown_ew]. apply grown_same. reflexivity.
  - unfold dbg_reset. eapply grown_trans; [|apply grown_emit]. apply grown_same. reflexivity.
Qed.
Lemma restore_events d : (length (d_events (create_debugger (session_of d))) <= MAX_EVENTS)%nat.
Proof.
  unfold create_debugger. set (d0 := mkDbg _ _ _ _ _ _ _). assert (G : grown d0 (fst (dbg_seek (se_tick (session_of d)) d0))).
  { unfold dbg_seek. destruct (seek _ (d_rp d0)) as [rp found]. destruct found; cbn [fst]; [|apply grown_same; reflexivity]. eapply grown_trans; [|apply grown_emit].
    eapply grown_trans; [|apply grown_ew]. apply grown_same. reflexivity. }
  apply G. cbn. pose proof max_pos. lia.
Qed.
Lemma history_run err ops : forall d, (length (d_events d) <= MAX_EVENTS)%nat -> (length (d_events (fold_left (dop_do err) ops d)) <= MAX_EVENTS)%nat.
Proof.
  induction ops as [|o ops IH]; intros d H; cbn [fold_left]; [exact H|]. apply IH. destruct o; try (apply (grown_dop err d); [discriminate|exact H]). apply restore_events.
Qed.
(** ** Watches *)
Lemma watch_pass_spec s ws : forall last, NoDup (map w_id ws) ->
  let '(last', es, vs) := watch_pass s ws last in
  vs = flat_map (fun w => match evaluate w s with Some v => [(w_id w, v)] | None => [] end) ws /\
  es = flat_map (fun w => match evaluate w s with
                          | Some v => match lookup beqb (w_id w) last with Some o => if beqb o v then [] else [EWatch (w_id w) (Some o) v] | None => [EWatch (w_id w) None v] end
                          | None => []
                          end) ws /\
  (forall w, In w ws -> lookup beqb (w_id w) last' = match evaluate w s with Some v => Some v | None => lookup beqb (w_id w) last end) /\
  (forall id, ~ In id (map w_id ws) -> lookup beqb id last' = lookup beqb id last).
Proof.
  induction ws as [|w ws IH]; intros last N; cbn [watch_pass flat_map].
  - repeat split; auto. intros w [].
  - inversion N as [|? ? N1 N2]; subst. destruct (evaluate w s) as [v|] eqn:Ev.
    + specialize (IH (insert beqb (w_id w) v last) N2). destruct (watch_pass s ws (insert beqb (w_id w) v last)) as [[last' es] vs]. destruct IH as (A & B & C & D). split; [cbn [app]; f_equal; exact A|].
      split; [|split].
      * f_equal; [destruct (lookup beqb (w_id w) last); reflexivity|]. rewrite B. clear - N1. induction ws as [|x ws IH]; cbn [flat_map]; [reflexivity|]. cbn [map In] in N1. f_equal; [|apply IH; tauto].
        rewrite lookup_insert_neq; [reflexivity|apply beqb_spec|]. intros E. apply N1. left. exact E.
      * intros x [<-|Hx].
        -- rewrite Ev. rewrite D by exact N1. apply lookup_insert_eq. apply beqb_spec.
        -- rewrite (C x Hx). rewrite lookup_insert_neq; [reflexivity|apply beqb_spec|]. intros E. apply N1. rewrite <- E. apply in_map, Hx.
      * intros id Hid. cbn [map In] in Hid. rewrite D by tauto. apply lookup_insert_neq; [apply beqb_spec|]. intros E. apply Hid. left. congruence.
    + specialize (IH last N2). destruct (watch_pass s ws last) as [[last' es] vs]. destruct IH as (A & B & C & D). split; [exact A|]. split; [exact B|]. split.
      * intros x [<-|Hx]; [rewrite Ev; apply D, N1|apply C, Hx].
      * intros id Hid. apply D. cbn [map In] in Hid. tauto.
Qed.
Lemma emits_newest es : forall d, (length (d_events d) <= MAX_EVENTS)%nat -> d_events (fold_left (fun d e => emit e d) es d) = newest MAX_EVENTS (d_events d ++ es).
Proof.
  induction es as [|e es IH]; intros d H; cbn [fold_left]; [rewrite app_nil_r; symmetry; apply newest_all, H|].
  destruct (grown_emit e d H) as [L _]. rewrite IH by exact L.
  assert (E : d_events (emit e d) = newest MAX_EVENTS (d_events d ++ [e])).
  { cbn [emit d_events]. destruct (MAX_EVENTS <? length (d_events d ++ [e]))%nat eqn:E.
    - apply Nat.ltb_lt in E. rewrite tl_skipn. unfold newest. pose proof max_pos as M. destruct MAX_EVENTS as [|m]; [lia|]. f_equal. rewrite app_length in *. cbn [length] in *. lia.
    - apply Nat.ltb_ge in E. symmetry. apply newest_all, E. }
  rewrite E, newest_app by apply max_pos. rewrite <- app_assoc. reflexivity.
Qed.
