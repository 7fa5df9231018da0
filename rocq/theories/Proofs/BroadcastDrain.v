(** A subscriber that polls while nobody publishes catches up. *)
From Verif.Base Require Import Prelude.
From Verif.Model Require Import RingMem Broadcast.
From Verif.Spec Require Import BroadcastSpec.
From Verif.Proofs Require Import RingMemProofs BroadcastProofs.
Local Open Scope N_scope.

Section Drain.
  Variables (k : N) (W : nat) (c : nat).
  Notation cap := (cap k).
  Notation slot := (slot k).

  Definition snext (mem : smem) (t : rst) : rst := snd (fst (sub_step k W c mem t)).
  Fixpoint siter (mem : smem) (n : nat) (t : rst) : rst :=
    match n with O => t | S n => siter mem n (snext mem t) end.
  Lemma siter_add mem a b t : siter mem (a + b) t = siter mem b (siter mem a t).
  Proof. revert t; induction a as [|a IH]; intros t; cbn; auto. Qed.

  Lemma after_head_not_joining h t x y z : ~ joining (RSt (after_head k h t) x y z).
  Proof. unfold after_head, joining; cbn. destruct (_ <? _); auto. Qed.

  Lemma sub_keeps mem t : ~ joining t ->
    fst (fst (sub_step k W c mem t)) = mem /\ ~ joining (snext mem t).
  Proof.
    intros HD. unfold snext, sub_step. destruct t as [pc h tl mi]. cbn [r_pc r_head r_tail r_missed].
    destruct pc; cbn in HD; try tauto.
    - destruct (_ =? _); cbn; split; auto. apply after_head_not_joining.
    - destruct (_ =? _); cbn; split; auto. apply after_head_not_joining.
    - destruct (_ && _); cbn; split; auto.
    - destruct (st_writing _); cbn; [auto|]. destruct (_ <? _); cbn; [auto|].
      destruct (_ <? _); cbn; [auto|]. split; auto. destruct (W =? 0)%nat; cbn; auto.
    - cbn. split; auto. destruct (_ =? _)%nat; cbn; auto.
    - destruct (_ && _); cbn; auto.
  Qed.

  Lemma run_alone n : forall s, ~ joining (b_sub s c) ->
    b_sub (fst (b_run k W s (repeat (ASub c) n))) c = siter (b_mem s) n (b_sub s c) /\
    b_mem (fst (b_run k W s (repeat (ASub c) n))) = b_mem s.
  Proof.
    induction n as [|n IH]; intros s HD; auto. cbn [repeat b_run b_step siter].
    destruct (sub_keeps (b_mem s) _ HD) as (A & B). unfold snext in *.
    destruct (sub_step k W c (b_mem s) (b_sub s c)) as [[mem t] ev]. cbn [fst snd] in *. subst mem.
    specialize (IH (BSys (b_mem s) (b_pub s) (updn (b_sub s) c t))). cbn [b_sub b_mem] in IH.
    rewrite updn_eq in IH. specialize (IH B).
    destruct (b_run k W _ (repeat (ASub c) n)) as [s2 e2]. cbn [fst] in *. auto.
  Qed.

  Section Quiet.
    Variable mem : smem.
    Notation HD := (sm_head mem).
    Hypothesis Q : forall q, q < HD -> HD <= q + cap -> sm_ready mem (slot q) = Stamp false (q + 1).

    Lemma old_stamp t : t + cap < HD -> exists q, t < q /\ sm_ready mem (slot t) = Stamp false (q + 1).
    Proof.
      intros Ht. pose proof (cap_pos k). set (x := (HD - 1 - t) mod cap).
      assert (x < cap) by (apply N.mod_lt; lia).
      pose proof (N.div_mod (HD - 1 - t) cap ltac:(lia)) as E. fold x in E.
      set (j := (HD - 1 - t) / cap) in *.
      assert (Hq : HD - 1 - x = t + j * cap) by lia.
      exists (HD - 1 - x). split.
      - assert (j <> 0) by (intros ->; lia). nia.
      - rewrite <- (Q (HD - 1 - x)) by lia. f_equal. rewrite Hq, !slot_mod. symmetry. apply N.mod_add. lia.
    Qed.

    Definition caught (t : rst) : Prop :=
      exists n, r_tail (siter mem n t) = HD /\
        (r_missed (siter mem n t) = r_missed t \/
         r_missed (siter mem n t) + (cap - cap / 2) <= r_missed t + (HD - r_tail t)).

    Lemma caught_via n t : let u := siter mem n t in
      r_tail t <= r_tail u -> r_missed u = r_missed t -> caught u -> caught t.
    Proof.
      intros u H1 H2 (n2 & A & B). exists (n + n2)%nat. rewrite siter_add. fold u. split; auto.
      rewrite H2 in B. destruct B as [B|B]; [left; auto|right]. lia.
    Qed.

    Lemma read_all h tl mi acc : (length acc < W)%nat ->
      exists n a', siter mem n (RSt (RRead acc) h tl mi) = RSt (RCheck a') h tl mi.
    Proof.
      remember (W - length acc)%nat as d eqn:Ed. revert acc Ed. induction d as [|d IH]; intros acc Ed Hl; [lia|].
      set (a' := acc ++ [nth (length acc) (sm_data mem (slot tl)) 0]).
      assert (length a' = S (length acc)) by (unfold a'; rewrite app_length; cbn; lia).
      destruct (Nat.eqb_spec (length a') W) as [e|e].
      - exists 1%nat, a'. cbn. unfold snext, sub_step. cbn. fold a'. apply Nat.eqb_eq in e. rewrite e. auto.
      - destruct (IH a') as (n & a2 & E); [lia|lia|]. exists (S n), a2. cbn. unfold snext, sub_step. cbn. fold a'.
        apply Nat.eqb_neq in e. rewrite e. auto.
    Qed.

    (** One whole poll takes the next message when the ring still holds it. *)
    Lemma ready_takes h tl mi : tl < h -> h <= HD -> HD <= tl + cap ->
      exists n, siter mem n (RSt RReady h tl mi) = RSt RIdle h (tl + 1) mi.
    Proof.
      intros H1 H2 H3. pose proof (Q tl ltac:(lia) H3) as E.
      assert (E1 : snext mem (RSt RReady h tl mi) = RSt (if (W =? 0)%nat then RCheck [] else RRead []) h tl mi).
      { unfold snext, sub_step. cbn. rewrite E. cbn. rewrite N.ltb_irrefl. auto. }
      assert (Hr : exists n a', siter mem n (RSt (if (W =? 0)%nat then RCheck [] else RRead []) h tl mi) = RSt (RCheck a') h tl mi).
      { destruct (Nat.eqb_spec W 0) as [e|e]; [exists 0%nat, []; auto|]. apply read_all. cbn. lia. }
      destruct Hr as (n & a' & En). exists (1 + (n + 1))%nat.
      rewrite siter_add. cbn [siter]. rewrite E1, siter_add, En. cbn. unfold snext, sub_step. cbn.
      rewrite E. cbn. rewrite N.eqb_refl. auto.
    Qed.

    Lemma idle_takes h tl mi : tl < HD -> HD <= tl + cap -> tl <= h -> h <= HD ->
      exists n h', siter mem n (RSt RIdle h tl mi) = RSt RIdle h' (tl + 1) mi /\ tl + 1 <= h' /\ h' <= HD.
    Proof.
      intros H1 H2 H3 H4. destruct (wsub h tl =? 0) eqn:E.
      - destruct (ready_takes HD tl mi) as (n & En); try lia. exists (2 + n)%nat, HD. split; [|lia].
        rewrite siter_add. cbn [siter]. unfold snext at 2, sub_step at 1. cbn. rewrite E. cbn.
        unfold snext, sub_step. cbn. rewrite (wsub_ge HD tl) by lia.
        destruct (N.eqb_spec (HD - tl) 0); [lia|]. cbn.
        unfold after_head. rewrite (wsub_ge HD tl) by lia. destruct (N.ltb_spec cap (HD - tl)); [lia|]. auto.
      - apply wsub_nonzero in E as E'; auto. destruct (ready_takes h tl mi) as (n & En); try lia.
        exists (1 + n)%nat, h. split; [|lia]. rewrite siter_add. cbn [siter]. unfold snext, sub_step. cbn. rewrite E. cbn.
        unfold after_head. rewrite (wsub_ge h tl) by lia. destruct (N.ltb_spec cap (h - tl)); [lia|]. auto.
    Qed.

    Lemma drain_near d : forall h tl mi, (N.to_nat (HD - tl) <= d)%nat -> HD <= tl + cap -> tl <= h -> h <= HD ->
      exists n h', siter mem n (RSt RIdle h tl mi) = RSt RIdle h' HD mi.
    Proof.
      induction d as [|d IH]; intros h tl mi Hd H2 H3 H4.
      - exists 0%nat, h. cbn. f_equal. lia.
      - destruct (N.eq_dec tl HD) as [->|Hn]; [exists 0%nat, h; auto|].
        destruct (idle_takes h tl mi) as (n & h' & E & A & B); try lia.
        destruct (IH h' (tl + 1) mi) as (n2 & h2 & E2); try lia.
        exists (n + n2)%nat, h2. rewrite siter_add, E. auto.
    Qed.

    Lemma near_caught h tl mi : HD <= tl + cap -> tl <= h -> h <= HD -> caught (RSt RIdle h tl mi).
    Proof.
      intros. destruct (drain_near _ h tl mi (le_n _)) as (n & h' & E); auto.
      exists n. rewrite E. cbn. auto.
    Qed.

    Lemma half_le : cap / 2 <= cap.
    Proof. pose proof (cap_pos k). apply N.div_le_upper_bound; lia. Qed.

    Lemma resume_caught h tl mi : tl <= h -> h <= HD -> caught (RSt RResume h tl mi).
    Proof.
      intros H1 H2. pose proof half_le as Hh. pose proof (cap_pos k).
      destruct ((cap <? HD) && (tl <? HD - cap + cap / 2)) eqn:E.
      - bool_prop. destruct (near_caught HD (HD - cap + cap / 2) (mi + (HD - cap + cap / 2 - tl))) as (n & A & B); try lia.
        exists (1 + n)%nat. rewrite siter_add. cbn [siter]. unfold snext, sub_step. cbn.
        assert (E : (cap <? HD) && (tl <? HD - cap + cap / 2) = true)
          by (apply andb_true_intro; split; apply N.ltb_lt; lia).
        rewrite E. split; auto. cbn in *. right. destruct B as [B|B]; lia.
      - assert (tl + cap >= HD).
        { apply Bool.andb_false_iff in E as [E|E]; apply N.ltb_ge in E; lia. }
        apply (caught_via 1); cbn; unfold snext, sub_step; cbn; rewrite E; cbn; auto; [lia|].
        apply near_caught; lia.
    Qed.

    Lemma ready_caught h tl mi : tl < h -> h <= HD -> caught (RSt RReady h tl mi).
    Proof.
      intros H1 H2. destruct (N.le_gt_cases HD (tl + cap)) as [Hc|Hc].
      - destruct (ready_takes h tl mi) as (n & E); auto. apply (caught_via n); rewrite E; cbn; auto; [lia|].
        apply near_caught; lia.
      - destruct (old_stamp tl Hc) as (q & Hq & Eq).
        assert (E : snext mem (RSt RReady h tl mi) = RSt RResume h tl mi).
        { unfold snext, sub_step. cbn. rewrite Eq. cbn. destruct (N.ltb_spec (q + 1) (tl + 1)); [lia|].
          destruct (N.ltb_spec (tl + 1) (q + 1)); [auto|lia]. }
        apply (caught_via 1); cbn [siter]; rewrite E; cbn; auto; [lia|]. apply resume_caught; lia.
    Qed.

    Lemma after_caught h tl mi : tl < h -> h <= HD -> caught (RSt (after_head k h tl) h tl mi).
    Proof.
      intros. unfold after_head. destruct (_ <? _); [apply resume_caught; lia|apply ready_caught; auto].
    Qed.

    Lemma head_caught h tl mi : tl <= h -> h <= HD -> caught (RSt RHead h tl mi).
    Proof.
      intros. destruct (N.eq_dec tl HD) as [->|Hn].
      - exists 0%nat. cbn. auto.
      - apply (caught_via 1); cbn; unfold snext, sub_step; cbn; rewrite (wsub_ge HD tl) by lia;
          destruct (N.eqb_spec (HD - tl) 0); try lia; cbn; try lia; auto.
        apply after_caught; lia.
    Qed.

    Lemma idle_caught h tl mi : tl <= h -> h <= HD -> caught (RSt RIdle h tl mi).
    Proof.
      intros. destruct (wsub h tl =? 0) eqn:E.
      - apply (caught_via 1); cbn; unfold snext, sub_step; cbn; rewrite E; cbn; auto; [lia|]. apply head_caught; auto.
      - apply wsub_nonzero in E as E'; auto.
        apply (caught_via 1); cbn; unfold snext, sub_step; cbn; rewrite E; cbn; auto; [lia|]. apply after_caught; auto.
    Qed.

    Definition placed (t : rst) : Prop :=
      r_tail t <= r_head t /\ r_head t <= HD /\
      match r_pc t with RReady | RRead _ | RCheck _ => r_tail t < r_head t | _ => True end.

    Lemma all_caught t : ~ joining t -> placed t ->
      match r_pc t with RRead acc => (length acc < W)%nat | _ => True end -> caught t.
    Proof.
      intros Hj (H1 & H2 & H3) Hl. destruct t as [pc h tl mi]. cbn [r_pc r_head r_tail] in *.
      assert (Hchk : forall a, tl < h -> caught (RSt (RCheck a) h tl mi)).
      { intros a Ha. destruct (negb (st_writing (sm_ready mem (slot tl))) && (st_num (sm_ready mem (slot tl)) =? tl + 1)) eqn:E.
        - apply (caught_via 1); cbn; unfold snext, sub_step; cbn; rewrite E; cbn; auto; [lia|]. apply idle_caught; lia.
        - apply (caught_via 1); cbn; unfold snext, sub_step; cbn; rewrite E; cbn; auto; [lia|]. apply idle_caught; lia. }
      destruct pc; cbn in Hj; try tauto.
      - apply idle_caught; auto.
      - apply head_caught; auto.
      - apply resume_caught; auto.
      - apply ready_caught; auto.
      - destruct (read_all h tl mi acc Hl) as (n & a' & E). apply (caught_via n); rewrite E; cbn; auto; lia.
      - auto.
    Qed.
  End Quiet.
End Drain.

Section Placed.
  Variables (k : N) (W : nat).
  Notation cap := (cap k).

  (** Where a subscriber is, relative to head [H]. *)
  Definition where_ok (mem : smem) (j : option N) (t : rst) : Prop :=
    match j with
    | None => match r_pc t with
              | RNew => True
              | RJoinTail h => h <= sm_head mem
              | RJoinMax h tl => h <= sm_head mem /\ (tl <= h \/ 2 ^ 64 - cap <= tl)
              | _ => False
              end
    | Some pos => ~ joining t /\ (2 ^ 64 - cap <= pos \/ placed mem t)
    end.

  Lemma where_mono mem mem' j t : sm_head mem <= sm_head mem' -> where_ok mem j t -> where_ok mem' j t.
  Proof.
    intros Hle. unfold where_ok, placed. destruct j as [pos|].
    - intros (A & [B|(B & C & D)]); split; auto. right. repeat split; auto. lia.
    - destruct (r_pc t); auto; lia.
  Qed.

  Lemma pub_head p arg mem pc : sm_head mem <= sm_head (fst (fst (pub_step k W p arg mem pc))).
  Proof.
    unfold pub_step. destruct pc; cbn; try lia. destruct (_ =? _)%nat; cbn; lia.
  Qed.
  Lemma sub_head c mem t : sm_head (fst (fst (sub_step k W c mem t))) = sm_head mem.
  Proof.
    unfold sub_step. destruct (r_pc t); cbn; auto;
      repeat match goal with |- context [if ?b then _ else _] => destruct b end; auto.
  Qed.

  Lemma after_placed mem h tl mi : tl < h -> h <= sm_head mem -> placed mem (RSt (after_head k h tl) h tl mi).
  Proof. intros. unfold after_head. destruct (_ <? _); repeat split; cbn; lia. Qed.

  Lemma wsub_cases a b d : wsub a b <= d -> b <= a \/ 2 ^ 64 - d <= b.
  Proof. unfold wsub. destruct (N.leb_spec b a); lia. Qed.
  Lemma wsub_far a : wsub a cap <= a \/ 2 ^ 64 - cap <= wsub a cap.
  Proof. unfold wsub. destruct (N.leb_spec cap a); lia. Qed.

  Lemma where_sub c mem t j : where_ok mem j t ->
    where_ok mem (match j with Some x => Some x | None => b_joined c (snd (sub_step k W c mem t)) end) (snext k W c mem t).
  Proof.
    intros HW. unfold snext. destruct t as [pc h tl mi]. destruct j as [pos|].
    - destruct HW as (A & B). destruct (sub_keeps k W c mem _ A) as (_ & A'). split; auto.
      destruct B as [B|(B1 & B2 & B3)]; [left; auto|right]. clear A'.
      unfold sub_step. cbn [r_pc r_head r_tail r_missed] in *. destruct pc; cbn in A; try tauto.
      + destruct (_ =? _) eqn:E; cbn; [repeat split; auto|]. apply wsub_nonzero in E; auto. apply after_placed; auto.
      + destruct (_ =? _) eqn:E; cbn; [repeat split; cbn; auto; try lia|].
        apply wsub_nonzero in E; [|lia]. apply after_placed; auto; lia.
      + pose proof (half_le k). destruct (_ && _) eqn:E; cbn; [|repeat split; auto]. bool_prop. repeat split; cbn; auto; lia.
      + destruct (st_writing _); cbn; [repeat split; auto|]. destruct (_ <? _); cbn; [repeat split; auto|].
        destruct (_ <? _); cbn; [repeat split; auto|]. destruct (W =? 0)%nat; repeat split; auto.
      + cbn. destruct (_ =? _)%nat; repeat split; auto.
      + destruct (_ && _); cbn; repeat split; cbn; auto; lia.
    - cbn [where_ok r_pc] in HW. unfold sub_step. cbn [r_pc r_head r_tail r_missed]. destruct pc; try tauto.
      + cbn. lia.
      + destruct (_ <? _) eqn:E; cbn.
        * split; auto. apply wsub_far.
        * rewrite Nat.eqb_refl. cbn. split; auto. apply N.ltb_ge in E. apply wsub_cases in E.
          destruct E; [right|left; auto]. repeat split; cbn; auto.
      + cbn. rewrite Nat.eqb_refl. cbn. split; auto. destruct HW as (A & [B|B]); [right|left; auto].
        repeat split; cbn; auto.
  Qed.

  Lemma where_run sched : forall tr s, (forall c, where_ok (b_mem s) (b_joined c tr) (b_sub s c)) ->
    forall c, where_ok (b_mem (fst (b_run k W s sched))) (b_joined c (tr ++ snd (b_run k W s sched)))
                (b_sub (fst (b_run k W s sched)) c).
  Proof.
    induction sched as [|a r IH]; intros tr s HW c.
    - cbn. rewrite app_nil_r. auto.
    - cbn [b_run]. destruct (b_step k W s a) as [s1 e1] eqn:Es.
      specialize (IH (tr ++ e1) s1). destruct (b_run k W s1 r) as [s2 e2]. cbn [fst snd] in *.
      rewrite app_assoc. apply IH. clear IH. intros d. destruct a as [p arg|c']; cbn [b_step] in Es.
      + pose proof (pub_head p arg (b_mem s) (b_pub s p)) as Hh.
        assert (Hj : forall d, b_joined d (snd (pub_step k W p arg (b_mem s) (b_pub s p))) = None).
        { intros. unfold pub_step. destruct (b_pub s p); cbn; auto. destruct (_ =? _)%nat; auto. }
        destruct (pub_step k W p arg (b_mem s) (b_pub s p)) as [[mem pc] ev]. injection Es as <- <-. cbn [b_mem b_sub fst snd] in *.
        rewrite b_joined_app, Hj. eapply where_mono; [exact Hh|]. specialize (HW d). destruct (b_joined d tr); auto.
      + pose proof (sub_head c' (b_mem s) (b_sub s c')) as Hh.
        pose proof (where_sub c' _ _ _ (HW c')) as Hs. unfold snext in Hs.
        assert (Hj : forall d, d <> c' -> b_joined d (snd (sub_step k W c' (b_mem s) (b_sub s c'))) = None).
        { intros d' Hn. assert (Hq : Nat.eqb c' d' = false) by (apply Nat.eqb_neq; auto). unfold sub_step.
          destruct (r_pc (b_sub s c')); cbn; auto;
            repeat match goal with |- context [if ?b then (_, _, _) else _] => destruct b end; cbn; rewrite ?Hq; auto. }
        destruct (sub_step k W c' (b_mem s) (b_sub s c')) as [[mem t] ev]. injection Es as <- <-. cbn [b_mem b_sub fst snd] in *.
        rewrite b_joined_app. unfold updn. destruct (Nat.eqb_spec d c') as [->|Hn].
        * eapply where_mono; [|exact Hs]. lia.
        * rewrite Hj by auto. eapply where_mono; [|specialize (HW d); destruct (b_joined d tr); exact HW]. lia.
  Qed.

  Lemma where_reach sched c : where_ok (b_mem (b_final k W sched)) (b_joined c (b_trace k W sched)) (b_sub (b_final k W sched) c).
  Proof. apply (where_run sched [] (b_init W)). intros d. cbn. auto. Qed.

  Lemma skips_length l n r : skips l n r -> N.of_nat (length l) = n + N.of_nat (length r).
  Proof. induction 1; cbn [length]; lia. Qed.

  Lemma b_received_prefix c sched n : exists new,
    b_received c (b_trace k W (sched ++ repeat (ASub c) n)) = b_received c (b_trace k W sched) ++ new.
  Proof.
    unfold b_trace. rewrite b_run_app. cbn [snd]. rewrite b_received_app. eexists. reflexivity.
  Qed.

  Lemma nobody_else_sends p sched q : one_publisher p sched -> q <> p -> b_sent q (b_trace k W sched) = [].
  Proof.
    intros Ho Hn.
    unfold b_trace. generalize (b_init W). induction sched as [|a r IH]; intros s; auto.
    apply Forall_cons_iff in Ho as [Ha Ho]. cbn [b_run]. destruct (b_step k W s a) as [s1 e1] eqn:Es.
    specialize (IH Ho s1). destruct (b_run k W s1 r) as [s2 e2]. cbn [snd] in *. rewrite b_sent_app, IH, app_nil_r.
    destruct a as [q' arg|c]; cbn [b_step] in Es.
    - subst q'. assert (Hs : b_sent q (snd (pub_step k W p arg (b_mem s) (b_pub s p))) = []).
      { assert (Hx : Nat.eqb p q = false) by (apply Nat.eqb_neq; auto).
        unfold pub_step. destruct (b_pub s p); cbn; rewrite ?Hx; auto. destruct (length arg =? W)%nat; cbn; auto. }
      destruct (pub_step k W p arg (b_mem s) (b_pub s p)) as [[mem pc] ev]. injection Es as <- <-. auto.
    - assert (Hs : b_sent q (snd (sub_step k W c (b_mem s) (b_sub s c))) = []).
      { unfold sub_step. destruct (r_pc (b_sub s c)); cbn; auto;
          repeat match goal with |- context [if ?b then (_, _, _) else _] => destruct b end; cbn; auto. }
      destruct (sub_step k W c (b_mem s) (b_sub s c)) as [[mem t] ev]. injection Es as <- <-. auto.
  Qed.

  Lemma one_publisher_order p sched log : one_publisher p sched -> binv k W log (b_trace k W sched) (b_final k W sched) ->
    b_pending p (b_trace k W sched) = None -> map snd log = b_sent p (b_trace k W sched).
  Proof.
    intros Ho I Hp. pose proof (v_sent _ _ _ _ _ I p) as E. rewrite (v_pend _ _ _ _ _ I p) in Hp.
    assert (Hc : b_claim (b_pub (b_final k W sched) p) = None) by (destruct (b_pub _ p); cbn in *; congruence).
    rewrite Hc, app_nil_r in E. rewrite <- E. unfold b_by_publisher. f_equal.
    assert (Hq : forall q, q <> p -> b_by_publisher q log = []).
    { intros q Hn. rewrite (v_sent _ _ _ _ _ I q). destruct (one_publisher_alone k W p sched Ho) as (A & _).
      rewrite A by auto. cbn. rewrite app_nil_r. eapply nobody_else_sends; eauto. }
    clear -Hq. induction log as [|[q m] l IH]; auto. cbn. destruct (Nat.eqb_spec q p) as [->|Hn].
    - f_equal. apply IH. intros q Hn. specialize (Hq q Hn). unfold b_by_publisher in Hq. cbn in Hq.
      destruct (Nat.eqb_spec p q); [congruence|exact Hq].
    - specialize (Hq q Hn). unfold b_by_publisher in Hq. cbn in Hq. rewrite Nat.eqb_refl in Hq. discriminate.
  Qed.

  Lemma catches_up p sched c pos : one_publisher p sched ->
    b_pending p (b_trace k W sched) = None -> b_joined c (b_trace k W sched) = Some pos ->
    pos <= N.of_nat (length (b_sent p (b_trace k W sched))) ->
    N.of_nat (length (b_sent p (b_trace k W sched))) + cap < 2 ^ 64 ->
    exists n new, let later := sched ++ repeat (ASub c) n in
      b_received c (b_trace k W later) = b_received c (b_trace k W sched) ++ new /\
      skips (skipn (N.to_nat pos) (b_sent p (b_trace k W sched))) (missed_count c (b_final k W later))
        (b_received c (b_trace k W later)) /\
      (missed_count c (b_final k W later) = missed_count c (b_final k W sched) \/
       cap - cap / 2 <= N.of_nat (length new)).
  Proof.
    intros Ho Hp Hj Hpos Hbig.
    destruct (b_reach k W sched (one_publisher_never_lapped k W p sched Ho)) as (log & I).
    pose proof (one_publisher_order p sched log Ho I Hp) as El.
    set (s := b_final k W sched) in *. set (tr := b_trace k W sched) in *.
    assert (EH : sm_head (b_mem s) = N.of_nat (length (b_sent p tr))).
    { rewrite <- El, map_length. symmetry. apply (v_len _ _ _ _ _ I). }
    destruct (one_publisher_alone k W p sched Ho) as (Hid & _). fold s in Hid.
    assert (Hq : forall q, q < sm_head (b_mem s) -> sm_head (b_mem s) <= q + cap ->
              sm_ready (b_mem s) (slot k q) = Stamp false (q + 1)).
    { intros q A B. destruct (v_last _ _ _ _ _ I q A B) as [E|(p' & m & E)]; auto. exfalso.
      destruct (Nat.eq_dec p' p) as [->|Hn]; [|rewrite Hid in E by auto; discriminate].
      rewrite (v_pend _ _ _ _ _ I p) in Hp. destruct (b_pub s p); cbn in *; congruence. }
    pose proof (where_reach sched c) as Hw. fold tr s in Hw. rewrite Hj in Hw. destruct Hw as (Hnj & [Hw|Hw]); [lia|].
    assert (Hl : match r_pc (b_sub s c) with RRead acc => (length acc < W)%nat | _ => True end).
    { pose proof (v_sub _ _ _ _ _ I c) as E. unfold sub_ok in E. destruct (r_pc (b_sub s c)); tauto. }
    destruct (all_caught k W c (b_mem s) Hq (b_sub s c) Hnj Hw Hl) as (n & A & B).
    destruct (b_received_prefix c sched n) as (new & En). fold tr in En.
    exists n, new. cbn zeta. split; auto.
    assert (Ho2 : one_publisher p (sched ++ repeat (ASub c) n)).
    { apply Forall_app. split; auto. apply Forall_forall. intros a Ha. apply repeat_spec in Ha. subst a. exact Logic.I. }
    destruct (b_reach k W _ (one_publisher_never_lapped k W p _ Ho2)) as (log2 & I2).
    set (s2 := b_final k W (sched ++ repeat (ASub c) n)) in *. set (tr2 := b_trace k W (sched ++ repeat (ASub c) n)) in *.
    destruct (run_alone k W c n s Hnj) as (R1 & R2).
    assert (Es2 : s2 = fst (b_run k W s (repeat (ASub c) n))).
    { unfold s2, b_final. rewrite b_run_app. auto. }
    assert (Etr2 : tr2 = tr ++ snd (b_run k W s (repeat (ASub c) n))).
    { unfold tr2, b_trace. rewrite b_run_app. auto. }
    rewrite <- Es2 in R1, R2.
    assert (Hsub : forall m st, b_sent p (snd (b_run k W st (repeat (ASub c) m))) = [] /\
               forall o, b_pending_from o p (snd (b_run k W st (repeat (ASub c) m))) = o).
    { clear. induction m as [|m IH]; intros st; [cbn; auto|]. cbn [repeat b_run b_step].
      assert (Hs : b_sent p (snd (sub_step k W c (b_mem st) (b_sub st c))) = [] /\
                   forall o, b_pending_from o p (snd (sub_step k W c (b_mem st) (b_sub st c))) = o).
      { unfold sub_step. destruct (r_pc (b_sub st c)); cbn; auto;
            repeat match goal with |- context [if ?b then (_, _, _) else _] => destruct b end; cbn; auto. }
      destruct (sub_step k W c (b_mem st) (b_sub st c)) as [[mem t] ev]. cbn [snd] in Hs. destruct Hs as (S1 & S2).
      destruct (IH (BSys mem (b_pub st) (updn (b_sub st) c t))) as (T1 & T2).
      destruct (b_run k W _ (repeat (ASub c) m)) as [sx ex]. cbn [snd] in *.
      rewrite b_sent_app, S1, T1. split; auto. intros o. rewrite b_pending_from_app, S2. auto. }
    destruct (Hsub n s) as (S1 & S2).
    assert (El2 : map snd log2 = b_sent p tr).
    { rewrite (one_publisher_order p _ log2 Ho2 I2).
      - fold tr2. rewrite Etr2, b_sent_app, S1, app_nil_r. auto.
      - fold tr2. rewrite Etr2, b_pending_app, S2. auto. }
    assert (Hj2 : b_joined c tr2 = Some pos) by (rewrite Etr2, b_joined_app, Hj; auto).
    pose proof (v_follow _ _ _ _ _ I2 c) as F2. rewrite Hj2 in F2. destruct F2 as (_ & _ & _ & F2).
    pose proof (v_follow _ _ _ _ _ I c) as F1. rewrite Hj in F1. destruct F1 as (_ & F0 & F00 & F1).
    rewrite R1, A, El2 in F2. rewrite El in F1.
    assert (Eseg : seg pos (sm_head (b_mem s)) (b_sent p tr) = skipn (N.to_nat pos) (b_sent p tr)).
    { unfold seg. apply firstn_all2. rewrite skipn_length, EH. lia. }
    unfold missed_count. rewrite R1. split; [rewrite <- Eseg; auto|].
    destruct B as [B|B]; [left; auto|right].
    apply skips_length in F1, F2. rewrite Eseg, skipn_length, En, app_length in F2.
    destruct Hw as (w1 & w2 & _).
    rewrite seg_length in F1 by (rewrite <- EH; lia). lia.
  Qed.
End Placed.

Section Joins.
  Variables (k : N) (W : nat).
  Notation cap := (cap k).

  Definition join_ok (s : bsys) (tr : list bevent) : Prop :=
    sm_tail (b_mem s) <= sm_head (b_mem s) /\
    forall c, match r_pc (b_sub s c) with
              | RJoinTail h => sm_tail (b_mem s) <= h /\ h <= sm_head (b_mem s)
              | RJoinMax h t => t <= h /\ h <= sm_head (b_mem s)
              | _ => True
              end /\ (forall pos, b_joined c tr = Some pos -> pos <= sm_head (b_mem s)).

  Lemma b_run_snoc s a x : fst (b_run k W s (a ++ [x])) = fst (b_step k W (fst (b_run k W s a)) x) /\
    snd (b_run k W s (a ++ [x])) = snd (b_run k W s a) ++ snd (b_step k W (fst (b_run k W s a)) x).
  Proof.
    rewrite b_run_app. cbn [fst snd b_run]. destruct (b_step k W _ x) as [s1 e1]. cbn. rewrite app_nil_r. auto.
  Qed.

  Lemma join_ok_reach sched : joins_apart k W sched -> join_ok (b_final k W sched) (b_trace k W sched).
  Proof.
    induction sched as [|x sched IH] using rev_ind; intros Hj.
    - split; [cbn; lia|]. intros c. split; [exact I|]. intros pos E. discriminate.
    - assert (Hj' : joins_apart k W sched).
      { intros pre suf c d E. apply (Hj pre (suf ++ [x])). rewrite E, app_assoc. auto. }
      specialize (IH Hj'). destruct (b_run_snoc (b_init W) sched x) as (Es & Et).
      fold (b_final k W sched) in *. fold (b_trace k W sched) in Et.
      unfold b_final at 1, b_trace. rewrite Es, Et. clear Es Et.
      pose proof (fun c d => Hj sched [x] c d eq_refl) as Hone. clear Hj Hj'.
      set (s := b_final k W sched) in *. set (tr := b_trace k W sched) in *. destruct IH as (IT & IS).
      destruct x as [p arg|c]; cbn [b_step].
      + pose proof (pub_head k W p arg (b_mem s) (b_pub s p)) as Hh.
        assert (Ht : sm_tail (fst (fst (pub_step k W p arg (b_mem s) (b_pub s p)))) = sm_tail (b_mem s)).
        { unfold pub_step. destruct (b_pub s p); cbn; auto. destruct (_ =? _)%nat; auto. }
        assert (Hn : forall d, b_joined d (snd (pub_step k W p arg (b_mem s) (b_pub s p))) = None).
        { intros. unfold pub_step. destruct (b_pub s p); cbn; auto. destruct (_ =? _)%nat; auto. }
        destruct (pub_step k W p arg (b_mem s) (b_pub s p)) as [[mem pc] ev]. cbn [fst snd b_mem b_sub] in *.
        split; cbn [b_mem b_sub]; [lia|]. intros d. rewrite Ht. destruct (IS d) as (A & B). split.
        * destruct (r_pc (b_sub s d)); auto; lia.
        * intros pos. rewrite b_joined_app, Hn. intros E.
          destruct (b_joined d tr) eqn:E2; [|discriminate]. specialize (B _ E). lia.
      + destruct (IS c) as (A & B).
        assert (Hd : forall d, d <> c -> mid_join (b_sub s c) = true -> mid_join (b_sub s d) = false).
        { intros d Hn E. destruct (mid_join (b_sub s d)) eqn:E2; auto. elim Hn. apply Hone; auto. }
        assert (Hdo : forall d ev, d <> c -> (forall pos, ev <> [BJoin d pos]) -> True) by auto.
        assert (Gen : forall tl t' ev, tl <= sm_head (b_mem s) ->
                  (sm_tail (b_mem s) = tl \/ (mid_join (b_sub s c) = true)) ->
                  (forall d, d <> c -> b_joined d ev = None) ->
                  match r_pc t' with
                  | RJoinTail h => tl <= h /\ h <= sm_head (b_mem s)
                  | RJoinMax h t => t <= h /\ h <= sm_head (b_mem s)
                  | _ => True end ->
                  (forall pos, b_joined c ev = Some pos -> pos <= sm_head (b_mem s)) ->
                  join_ok (BSys (set_tail (b_mem s) tl) (b_pub s) (updn (b_sub s) c t')) (tr ++ ev)).
        { intros tl t' ev H1 H2 H3 H4 H5. split; cbn; auto. intros d. unfold updn. rewrite b_joined_app.
          destruct (Nat.eqb_spec d c) as [->|Hn].
          - split; auto. intros pos E. destruct (b_joined c tr); auto.
          - destruct (IS d) as (C & D). split.
            + destruct H2 as [<-|H2]; [exact C|]. specialize (Hd d Hn H2). unfold mid_join in Hd.
              destruct (r_pc (b_sub s d)); auto; discriminate.
            + intros pos E. rewrite H3 in E by auto. apply D. destruct (b_joined d tr); auto. }
        assert (Same : set_tail (b_mem s) (sm_tail (b_mem s)) = b_mem s) by (destruct (b_mem s); auto).
        pose proof (Gen (sm_tail (b_mem s))) as Gen0. rewrite Same in Gen0.
        assert (Keep : forall t' ev, (forall d, b_joined d ev = None) ->
                  match r_pc t' with RJoinTail _ | RJoinMax _ _ => False | _ => True end ->
                  join_ok (BSys (b_mem s) (b_pub s) (updn (b_sub s) c t')) (tr ++ ev)).
        { intros t' ev H1 H2. apply Gen0; auto.
          - destruct (r_pc t'); auto; tauto.
          - intros pos E. rewrite H1 in E. discriminate. }
        assert (Jn : forall x d, d <> c -> b_joined d [BJoin c x] = None).
        { intros x d Hn. cbn. destruct (Nat.eqb_spec c d); [congruence|auto]. }
        unfold sub_step. destruct (b_sub s c) as [pc h tl mi] eqn:Esub. cbn [r_pc r_head r_tail r_missed] in *.
        destruct pc.
        * cbn [fst snd]. apply Gen0; auto; cbn [r_pc]; [lia|intros; discriminate].
        * destruct A as (A1 & A2). rewrite (wsub_ge h0 (sm_tail (b_mem s))) by auto.
          destruct (N.ltb_spec cap (h0 - sm_tail (b_mem s))); cbn [fst snd].
          -- apply Gen0; auto; cbn [r_pc]; [|intros; discriminate]. rewrite wsub_ge by lia. lia.
          -- apply Gen0; auto; cbn [r_pc]; auto. intros pos. cbn. rewrite Nat.eqb_refl. intros E; injection E as <-. auto.
        * cbn [fst snd]. apply Gen; auto; cbn [r_pc]; auto; try lia.
          intros pos. cbn. rewrite Nat.eqb_refl. intros E; injection E as <-. lia.
        * destruct (_ =? _); cbn [fst snd]; apply Keep; auto. cbn [r_pc]. unfold after_head. destruct (_ <? _); auto.
        * destruct (_ =? _); cbn [fst snd]; apply Keep; auto. cbn [r_pc]. unfold after_head. destruct (_ <? _); auto.
        * destruct (_ && _); cbn [fst snd]; apply Keep; auto.
        * destruct (st_writing _); cbn [fst snd]; [apply Keep; auto|].
          destruct (_ <? _); cbn [fst snd]; [apply Keep; auto|].
          destruct (_ <? _); cbn [fst snd]; apply Keep; auto. cbn. destruct (_ =? _)%nat; auto.
        * cbn [fst snd]. apply Keep; auto. cbn. destruct (_ =? _)%nat; auto.
        * destruct (_ && _); cbn [fst snd]; apply Keep; auto.
  Qed.

  Lemma joined_inside p sched c pos : one_publisher p sched -> joins_apart k W sched ->
    b_pending p (b_trace k W sched) = None -> b_joined c (b_trace k W sched) = Some pos ->
    pos <= N.of_nat (length (b_sent p (b_trace k W sched))).
  Proof.
    intros Ho Ha Hp Hj. destruct (join_ok_reach sched Ha) as (_ & HI).
    destruct (HI c) as (_ & H). specialize (H pos Hj).
    destruct (b_reach k W sched (one_publisher_never_lapped k W p sched Ho)) as (log & I).
    rewrite <- (one_publisher_order k W p sched log Ho I Hp), map_length, (v_len _ _ _ _ _ I). auto.
  Qed.

  (** A subscriber that joined ahead of everything sent receives nothing. *)
  Lemma beyond_gets_nothing sched c pos : never_lapped k W sched -> b_joined c (b_trace k W sched) = Some pos ->
    sm_head (b_mem (b_final k W sched)) < pos -> b_received c (b_trace k W sched) = [].
  Proof.
    intros Hn Hj Hlt. destruct (b_reach k W sched Hn) as (log & I).
    pose proof (v_follow _ _ _ _ _ I c) as F. rewrite Hj in F. destruct F as (_ & F1 & [F2|F2] & F3); [lia|].
    rewrite F2, seg_nil in F3. inversion F3. auto.
  Qed.
End Joins.

Lemma head_le_steps k W sched : forall s,
  sm_head (b_mem (fst (b_run k W s sched))) <= sm_head (b_mem s) + N.of_nat (length sched).
Proof.
  induction sched as [|a r IH]; intros s; [cbn; lia|]. cbn [b_run length].
  destruct (b_step k W s a) as [s1 e1] eqn:E. specialize (IH s1). destruct (b_run k W s1 r) as [s2 e2]. cbn [fst] in *.
  enough (sm_head (b_mem s1) <= sm_head (b_mem s) + 1) by lia.
  destruct a as [p arg|c]; cbn [b_step] in E.
  - assert (sm_head (fst (fst (pub_step k W p arg (b_mem s) (b_pub s p)))) <= sm_head (b_mem s) + 1).
    { unfold pub_step. destruct (b_pub s p); cbn; try lia. destruct (_ =? _)%nat; cbn; lia. }
    destruct (pub_step k W p arg (b_mem s) (b_pub s p)) as [[mem pc] ev]. injection E as <- <-. auto.
  - pose proof (sub_head k W c (b_mem s) (b_sub s c)) as Hh.
    destruct (sub_step k W c (b_mem s) (b_sub s c)) as [[mem pc] ev]. injection E as <- <-. cbn in *. lia.
Qed.

Lemma joined_later k W sched later c pos : b_joined c (b_trace k W sched) = Some pos ->
  b_joined c (b_trace k W (sched ++ later)) = Some pos.
Proof. unfold b_trace. intros H. rewrite b_run_app. cbn [snd]. rewrite b_joined_app, H. auto. Qed.

Lemma other_sub_new k W s z : Forall (fun a => match a with ASub 0%nat | APub _ _ => True | _ => False end) s ->
  r_pc (b_sub (b_final k W s) (S z)) = RNew.
Proof.
  unfold b_final. assert (H0 : r_pc (b_sub (b_init W) (S z)) = RNew) by auto. revert H0. generalize (b_init W).
  induction s as [|a r IH]; intros s0 H0 HF; auto. apply Forall_cons_iff in HF as [Ha HF]. cbn [b_run].
  destruct (b_step k W s0 a) as [s1 e1] eqn:E. specialize (IH s1).
  destruct (b_run k W s1 r) as [s2 e2]. cbn [fst] in *. apply IH; auto.
  destruct a as [p arg|[|c]]; cbn [b_step] in E; try tauto.
  - destruct (pub_step k W p arg (b_mem s0) (b_pub s0 p)) as [[mem pc] ev]. injection E as <- <-. auto.
  - destruct (sub_step k W 0 (b_mem s0) (b_sub s0 0%nat)) as [[mem pc] ev]. injection E as <- <-. auto.
Qed.

Lemma skips_in l n r m : skips l n r -> In m r -> In m l.
Proof. induction 1; cbn; tauto. Qed.

Lemma received_sent k W p sched c m : one_publisher p sched ->
  In m (b_received c (b_trace k W sched)) ->
  In m (b_sent p (b_trace k W sched)) \/ b_pending p (b_trace k W sched) = Some m.
Proof.
  intros Ho Hin. destruct (b_reach k W sched (one_publisher_never_lapped k W p sched Ho)) as (log & I).
  pose proof (v_follow _ _ _ _ _ I c) as F. destruct (b_joined c (b_trace k W sched)) as [pos|].
  2:{ destruct F as (_ & _ & F). rewrite F in Hin. destruct Hin. }
  destruct F as (_ & _ & _ & F). eapply skips_in in F; eauto. unfold seg in F.
  assert (Hm : In m (map snd log)).
  { rewrite <- (firstn_skipn (N.to_nat pos)). apply in_or_app. right.
    rewrite <- (firstn_skipn (N.to_nat (r_tail (b_sub (b_final k W sched) c) - pos)) (skipn _ _)).
    apply in_or_app. auto. }
  apply in_map_iff in Hm as ([q m'] & <- & Hm). cbn [snd].
  assert (Hb : In m' (b_by_publisher q log)).
  { unfold b_by_publisher. apply in_map_iff. exists (q, m'). split; auto. apply filter_In. split; auto. cbn. apply Nat.eqb_refl. }
  assert (Eq : q = p).
  { destruct (Nat.eq_dec q p) as [|Hn]; auto. rewrite (v_sent _ _ _ _ _ I q) in Hb.
    destruct (one_publisher_alone k W p sched Ho) as (A & _). rewrite (A q Hn) in Hb. cbn in Hb. rewrite app_nil_r in Hb.
    rewrite (nobody_else_sends k W p sched q Ho Hn) in Hb. destruct Hb. }
  subst q. rewrite (v_sent _ _ _ _ _ I p) in Hb. apply in_app_or in Hb as [Hb|Hb]; auto. right.
  rewrite (v_pend _ _ _ _ _ I p). destruct (b_pub (b_final k W sched) p); cbn in *; try tauto; destruct Hb as [->|[]]; auto.
Qed.

Lemma head_mono k W sched : forall s, sm_head (b_mem s) <= sm_head (b_mem (fst (b_run k W s sched))).
Proof.
  induction sched as [|a r IH]; intros s; [cbn; lia|]. cbn [b_run].
  destruct (b_step k W s a) as [s1 e1] eqn:E. specialize (IH s1). destruct (b_run k W s1 r) as [s2 e2]. cbn [fst] in *.
  enough (sm_head (b_mem s) <= sm_head (b_mem s1)) by lia.
  destruct a as [p arg|c]; cbn [b_step] in E.
  - pose proof (pub_head k W p arg (b_mem s) (b_pub s p)) as Hh.
    destruct (pub_step k W p arg (b_mem s) (b_pub s p)) as [[mem pc] ev]. injection E as <- <-. auto.
  - pose proof (sub_head k W c (b_mem s) (b_sub s c)) as Hh.
    destruct (sub_step k W c (b_mem s) (b_sub s c)) as [[mem pc] ev]. injection E as <- <-. cbn in *. lia.
Qed.
Lemma few_never_lapped k W sched : sm_head (b_mem (b_final k W sched)) <= 2 ^ k -> never_lapped k W sched.
Proof.
  intros H pre suf -> p q _. unfold b_final in *. rewrite b_run_app in H. cbn [fst] in H.
  pose proof (head_mono k W suf (fst (b_run k W (b_init W) pre))). lia.
Qed.
