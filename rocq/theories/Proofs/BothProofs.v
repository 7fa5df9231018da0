(** A single handle that sends and receives is a queue until it is full. *)
From Verif.Base Require Import Prelude.
From Verif.Model Require Import RingMem Topology Both.
From Verif.Spec Require Import BothSpec.
From Verif.Proofs Require Import RingMemProofs.
Local Open Scope N_scope.

Section P.
  Variable k : N.

  Definition holds (data : N -> N) (t : N) (q : list N) : Prop :=
    forall i m, nth_error q i = Some m -> data (slot k (t + N.of_nat i)) = m.
  Definition phase (s : bsys) (x : bhandle) (q : list N) : Prop :=
    match b_role x with
    | RNone => b_hdr_head s = 0 /\ b_hdr_tail s = 0 /\ b_head x = 0 /\ b_tail x = 0 /\ q = []
    | RConsumer => b_hdr_head s = 0 /\ b_hdr_tail s = 0 /\ b_head x = 0 /\ b_tail x = 0 /\ q = []
    | RProducer => b_hdr_head s = b_head x /\ b_hdr_tail s = 0 /\ b_tail x = 0 /\
                   forall i, (i < length q)%nat -> b_ready s (slot k (N.of_nat i)) = N.of_nat i + 1
    | RBoth => True
    end.
  Definition binv (s : bsys) (q : list N) : Prop :=
    let x := b_h s 0 in b_head x = b_tail x + N.of_nat (length q) /\ N.of_nat (length q) <= cap k /\ holds (b_data s) (b_tail x) q /\ phase s x q.

  Lemma holds_snoc data t q m : N.of_nat (length q) < cap k -> holds data t q ->
    holds (upd data (slot k (t + N.of_nat (length q))) m) t (q ++ [m]).
  Proof.
    intros Hl H i m' E. destruct (Nat.eq_dec i (length q)) as [->|Hn].
    - rewrite nth_error_snoc_last in E. injection E as <-. apply upd_eq.
    - assert (i < length q)%nat by (apply nth_error_Some_lt in E; rewrite app_length in E; cbn in E; lia).
      rewrite nth_error_app1 in E by auto. rewrite upd_neq; auto.
      apply (slot_neq k _ _ t (t + cap k)); lia.
  Qed.
  Lemma holds_tl data t m q : holds data t (m :: q) -> data (slot k t) = m /\ holds data (t + 1) q.
  Proof.
    intros H. split.
    - rewrite <- (N.add_0_r t). apply (H 0%nat). auto.
    - intros i m' E. replace (t + 1 + N.of_nat i) with (t + N.of_nat (S i)) by lia. apply (H (S i)). auto.
  Qed.

  Lemma mp_send_ok s x m (q : list N) : b_hdr_head s = b_tail x + N.of_nat (length q) -> N.of_nat (length q) < cap k ->
    mp_send k s x m = (BSys (b_hdr_head s + 1) (b_hdr_tail s) (upd (b_ready s) (slot k (b_hdr_head s)) (b_hdr_head s + 1)) (upd (b_data s) (slot k (b_hdr_head s)) m) (b_h s),
          BHandle (b_role x) (b_hdr_head s + 1) (b_tail x), true).
  Proof. intros H1 H2. unfold mp_send. rewrite H1. rewrite wsub_ge by lia. destruct (N.leb_spec (cap k) (b_tail x + N.of_nat (length q) - b_tail x)); [lia|]. auto. Qed.

  Lemma binv_send s q m : binv s q -> N.of_nat (length q) < cap k -> binv (bsend k s 0 m) (q ++ [m]).
  Proof.
    intros (H1 & H2 & H3 & H4) Hl. unfold bsend. pose proof (cap_pos k) as Cp.
    destruct (b_role (b_h s 0)) eqn:R; unfold phase in H4; rewrite R in H4.
    - destruct H4 as (A & B & C & D & ->). cbn [length] in *. unfold ensure. cbn [negb andb]. rewrite A, B, D, R. change (N.max 0 0) with 0.
      rewrite (mp_send_ok _ _ _ []) by (cbn [b_tail length]; auto; lia). rewrite A.
      unfold binv, seth. cbn [b_h b_data b_hdr_head b_hdr_tail b_ready b_tail b_role]. rewrite updn_eq. cbn [b_head b_tail length app add_send].
      repeat split; try (cbn; lia).
      + intros [|[|i]] m' E; cbn in E; try discriminate. injection E as <-. apply upd_eq.
      + intros [|i] Hi; cbn in Hi; try lia. apply upd_eq.
    - destruct H4 as (A & B & C & D).
      rewrite (mp_send_ok _ _ _ q) by (auto; lia).
      unfold binv, seth. cbn [b_h b_data b_hdr_head b_hdr_tail b_ready b_tail b_role]. rewrite updn_eq. unfold phase. cbn [b_head b_tail b_role]. rewrite R.
      rewrite app_length. cbn [length b_hdr_head b_hdr_tail b_ready]. repeat split; try lia.
      + rewrite A, H1. apply holds_snoc; auto.
      + intros i Hi. destruct (Nat.eq_dec i (length q)) as [->|Hn].
        * replace (b_hdr_head s) with (N.of_nat (length q)) by lia. apply upd_eq.
        * rewrite upd_neq; [apply D; lia|]. apply (slot_neq k _ _ 0 (cap k)); lia.
    - destruct H4 as (A & B & C & D & ->). cbn [length] in *. unfold ensure. cbn [negb andb]. rewrite A, B, D, R. change (N.max 0 0) with 0.
      rewrite (mp_send_ok _ _ _ []) by (cbn [b_tail length]; auto; lia). rewrite A.
      unfold binv, seth. cbn [b_h b_data b_hdr_head b_hdr_tail b_ready b_tail b_role]. rewrite updn_eq. cbn [b_head b_tail length app add_send].
      repeat split; try (cbn; lia).
      intros [|[|i]] m' E; cbn in E; try discriminate. injection E as <-. apply upd_eq.
    - rewrite wsub_ge by lia. destruct (N.ltb_spec (b_head (b_h s 0) - b_tail (b_h s 0)) (cap k)); [|lia].
      unfold binv, seth. cbn [b_h b_data b_hdr_head b_hdr_tail b_ready b_tail b_role]. rewrite updn_eq. unfold phase. cbn [b_head b_tail b_role].
      rewrite app_length. cbn [length]. repeat split; try lia. rewrite H1. apply holds_snoc; auto.
  Qed.

  Lemma binv_recv s q : binv s q -> let '(s', o) := brecv k s 0 in
    match q with [] => o = None /\ binv s' [] | m :: q' => o = Some m /\ binv s' q' end.
  Proof.
    intros (H1 & H2 & H3 & H4). unfold brecv. pose proof (cap_pos k) as Cp.
    destruct (b_role (b_h s 0)) eqn:R; unfold phase in H4; rewrite R in H4.
    - destruct H4 as (A & B & C & D & ->). unfold ensure. rewrite A, B, D, R. change (N.max 0 0) with 0. change (wsub 0 0) with 0.
      destruct (N.ltb_spec (cap k) 0); [lia|]. cbn [negb andb]. unfold mpsc_recv. cbn [b_tail b_head b_role]. rewrite A. change (wsub 0 0 =? 0) with true. cbv iota.
      change (wsub 0 0 =? 0) with true. cbv iota. split; auto. unfold binv, seth, phase. cbn [b_h b_data b_hdr_head b_hdr_tail]. rewrite updn_eq.
      cbn [b_head b_tail b_role add_recv]. repeat split; auto. intros [|i] m' E; discriminate.
    - destruct H4 as (A & B & C & D). unfold ensure. rewrite B, C, R, A, H1, C. change (N.max 0 0) with 0. rewrite N.add_0_l.
      rewrite (wsub_ge _ 0) by lia. rewrite N.sub_0_r. destruct (N.ltb_spec (cap k) (N.of_nat (length q))); [lia|]. cbn [negb andb].
      unfold mpsc_recv. cbn [b_tail b_head b_role]. rewrite A, H1, C, N.add_0_l, (wsub_ge _ 0), N.sub_0_r by lia.
      destruct q as [|m q]; cbn [length] in *.
      + change (N.of_nat 0) with 0. change (0 =? 0) with true. cbv iota. change (wsub 0 0 =? 0) with true. cbv iota. split; auto.
        unfold binv, seth, phase. cbn [b_h b_data b_hdr_head b_hdr_tail]. rewrite updn_eq. cbn [b_head b_tail b_role add_recv]. repeat split; auto; try (cbn; lia); intros [|i] m' E; discriminate.
      + destruct (N.eqb_spec (N.of_nat (S (length q))) 0); [lia|]. rewrite (wsub_ge _ 0), N.sub_0_r by lia.
        destruct (N.eqb_spec (N.of_nat (S (length q))) 0); [lia|]. pose proof (D 0%nat ltac:(lia)) as D0. change (N.of_nat 0) with 0 in D0. rewrite D0.
        rewrite N.eqb_refl. rewrite C in H3. destruct (holds_tl _ _ _ _ H3) as (E1 & E2). split; [f_equal; auto|].
        unfold binv, seth, phase. cbn [b_h b_data b_hdr_head b_hdr_tail]. rewrite updn_eq. cbn [b_head b_tail b_role add_recv]. repeat split; auto; lia.
    - destruct H4 as (A & B & C & D & ->). unfold mpsc_recv. rewrite A, C, D, R. change (wsub 0 0 =? 0) with true. cbv iota.
      change (wsub 0 0 =? 0) with true. cbv iota. split; auto. unfold binv, seth, phase. cbn [b_h b_data b_hdr_head b_hdr_tail]. rewrite updn_eq.
      cbn [b_head b_tail b_role add_recv]. repeat split; auto; try (cbn; lia); intros [|i] m' E; discriminate.
    - rewrite wsub_ge by lia. destruct q as [|m q]; cbn [length] in *.
      + destruct (N.ltb_spec 0 (b_head (b_h s 0) - b_tail (b_h s 0))); [lia|]. split; auto.
        unfold binv, phase. rewrite R. cbn [length]. repeat split; auto.
      + destruct (N.ltb_spec 0 (b_head (b_h s 0) - b_tail (b_h s 0))); [|lia].
        destruct (holds_tl _ _ _ _ H3) as (E1 & E2). split; [f_equal; auto|].
        unfold binv, seth, phase. cbn [b_h b_data]. rewrite updn_eq. cbn [b_head b_tail b_role]. repeat split; auto; lia.
  Qed.

  Lemma binv_run ops : forall s q, binv s q -> only 0 ops -> at_most (cap k) (N.of_nat (length q)) ops ->
    snd (b_run k s ops) = fifo q ops.
  Proof.
    induction ops as [|o ops IH]; intros s q I O A; cbn [b_run fifo]; auto.
    inversion O as [|? ? O1 O2]; subst. destruct o as [c m|c]; cbn [at_most] in A; subst c.
    - destruct A as (A1 & A2). apply IH; auto; [apply binv_send; auto|].
      rewrite app_length. cbn [length]. replace (N.of_nat (length q + 1)) with (N.of_nat (length q) + 1) by lia. auto.
    - pose proof (binv_recv s q I) as R. destruct (brecv k s 0) as [s1 o]. destruct q as [|m q].
      + destruct R as (-> & R). specialize (IH s1 [] R O2). cbn [length] in *. specialize (IH A).
        destruct (b_run k s1 ops) as [s2 l]. cbn [snd] in *. congruence.
      + destruct R as (-> & R). specialize (IH s1 q R O2). cbn [length] in A.
        replace (N.of_nat (S (length q)) - 1) with (N.of_nat (length q)) in A by lia. specialize (IH A).
        destruct (b_run k s1 ops) as [s2 l]. cbn [snd] in *. congruence.
  Qed.
  Lemma binv_init : binv b_init [].
  Proof. unfold binv, phase. cbn. repeat split; auto; [lia|]. intros [|i] m E; discriminate. Qed.

  (** ** A handle in the shortcut does not touch the shared positions while it has room. *)
  Lemma both_sends c ms : forall s x, b_h s c = x -> b_role x = RBoth -> b_tail x <= b_head x ->
    b_head x - b_tail x + N.of_nat (length ms) <= cap k ->
    exists d, let s' := fst (b_run k s (map (BSend c) ms)) in
    s' = BSys (b_hdr_head s) (b_hdr_tail s) (b_ready s) d (b_h s') /\
    b_h s' c = BHandle RBoth (b_head x + N.of_nat (length ms)) (b_tail x) /\ (forall e, e <> c -> b_h s' e = b_h s e) /\
    (forall t, b_tail x <= t < b_head x -> d (slot k t) = b_data s (slot k t)).
  Proof.
    induction ms as [|m ms IH]; intros s x Hx Hr Ht Hl; cbn [map b_run].
    - exists (b_data s). cbn [fst length]. split; [destruct s; auto|]. split; [rewrite N.add_0_r, Hx; rewrite <- Hr; destruct x; auto|auto].
    - cbn [length] in Hl. set (s1 := bsend k s c m).
      assert (E : s1 = BSys (b_hdr_head s) (b_hdr_tail s) (b_ready s) (upd (b_data s) (slot k (b_head x)) m) (updn (b_h s) c (BHandle RBoth (b_head x + 1) (b_tail x)))).
      { unfold s1, bsend. rewrite Hx, Hr, wsub_ge by auto. destruct (N.ltb_spec (b_head x - b_tail x) (cap k)); [|lia]. auto. }
      destruct (IH s1 (BHandle RBoth (b_head x + 1) (b_tail x))) as (d & I1 & I2 & I3 & I4).
      { rewrite E. cbn [b_h]. apply updn_eq. } { auto. } { cbn [b_tail b_head]. lia. } { cbn [b_tail b_head]. lia. }
      exists d. cbv zeta. cbn [b_head b_tail] in I2, I4. split; [|split; [|split]].
      + rewrite I1 at 1. rewrite E. auto.
      + rewrite I2. f_equal. cbn [length]. lia.
      + intros e He. rewrite I3 by auto. rewrite E. cbn [b_h]. apply updn_neq; auto.
      + intros t Hb. rewrite I4 by lia. rewrite E. cbn [b_data]. apply upd_neq. apply (slot_neq k _ _ (b_tail x) (b_tail x + cap k)); lia.
  Qed.
End P.

Lemma b_run_app k ops ops' s : b_run k s (ops ++ ops') =
  let '(s1, l1) := b_run k s ops in let '(s2, l2) := b_run k s1 ops' in (s2, l1 ++ l2).
Proof.
  revert s; induction ops as [|[c m|c] ops IH]; intros s; cbn [app b_run].
  - destruct (b_run k s ops'); auto.
  - apply IH.
  - destruct (brecv k s c) as [s1 o]. rewrite IH. destruct (b_run k s1 ops) as [s2 l]. destruct (b_run k s2 ops'); auto.
Qed.
Lemma sends_out k c ms s : snd (b_run k s (map (BSend c) ms)) = [].
Proof. revert s; induction ms; intros s; cbn [map b_run]; auto. Qed.

(** ** Particular states *)
Lemma wsub_self a : wsub a a = 0.
Proof. rewrite wsub_ge; lia. Qed.
Section W.
  Variable k : N.
  Lemma cap_le0 : (cap k <=? 0) = false.
  Proof. pose proof (cap_pos k). apply N.leb_gt. auto. Qed.
  Lemma cap_lt0 : (cap k <? 0) = false.
  Proof. apply N.ltb_ge. lia. Qed.

  (** Empty receives change nothing. *)
  Lemma both_empty s c n : b_role (b_h s c) = RBoth -> b_head (b_h s c) = b_tail (b_h s c) -> b_run k s (repeat (BRecv c) n) = (s, repeat (c, None) n).
  Proof.
    intros H1 H2. induction n as [|n IH]; cbn [repeat b_run]; auto. unfold brecv. rewrite H1, H2, wsub_ge, N.sub_diag by lia. change (0 <? 0) with false. cbv iota. rewrite IH. auto.
  Qed.
  Lemma consumer_empty c n : forall s, b_role (b_h s c) = RConsumer -> b_hdr_head s = b_tail (b_h s c) -> b_head (b_h s c) = b_tail (b_h s c) ->
    snd (b_run k s (repeat (BRecv c) n)) = repeat (c, None) n.
  Proof.
    induction n as [|n IH]; intros s H1 H2 H3; cbn [repeat b_run]; auto.
    assert (E : brecv k s c = (seth s c (BHandle RConsumer (b_tail (b_h s c)) (b_tail (b_h s c))), None)).
    { unfold brecv. rewrite H1. unfold mpsc_recv. rewrite H3, wsub_self. change (0 =? 0) with true. cbv iota.
      rewrite H2, wsub_self. change (0 =? 0) with true. cbv iota. rewrite H1. auto. }
    rewrite E. specialize (IH (seth s c (BHandle RConsumer (b_tail (b_h s c)) (b_tail (b_h s c))))).
    cbn [seth b_h b_hdr_head] in IH. rewrite updn_eq in IH. specialize (IH eq_refl H2 eq_refl).
    destruct (b_run k _ (repeat (BRecv c) n)) as [s2 l]. cbn [snd] in *. congruence.
  Qed.
End W.

(** ** One handle sends, another one receives *)
Section O.
  Variable k : N.
  Definition period : N := N.max (cap k / 2) 1.
  Lemma period_pow : period = 2 ^ (k - 1).
  Proof.
    unfold period, cap. destruct (N.eq_dec k 0) as [->|Hn]; [reflexivity|]. replace k with (N.succ (k - 1)) at 1 by lia.
    rewrite N.pow_succ_r', (N.mul_comm 2), N.div_mul by discriminate. pose proof (N.pow_nonzero 2 (k - 1)). lia.
  Qed.
  Lemma period_mask t : N.land t (period - 1) = t mod period.
  Proof. rewrite period_pow, <- N.land_ones. f_equal. rewrite N.ones_equiv. lia. Qed.
  Lemma period_cap : cap k / 2 + period <= cap k.
  Proof.
    unfold period, cap. destruct (N.eq_dec k 0) as [->|Hn]; [cbn; lia|]. replace k with (N.succ (k - 1)) by lia.
    rewrite N.pow_succ_r', (N.mul_comm 2), N.div_mul by discriminate. pose proof (N.pow_nonzero 2 (k - 1)). lia.
  Qed.
  Lemma half_cap : cap k / 2 < cap k.
  Proof. pose proof period_cap. unfold period in *. lia. Qed.

  Record oinv (s : bsys) (q : list N) : Prop := OInv {
    o_r0 : b_role (b_h s 0) = RNone \/ b_role (b_h s 0) = RProducer;
    o_r1 : (b_role (b_h s 1) = RNone /\ b_tail (b_h s 1) = 0) \/ b_role (b_h s 1) = RConsumer;
    o_head : b_hdr_head s = b_tail (b_h s 1) + N.of_nat (length q);
    o_tail : b_hdr_tail s <= b_tail (b_h s 1) /\ b_tail (b_h s 1) < b_hdr_tail s + period /\ b_hdr_tail s mod period = 0;
    o_t0 : b_tail (b_h s 0) <= b_hdr_tail s;
    o_h1 : b_role (b_h s 1) = RConsumer -> b_tail (b_h s 1) <= b_head (b_h s 1) /\ b_head (b_h s 1) <= b_hdr_head s;
    o_rdy : forall i, (i < length q)%nat -> b_ready s (slot k (b_tail (b_h s 1) + N.of_nat i)) = b_tail (b_h s 1) + N.of_nat i + 1;
    o_data : holds k (b_data s) (b_tail (b_h s 1)) q;
    o_len : N.of_nat (length q) <= cap k / 2 + 1 }.

  Lemma mp_send_room s x m : b_tail x <= b_hdr_tail s -> b_hdr_tail s <= b_hdr_head s -> b_hdr_head s - b_hdr_tail s < cap k ->
    exists t, t <= b_hdr_tail s /\ mp_send k s x m =
      (BSys (b_hdr_head s + 1) (b_hdr_tail s) (upd (b_ready s) (slot k (b_hdr_head s)) (b_hdr_head s + 1)) (upd (b_data s) (slot k (b_hdr_head s)) m) (b_h s),
       BHandle (b_role x) (b_hdr_head s + 1) t, true).
  Proof.
    intros H1 H2 H3. unfold mp_send. rewrite (wsub_ge _ (b_tail x)) by lia.
    destruct (N.leb_spec (cap k) (b_hdr_head s - b_tail x)).
    - rewrite wsub_ge by lia. destruct (N.leb_spec (cap k) (b_hdr_head s - b_hdr_tail s)); [lia|]. cbn [andb]. exists (b_hdr_tail s). split; [lia|auto].
    - cbn [andb]. exists (b_tail x). auto.
  Qed.

  Lemma oinv_send s q m : oinv s q -> N.of_nat (length q) < cap k / 2 + 1 -> oinv (bsend k s 0 m) (q ++ [m]).
  Proof.
    intros I Hl. destruct I as [R0 R1 Hh (Ht1 & Ht2 & Ht3) T0 H1 Rd Da Le]. pose proof period_cap as Pc. pose proof half_cap as Hc.
    assert (S : forall x, b_tail x <= b_hdr_tail s -> b_role x = RProducer ->
        oinv (let '(s1, x1, _) := mp_send k s x m in seth s1 0 x1) (q ++ [m])).
    { intros x Hx Hr. destruct (mp_send_room s x m Hx) as (t & Htt & E); [lia|lia|]. rewrite E. unfold seth.
      constructor; cbn [b_hdr_head b_hdr_tail b_ready b_data b_h]; rewrite ?updn_eq, ?(updn_neq _ 0%nat 1%nat) by discriminate; cbn [b_role b_tail b_head]; auto.
      - rewrite app_length. cbn [length]. lia.
      - intros HR. specialize (H1 HR). lia.
      - rewrite app_length. cbn [length]. intros i Hi. destruct (Nat.eq_dec i (length q)) as [->|Hn].
        + rewrite <- Hh. apply upd_eq.
        + rewrite upd_neq; [apply Rd; lia|]. rewrite Hh. apply (slot_neq k _ _ (b_tail (b_h s 1)) (b_tail (b_h s 1) + cap k)); lia.
      - rewrite Hh. apply holds_snoc; auto; lia.
      - rewrite app_length. cbn [length]. lia. }
    unfold bsend. destruct R0 as [R0|R0]; rewrite R0.
    - unfold ensure. cbn [negb andb]. rewrite R0. apply S; [cbn [b_tail]; lia|auto].
    - apply S; auto.
  Qed.

  Lemma oinv_recv s q : oinv s q -> let '(s', o) := brecv k s 1 in
    match q with [] => o = None /\ oinv s' [] | m :: q' => o = Some m /\ oinv s' q' end.
  Proof.
    intros I. destruct I as [R0 R1 Hh (Ht1 & Ht2 & Ht3) T0 H1 Rd Da Le]. pose proof period_cap as Pc. pose proof half_cap as Hc.
    assert (S : forall x, b_role x = RConsumer -> b_tail x = b_tail (b_h s 1) -> b_tail x <= b_head x -> b_head x <= b_hdr_head s ->
       let '(s', o) := (let '(s1, x1, r) := mpsc_recv k s x in (seth s1 1 x1, r)) in
       match q with [] => o = None /\ oinv s' [] | m :: q' => o = Some m /\ oinv s' q' end).
    { intros x Xr Xt Xa Xb. unfold mpsc_recv. rewrite !(wsub_ge (b_head x)) by lia.
      set (h := if b_head x - b_tail x =? 0 then b_hdr_head s else b_head x).
      assert (Hhh : b_tail x <= h /\ h <= b_hdr_head s /\ (h = b_tail x -> h = b_hdr_head s)).
      { unfold h. destruct (N.eqb_spec (b_head x - b_tail x) 0); lia. }
      rewrite (wsub_ge h) by lia. destruct q as [|m q]; cbn [length] in *.
      - destruct (N.eqb_spec (h - b_tail x) 0); [|lia]. split; auto. unfold seth.
        constructor; cbn [b_hdr_head b_hdr_tail b_ready b_data b_h]; rewrite ?updn_eq, ?(updn_neq _ 1%nat 0%nat) by discriminate; cbn [b_role b_tail b_head length]; auto; try lia;
          rewrite ?Xt; auto.
      - destruct (N.eqb_spec (h - b_tail x) 0); [lia|]. pose proof (Rd 0%nat ltac:(lia)) as D0. rewrite N.add_0_r in D0.
        rewrite Xt, D0, N.eqb_refl. destruct (holds_tl _ _ _ _ _ Da) as (E1 & E2). split; [f_equal; auto|]. unfold seth. fold period. rewrite period_mask.
        set (T := b_tail (b_h s 1)) in *. clearbody T.
        assert (X : (if (T + 1) mod period =? 0 then T + 1 else b_hdr_tail s) <= T + 1 /\
                    T + 1 < (if (T + 1) mod period =? 0 then T + 1 else b_hdr_tail s) + period /\
                    (if (T + 1) mod period =? 0 then T + 1 else b_hdr_tail s) mod period = 0 /\
                    b_hdr_tail s <= (if (T + 1) mod period =? 0 then T + 1 else b_hdr_tail s)).
        { assert (0 < period) by (unfold period; lia). destruct (N.eqb_spec ((T + 1) mod period) 0) as [Em|Em]; [repeat split; auto; lia|].
          repeat split; auto; try lia. destruct (N.eq_dec (T + 1) (b_hdr_tail s + period)) as [Ee|]; [|lia]. exfalso. apply Em.
          rewrite Ee. replace (b_hdr_tail s + period) with (b_hdr_tail s + 1 * period) by lia. rewrite N.mod_add by lia. auto. }
        destruct X as (X1 & X2 & X3 & X4).
        constructor; cbn [b_hdr_head b_hdr_tail b_ready b_data b_h]; rewrite ?updn_eq, ?(updn_neq _ 1%nat 0%nat) by discriminate; cbn [b_role b_tail b_head length]; auto; try lia.
        intros i Hi. specialize (Rd (Datatypes.S i) ltac:(lia)). replace (T + 1 + N.of_nat i) with (T + N.of_nat (Datatypes.S i)) by lia. auto. }
    unfold brecv. destruct R1 as [(R1 & Z1)|R1]; rewrite R1.
    - unfold ensure. cbn [negb andb]. rewrite R1, Z1. replace (N.max 0 (b_hdr_tail s)) with 0 by lia. rewrite wsub_ge by lia.
      destruct (N.ltb_spec (cap k) (b_hdr_head s - 0)); [lia|]. cbn [negb andb]. apply S; auto; cbn [b_tail b_head]; lia.
    - apply S; auto; apply H1; auto.
  Qed.

  Lemma oinv_run ops : forall s q, oinv s q -> one_way ops -> at_most (cap k / 2 + 1) (N.of_nat (length q)) ops ->
    snd (b_run k s ops) = fifo q ops.
  Proof.
    induction ops as [|o ops IH]; intros s q I O A; cbn [b_run fifo]; auto.
    inversion O as [|? ? O1 O2]; subst. destruct o as [c m|c]; cbn [at_most] in A; subst c.
    - destruct A as (A1 & A2). apply IH; auto; [apply oinv_send; auto|].
      rewrite app_length. cbn [length]. replace (N.of_nat (length q + 1)) with (N.of_nat (length q) + 1) by lia. auto.
    - pose proof (oinv_recv s q I) as R. destruct (brecv k s 1) as [s1 o]. destruct q as [|m q].
      + destruct R as (-> & R). specialize (IH s1 [] R O2). cbn [length] in *. specialize (IH A).
        destruct (b_run k s1 ops) as [s2 l]. cbn [snd] in *. congruence.
      + destruct R as (-> & R). specialize (IH s1 q R O2). cbn [length] in A.
        replace (N.of_nat (Datatypes.S (length q)) - 1) with (N.of_nat (length q)) in A by lia. specialize (IH A).
        destruct (b_run k s1 ops) as [s2 l]. cbn [snd] in *. congruence.
  Qed.
  Lemma oinv_init : oinv b_init [].
  Proof.
    constructor; cbn [b_init b_h b_role b_tail b_head b_hdr_head b_hdr_tail length]; auto; try lia; try discriminate.
    - split; [lia|]. split; [unfold period; lia|]. apply N.mod_0_l. unfold period; lia.
    - intros [|i] m E; discriminate.
  Qed.
End O.
