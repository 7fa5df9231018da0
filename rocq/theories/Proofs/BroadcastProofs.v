(** Invariant of the broadcast ring. *)
From Verif.Base Require Import Prelude.
From Verif.Model Require Import RingMem Broadcast.
From Verif.Spec Require Import BroadcastSpec.
From Verif.Proofs Require Import RingMemProofs.
Local Open Scope N_scope.

Lemma b_sent_app p a b : b_sent p (a ++ b) = b_sent p a ++ b_sent p b.
Proof. induction a as [|e a IH]; auto. destruct e; cbn [b_sent app]; auto. destruct (p0 =? p)%nat; cbn [app]; congruence. Qed.
Lemma b_received_app c a b : b_received c (a ++ b) = b_received c a ++ b_received c b.
Proof. induction a as [|e a IH]; auto. destruct e; cbn [b_received app]; auto. destruct (c0 =? c)%nat; cbn [app]; congruence. Qed.
Lemma b_pending_from_app o p a b : b_pending_from o p (a ++ b) = b_pending_from (b_pending_from o p a) p b.
Proof. revert o; induction a as [|e a IH]; intros o; auto. destruct e; cbn [b_pending_from app]; auto. Qed.
Lemma b_pending_app p a b : b_pending p (a ++ b) = b_pending_from (b_pending p a) p b.
Proof. apply b_pending_from_app. Qed.
Lemma b_joined_app c a b : b_joined c (a ++ b) = match b_joined c a with Some x => Some x | None => b_joined c b end.
Proof. induction a as [|e a IH]; auto. destruct e; cbn [b_joined app]; auto. destruct (c0 =? c)%nat; auto. Qed.
Lemma b_by_publisher_app p a b : b_by_publisher p (a ++ b) = b_by_publisher p a ++ b_by_publisher p b.
Proof. unfold b_by_publisher. rewrite filter_app, map_app. auto. Qed.
Lemma b_by_publisher_one p q m : b_by_publisher p [(q, m)] = if (q =? p)%nat then [m] else [].
Proof. unfold b_by_publisher; cbn. destruct (q =? p)%nat; auto. Qed.

Lemma skips_take l n r m : skips l n r -> skips (l ++ [m]) n (r ++ [m]).
Proof. induction 1; cbn [app]; try constructor; auto. constructor. Qed.
Lemma skips_skip l n r l' : skips l n r -> skips (l ++ l') (n + N.of_nat (length l')) r.
Proof.
  induction 1; cbn [app].
  - induction l'; cbn [length]; [constructor|]. rewrite Nat2N.inj_succ. replace (0 + N.succ (N.of_nat (length l'))) with (0 + N.of_nat (length l') + 1) by lia.
    constructor; auto.
  - constructor; auto.
  - replace (n + 1 + N.of_nat (length l')) with (n + N.of_nat (length l') + 1) by lia. constructor; auto.
Qed.

Definition seg (a b : N) (l : list msg) : list msg := firstn (N.to_nat (b - a)) (skipn (N.to_nat a) l).
Lemma seg_nil a l : seg a a l = [].
Proof. unfold seg. rewrite N.sub_diag. destruct (skipn _ l); auto. Qed.
Lemma seg_app a b c l : a <= b -> b <= c -> seg a c l = seg a b l ++ seg b c l.
Proof.
  intros. unfold seg. replace (N.to_nat (c - a)) with (N.to_nat (b - a) + N.to_nat (c - b))%nat by lia.
  rewrite <- (firstn_skipn (N.to_nat (b - a)) (skipn (N.to_nat a) l)) at 1.
  rewrite skipn_skipn. replace (N.to_nat (b - a) + N.to_nat a)%nat with (N.to_nat b) by lia.
  destruct (Nat.le_gt_cases (N.to_nat (b - a)) (length (skipn (N.to_nat a) l))) as [Hl|Hl].
  - rewrite firstn_app. rewrite firstn_firstn. rewrite firstn_length.
    f_equal; f_equal; lia.
  - rewrite skipn_length in Hl.
    rewrite (skipn_all2 (n:=N.to_nat b)) by lia. rewrite firstn_nil, !app_nil_r.
    rewrite firstn_firstn. f_equal. lia.
Qed.
Lemma seg_length a b l : b <= N.of_nat (length l) -> N.of_nat (length (seg a b l)) = b - a.
Proof. intros. unfold seg. rewrite firstn_length, skipn_length. lia. Qed.
Lemma seg_one a l m : nth_error l (N.to_nat a) = Some m -> seg a (a + 1) l = [m].
Proof.
  intros H. unfold seg. replace (N.to_nat (a + 1 - a)) with 1%nat by lia.
  revert H. generalize (N.to_nat a) as n. clear a. intros n. revert l. induction n; intros [|x l] H; try discriminate.
  - injection H as ->. reflexivity.
  - apply IHn. auto.
Qed.
Lemma seg_extend a b l l' : b <= N.of_nat (length l) \/ b <= a -> seg a b (l ++ l') = seg a b l.
Proof.
  intros [H|H]; unfold seg.
  - rewrite skipn_app, firstn_app, skipn_length.
    destruct (N.le_gt_cases a b).
    + replace (N.to_nat (b - a) - _)%nat with 0%nat by lia. rewrite app_nil_r. auto.
    + replace (N.to_nat (b - a)) with 0%nat by lia. reflexivity.
  - replace (N.to_nat (b - a)) with 0%nat by lia. reflexivity.
Qed.

Definition b_pc_pending (pc : bpc) : option msg :=
  match pc with BFetch m | BMark m _ | BWrite m _ _ | BStamp m _ => Some m | BIdle => None end.
Definition b_claim (pc : bpc) : option (msg * N) :=
  match pc with BMark m q | BWrite m q _ | BStamp m q => Some (m, q) | _ => None end.
Lemma place_claim pc q : place pc = Some q <-> exists m, b_claim pc = Some (m, q).
Proof.
  destruct pc; cbn; split; intros H; try discriminate; try (destruct H as (x & H); discriminate).
  all: try (injection H as ->; eexists; reflexivity).
  all: destruct H as (x & H); congruence.
Qed.

Section Inv.
  Variables (k : N) (W : nat).
  Notation cap := (cap k).
  Notation slot := (slot k).

  (** The slot of position [t] still holds it, or has moved on. *)
  Definition holds_or_gone (mem : smem) (t : N) (P : msg -> Prop) : Prop :=
    (sm_ready mem (slot t) = Stamp false (t + 1) /\ P (sm_data mem (slot t))) \/
    t + 1 < st_num (sm_ready mem (slot t)).
  Definition sub_ok (mem : smem) (t : rst) : Prop :=
    match r_pc t with
    | RRead acc => (length acc < W)%nat /\ holds_or_gone mem (r_tail t) (fun d => acc = firstn (length acc) d)
    | RCheck acc => holds_or_gone mem (r_tail t) (fun d => acc = d)
    | _ => True
    end.
  Definition joining (t : rst) : Prop :=
    match r_pc t with RNew | RJoinTail _ | RJoinMax _ _ => True | _ => False end.

  Record binv (log : list (nat * msg)) (tr : list bevent) (s : bsys) : Prop := BInv {
    v_len : N.of_nat (length log) = sm_head (b_mem s);
    v_rle : forall i, st_num (sm_ready (b_mem s) i) <= sm_head (b_mem s);
    v_claim : forall p m q, b_claim (b_pub s p) = Some (m, q) ->
                q < sm_head (b_mem s) /\ nth_error log (N.to_nat q) = Some (p, m);
    v_mlen : forall p m, b_pc_pending (b_pub s p) = Some m -> length m = W;
    v_mark : forall p m q, b_pub s p = BMark m q -> st_num (sm_ready (b_mem s) (slot q)) < q + 1;
    v_write : forall p m q j, b_pub s p = BWrite m q j ->
                sm_ready (b_mem s) (slot q) = Stamp true (q + 1) /\ (j < W)%nat /\
                firstn j (sm_data (b_mem s) (slot q)) = firstn j m;
    v_stamp : forall p m q, b_pub s p = BStamp m q ->
                sm_ready (b_mem s) (slot q) = Stamp true (q + 1) /\ sm_data (b_mem s) (slot q) = m;
    v_done : forall i n, sm_ready (b_mem s) i = Stamp false (n + 1) ->
                exists p, nth_error log (N.to_nat n) = Some (p, sm_data (b_mem s) i);
    v_last : forall q, q < sm_head (b_mem s) -> sm_head (b_mem s) <= q + cap ->
                sm_ready (b_mem s) (slot q) = Stamp false (q + 1) \/
                exists p m, b_claim (b_pub s p) = Some (m, q);
    v_dlen : forall i, length (sm_data (b_mem s) i) = W;
    v_sub : forall c, sub_ok (b_mem s) (b_sub s c);
    v_follow : forall c, match b_joined c tr with
                | None => joining (b_sub s c) /\ r_missed (b_sub s c) = 0 /\ b_received c tr = []
                | Some pos => ~ joining (b_sub s c) /\ pos <= r_tail (b_sub s c) /\
                    (r_tail (b_sub s c) <= sm_head (b_mem s) \/ r_tail (b_sub s c) = pos) /\
                    skips (seg pos (r_tail (b_sub s c)) (map snd log)) (r_missed (b_sub s c)) (b_received c tr)
                end;
    v_sent : forall p, b_by_publisher p log =
               b_sent p tr ++ match b_claim (b_pub s p) with Some (m, _) => [m] | None => [] end;
    v_pend : forall p, b_pending p tr = b_pc_pending (b_pub s p)
  }.

  Lemma binv_init : binv [] [] (b_init W).
  Proof.
    constructor; cbn; intros; try discriminate; auto; try lia.
    - injection H; lia.
    - apply repeat_length.
  Qed.

  Lemma in_flight_slots log tr s p p' m m' q q' : binv log tr s -> not_lapped k s ->
    b_claim (b_pub s p) = Some (m, q) -> b_claim (b_pub s p') = Some (m', q') ->
    slot q = slot q' -> p = p' /\ m = m' /\ q = q'.
  Proof.
    intros I Hn H1 H2 He.
    destruct (v_claim _ _ _ I _ _ _ H1) as (A1 & B1). destruct (v_claim _ _ _ I _ _ _ H2) as (A2 & B2).
    assert (L1 : sm_head (b_mem s) <= q + 2 ^ k) by (apply (Hn p q), place_claim; eauto).
    assert (L2 : sm_head (b_mem s) <= q' + 2 ^ k) by (apply (Hn p' q'), place_claim; eauto).
    assert (q = q').
    { destruct (N.le_gt_cases q q').
      - apply (slot_inj k); auto. unfold RingMem.cap; lia.
      - symmetry. apply (slot_inj k); auto; [lia|]. unfold RingMem.cap; lia. }
    subst q'. rewrite B1 in B2. injection B2 as -> ->. auto.
  Qed.

  Lemma follow_extend (log more : list (nat * msg)) tr s :
    N.of_nat (length log) = sm_head (b_mem s) ->
    forall c, match b_joined c tr with
      | None => True
      | Some pos => pos <= r_tail (b_sub s c) /\ (r_tail (b_sub s c) <= sm_head (b_mem s) \/ r_tail (b_sub s c) = pos)
      end ->
    match b_joined c tr with
    | None => True
    | Some pos => seg pos (r_tail (b_sub s c)) (map snd (log ++ more)) = seg pos (r_tail (b_sub s c)) (map snd log)
    end.
  Proof.
    intros Hl c. destruct (b_joined c tr) as [pos|]; auto. intros (H1 & H2).
    rewrite map_app. apply seg_extend. rewrite map_length. lia.
  Qed.

  (** ** Publisher steps *)
  Definition quiet (ev : list bevent) (p : nat) : Prop :=
    (forall c, b_received c ev = []) /\ (forall c, b_joined c ev = None) /\
    (forall o q, q <> p -> b_pending_from o q ev = o).

  Lemma follow_pub log tr s ev p mem' pub' :
    binv log tr s -> quiet ev p -> sm_head (b_mem s) <= sm_head mem' ->
    forall more c, match b_joined c (tr ++ ev) with
      | None => joining (b_sub s c) /\ r_missed (b_sub s c) = 0 /\ b_received c (tr ++ ev) = []
      | Some pos => ~ joining (b_sub s c) /\ pos <= r_tail (b_sub s c) /\
          (r_tail (b_sub s c) <= sm_head (b_mem (BSys mem' pub' (b_sub s))) \/ r_tail (b_sub s c) = pos) /\
          skips (seg pos (r_tail (b_sub s c)) (map snd (log ++ more))) (r_missed (b_sub s c)) (b_received c (tr ++ ev))
      end.
  Proof.
    intros I (Q1 & Q2 & Q3) Hh more c. rewrite b_joined_app, b_received_app, Q1, Q2, app_nil_r.
    pose proof (v_follow _ _ _ I c) as F. pose proof (follow_extend log more tr s (v_len _ _ _ I) c) as E.
    destruct (b_joined c tr) as [pos|]; auto.
    destruct F as (F0 & F1 & F2 & F3). rewrite E by auto. cbn [b_mem]. repeat split; auto. destruct F2; auto; lia.
  Qed.

  Lemma pub_binv log tr s p arg : binv log tr s -> not_lapped k s ->
    exists more, binv (log ++ more) (tr ++ snd (b_step k W s (APub p arg))) (fst (b_step k W s (APub p arg))).
  Proof.
    intros I Hnl. cbn [b_step]. unfold pub_step.
    destruct (b_pub s p) as [|m|m q|m q j|m q] eqn:Epc.
    - destruct (Nat.eqb_spec (length arg) W) as [El|El]; cbn [fst snd]; exists []; rewrite app_nil_r.
      + assert (Q : quiet [BCall p arg] p).
        { split; [auto|split; auto]. intros o q Hq. cbn. destruct (Nat.eqb_spec p q); congruence. }
        pose proof (follow_pub log tr s _ p (b_mem s) (updn (b_pub s) p (BFetch arg)) I Q (N.le_refl _) []) as Hf.
        rewrite app_nil_r in Hf.
        destruct I. constructor; cbn [b_mem b_pub b_sub]; auto.
        * intros p' x y. unfold updn. destruct (p' =? p)%nat; [discriminate|eauto].
        * intros p' x. unfold updn. destruct (p' =? p)%nat; [cbn; congruence|eauto].
        * intros p' x y. unfold updn. destruct (p' =? p)%nat; [discriminate|eauto].
        * intros p' x y j. unfold updn. destruct (p' =? p)%nat; [discriminate|eauto].
        * intros p' x y. unfold updn. destruct (p' =? p)%nat; [discriminate|eauto].
        * intros x H1 H2. destruct (v_last0 x H1 H2) as [?|(p' & y & H3)]; auto. right. exists p', y.
          rewrite updn_neq; auto. intros ->. rewrite Epc in H3. discriminate.
        * intros p'. rewrite b_sent_app. cbn [b_sent]. rewrite app_nil_r, v_sent0. unfold updn.
          destruct (Nat.eqb_spec p' p) as [->|]; auto. rewrite Epc. auto.
        * intros p'. rewrite b_pending_app. cbn [b_pending_from]. unfold updn. rewrite (Nat.eqb_sym p p').
          destruct (p' =? p)%nat; auto.
      + assert (E : BSys (b_mem s) (updn (b_pub s) p BIdle) (b_sub s) = BSys (b_mem s) (updn (b_pub s) p BIdle) (b_sub s)) by auto.
        assert (Q : quiet [] p) by (repeat split; auto).
        pose proof (follow_pub log tr s _ p (b_mem s) (updn (b_pub s) p BIdle) I Q (N.le_refl _) []) as Hf.
        rewrite app_nil_r in Hf.
        assert (Hu : forall p', updn (b_pub s) p BIdle p' = b_pub s p').
        { intros p'. unfold updn. destruct (Nat.eqb_spec p' p) as [->|]; auto. }
        rewrite app_nil_r in *.
        destruct I. constructor; cbn [b_mem b_pub b_sub]; auto; intros; rewrite ?Hu in *; eauto.
        destruct (v_last0 q H H0) as [?|(p' & y & H3)]; auto. right. exists p', y. rewrite Hu. auto.
    - (* fetch_add *)
      cbn [fst snd]. exists [(p, m)].
      assert (Q : quiet [] p) by (repeat split; auto).
      pose proof (follow_pub log tr s _ p (set_head (b_mem s) (sm_head (b_mem s) + 1))
        (updn (b_pub s) p (BMark m (sm_head (b_mem s)))) I Q ltac:(cbn; lia) [(p, m)]) as Hf.
      rewrite app_nil_r in *.
      destruct I. assert (Hlen : length log = N.to_nat (sm_head (b_mem s))) by lia.
      constructor; cbn [b_mem b_pub b_sub set_head sm_head sm_tail sm_ready sm_data]; auto.
      + rewrite app_length. cbn [length]. lia.
      + intros i. specialize (v_rle0 i). lia.
      + intros p' x y. unfold updn. destruct (Nat.eqb_spec p' p) as [->|].
        * cbn. intros E; injection E as <- <-. split; [lia|]. rewrite <- Hlen. apply nth_error_snoc_last.
        * intros E. destruct (v_claim0 _ _ _ E). split; [lia|]. apply nth_error_app_old; auto.
      + intros p' x. unfold updn. destruct (Nat.eqb_spec p' p) as [->|]; [|eauto].
        cbn. intros E; injection E as <-. apply (v_mlen0 p). rewrite Epc. auto.
      + intros p' x y. unfold updn. destruct (Nat.eqb_spec p' p) as [->|]; [|eauto].
        intros E; injection E as <- <-. specialize (v_rle0 (slot (sm_head (b_mem s)))). lia.
      + intros p' x y j. unfold updn. destruct (p' =? p)%nat; [discriminate|eauto].
      + intros p' x y. unfold updn. destruct (p' =? p)%nat; [discriminate|eauto].
      + intros i n E. destruct (v_done0 i n E) as (r & Hr). exists r. apply nth_error_app_old; auto.
      + intros x H1 H2. destruct (N.eq_dec x (sm_head (b_mem s))) as [->|Hx].
        * right. exists p, m. rewrite updn_eq. auto.
        * destruct (v_last0 x ltac:(lia) ltac:(lia)) as [?|(p' & y & H3)]; auto. right. exists p', y.
          rewrite updn_neq; auto. intros ->. rewrite Epc in H3. discriminate.
      + intros p'. rewrite b_by_publisher_app, v_sent0, b_by_publisher_one. unfold updn. rewrite (Nat.eqb_sym p' p).
        destruct (Nat.eqb_spec p p') as [<-|]; [rewrite Epc; cbn; rewrite app_nil_r; auto|rewrite app_nil_r; auto].
      + intros p'. unfold updn. destruct (Nat.eqb_spec p' p) as [->|]; auto. rewrite v_pend0, Epc. auto.
    - (* mark *)
      cbn [fst snd]. exists [].
      assert (Q : quiet [] p) by (repeat split; auto).
      pose proof (follow_pub log tr s _ p (set_ready (b_mem s) (slot q) (Stamp true (q + 1)))
        (updn (b_pub s) p (b_start_write W m q)) I Q ltac:(cbn; lia) []) as Hf.
      rewrite !app_nil_r in *.
      assert (Hc0 : b_claim (b_pub s p) = Some (m, q)) by (rewrite Epc; auto).
      pose proof (fun p' x y => in_flight_slots log tr s p p' m x q y I Hnl Hc0) as Hfl.
      assert (Hc1 : b_claim (b_start_write W m q) = Some (m, q)) by (unfold b_start_write; destruct (W =? 0)%nat; auto).
      assert (Hp1 : b_pc_pending (b_start_write W m q) = Some m) by (unfold b_start_write; destruct (W =? 0)%nat; auto).
      assert (Hcl : forall p', b_claim (updn (b_pub s) p (b_start_write W m q) p') = b_claim (b_pub s p')).
      { intros p'. unfold updn. destruct (Nat.eqb_spec p' p) as [->|]; congruence. }
      destruct I.
      assert (Hlt : st_num (sm_ready (b_mem s) (slot q)) < q + 1) by (apply (v_mark0 p m); auto).
      destruct (v_claim0 _ _ _ Hc0) as (Hq & Hnth).
      constructor; cbn [b_mem b_pub b_sub set_ready sm_head sm_tail sm_ready sm_data]; auto.
      + intros i. unfold upd. destruct (i =? slot q); auto. cbn. lia.
      + intros p' x y. rewrite Hcl. eauto.
      + intros p' x. unfold updn. destruct (Nat.eqb_spec p' p) as [->|]; [|eauto].
        rewrite Hp1. intros E; injection E as <-. apply (v_mlen0 p). rewrite Epc. auto.
      + intros p' x y. unfold updn. destruct (Nat.eqb_spec p' p) as [->|Hn].
        * unfold b_start_write. destruct (W =? 0)%nat; discriminate.
        * intros E. rewrite upd_neq; [eauto|]. intros e.
          destruct (Hfl p' x y) as (<- & _); auto. rewrite E. auto.
      + intros p' x y j. unfold updn. destruct (Nat.eqb_spec p' p) as [->|Hn].
        * unfold b_start_write. destruct (Nat.eqb_spec W 0); [discriminate|].
          intros E; injection E as <- <- <-. rewrite upd_eq. split; auto. split; [lia|reflexivity].
        * intros E. rewrite upd_neq; [eauto|]. intros e.
          destruct (Hfl p' x y) as (<- & _); auto. rewrite E. auto.
      + intros p' x y. unfold updn. destruct (Nat.eqb_spec p' p) as [->|Hn].
        * unfold b_start_write. destruct (Nat.eqb_spec W 0) as [e|]; [|discriminate].
          intros E; injection E as <- <-. rewrite upd_eq. split; auto.
          assert (L1 : length m = 0%nat) by (rewrite <- e; apply (v_mlen0 p); rewrite Epc; auto).
          specialize (v_dlen0 (slot q)). rewrite e in v_dlen0.
          apply length_zero_iff_nil in L1. apply length_zero_iff_nil in v_dlen0. congruence.
        * intros E. rewrite upd_neq; [eauto|]. intros e.
          destruct (Hfl p' x y) as (<- & _); auto. rewrite E. auto.
      + intros i n. unfold upd. destruct (i =? slot q); [discriminate|eauto].
      + intros x H1 H2. destruct (N.eq_dec x q) as [->|Hx].
        * right. exists p, m. rewrite Hcl. auto.
        * assert (Hs : slot x <> slot q).
          { intros e. apply Hx.
            assert (L : sm_head (b_mem s) <= q + 2 ^ k) by (apply (Hnl p q), place_claim; eauto).
            unfold RingMem.cap in *.
            destruct (N.le_gt_cases x q); [|symmetry]; apply (slot_inj k); unfold RingMem.cap; auto; lia. }
          rewrite upd_neq by auto. destruct (v_last0 x H1 H2) as [?|(p' & y & H3)]; auto. right. exists p', y.
          rewrite Hcl. auto.
      + intros c. specialize (v_sub0 c). unfold sub_ok, holds_or_gone in *. cbn [sm_ready sm_data set_ready set_data].
        destruct (r_pc (b_sub s c)); auto.
        all: unfold upd; destruct (N.eqb_spec (slot (r_tail (b_sub s c))) (slot q)) as [e|e]; auto.
        * destruct v_sub0 as (A & B). split; auto. right. cbn [st_num]. rewrite e in B.
          destruct B as [(B & _)|B]; [rewrite B in Hlt; cbn [st_num] in Hlt; lia|lia].
        * right. cbn [st_num]. rewrite e in v_sub0.
          destruct v_sub0 as [(B & _)|B]; [rewrite B in Hlt; cbn [st_num] in Hlt; lia|lia].
      + intros p'. rewrite Hcl. auto.
      + intros p'. unfold updn. destruct (Nat.eqb_spec p' p) as [->|]; auto. rewrite v_pend0, Epc. auto.
    - (* write one word *)
      cbn [fst snd]. exists [].
      assert (Q : quiet [] p) by (repeat split; auto).
      set (pc' := if (S j =? W)%nat then BStamp m q else BWrite m q (S j)).
      pose proof (follow_pub log tr s _ p (set_data (b_mem s) (slot q) j (nth j m 0))
        (updn (b_pub s) p pc') I Q ltac:(cbn; lia) []) as Hf.
      rewrite !app_nil_r in *.
      assert (Hc0 : b_claim (b_pub s p) = Some (m, q)) by (rewrite Epc; auto).
      pose proof (fun p' x y => in_flight_slots log tr s p p' m x q y I Hnl Hc0) as Hfl.
      assert (Hc1 : b_claim pc' = Some (m, q)) by (unfold pc'; destruct (S j =? W)%nat; auto).
      assert (Hp1 : b_pc_pending pc' = Some m) by (unfold pc'; destruct (S j =? W)%nat; auto).
      assert (Hcl : forall p', b_claim (updn (b_pub s) p pc' p') = b_claim (b_pub s p')).
      { intros p'. unfold updn. destruct (Nat.eqb_spec p' p) as [->|]; congruence. }
      destruct I.
      destruct (v_write0 p m q j Epc) as (Hr & Hj & Hd).
      assert (Hml : length m = W) by (apply (v_mlen0 p); rewrite Epc; auto).
      assert (Hnew : firstn (S j) (set_word j (nth j m 0) (sm_data (b_mem s) (slot q))) = firstn (S j) m).
      { rewrite set_word_firstn by (rewrite v_dlen0; auto). rewrite (firstn_snoc 0) by lia. congruence. }
      constructor; cbn [b_mem b_pub b_sub set_data sm_head sm_tail sm_ready sm_data]; auto.
      + intros p' x y. rewrite Hcl. eauto.
      + intros p' x. unfold updn. destruct (Nat.eqb_spec p' p) as [->|]; [|eauto].
        rewrite Hp1. intros E; injection E as <-. auto.
      + intros p' x y. unfold updn. destruct (Nat.eqb_spec p' p) as [->|Hn]; [|eauto].
        unfold pc'. destruct (S j =? W)%nat; discriminate.
      + intros p' x y i. unfold updn at 1. destruct (Nat.eqb_spec p' p) as [->|Hn].
        * unfold pc'. destruct (Nat.eqb_spec (S j) W); [discriminate|].
          intros E; injection E as <- <- <-. rewrite upd_eq. split; auto. split; [lia|auto].
        * intros E. rewrite upd_neq; [eauto|]. intros e.
          destruct (Hfl p' x y) as (<- & _); auto. rewrite E. auto.
      + intros p' x y. unfold updn at 1. destruct (Nat.eqb_spec p' p) as [->|Hn].
        * unfold pc'. destruct (Nat.eqb_spec (S j) W) as [e|]; [|discriminate].
          intros E; injection E as <- <-. rewrite upd_eq. split; auto. rewrite e in Hnew.
          rewrite !firstn_all2 in Hnew; auto; rewrite ?set_word_length, ?v_dlen0; lia.
        * intros E. rewrite upd_neq; [eauto|]. intros e.
          destruct (Hfl p' x y) as (<- & _); auto. rewrite E. auto.
      + intros i n E. unfold upd. destruct (N.eqb_spec i (slot q)) as [->|]; [congruence|eauto].
      + intros x H1 H2. destruct (v_last0 x H1 H2) as [?|(p' & y & H3)]; auto. right. exists p', y.
        rewrite Hcl. auto.
      + intros i. unfold upd. destruct (i =? slot q); auto. rewrite set_word_length. auto.
      + intros c. specialize (v_sub0 c). unfold sub_ok, holds_or_gone in *. cbn [sm_ready sm_data set_ready set_data].
        destruct (r_pc (b_sub s c)); auto.
        all: unfold upd; destruct (N.eqb_spec (slot (r_tail (b_sub s c))) (slot q)) as [e|e]; auto.
        * destruct v_sub0 as (A & B). split; auto. right. destruct B as [(B & _)|B]; auto. rewrite e in B. congruence.
        * right. destruct v_sub0 as [(B & _)|B]; auto. rewrite e in B. congruence.
      + intros p'. rewrite Hcl. auto.
      + intros p'. unfold updn. destruct (Nat.eqb_spec p' p) as [->|]; auto. rewrite v_pend0, Epc. auto.
    - (* stamp *)
      cbn [fst snd]. exists [].
      assert (Q : quiet [BOk p m] p).
      { split; [auto|split; auto]. intros o x Hq. cbn. destruct (Nat.eqb_spec p x); congruence. }
      pose proof (follow_pub log tr s _ p (set_ready (b_mem s) (slot q) (Stamp false (q + 1)))
        (updn (b_pub s) p BIdle) I Q ltac:(cbn; lia) []) as Hf.
      rewrite !app_nil_r in *.
      assert (Hc0 : b_claim (b_pub s p) = Some (m, q)) by (rewrite Epc; auto).
      pose proof (fun p' x y => in_flight_slots log tr s p p' m x q y I Hnl Hc0) as Hfl.
      destruct I.
      destruct (v_stamp0 p m q Epc) as (Hr & Hd).
      destruct (v_claim0 _ _ _ Hc0) as (Hq & Hnth).
      constructor; cbn [b_mem b_pub b_sub set_ready sm_head sm_tail sm_ready sm_data]; auto.
      + intros i. unfold upd. destruct (i =? slot q); auto. cbn. lia.
      + intros p' x y. unfold updn. destruct (p' =? p)%nat; [discriminate|eauto].
      + intros p' x. unfold updn. destruct (p' =? p)%nat; [discriminate|eauto].
      + intros p' x y. unfold updn at 1. destruct (Nat.eqb_spec p' p) as [->|Hn]; [discriminate|].
        intros E. rewrite upd_neq; [eauto|]. intros e. destruct (Hfl p' x y) as (<- & _); auto. rewrite E. auto.
      + intros p' x y j. unfold updn at 1. destruct (Nat.eqb_spec p' p) as [->|Hn]; [discriminate|].
        intros E. rewrite upd_neq; [eauto|]. intros e. destruct (Hfl p' x y) as (<- & _); auto. rewrite E. auto.
      + intros p' x y. unfold updn at 1. destruct (Nat.eqb_spec p' p) as [->|Hn]; [discriminate|].
        intros E. rewrite upd_neq; [eauto|]. intros e. destruct (Hfl p' x y) as (<- & _); auto. rewrite E. auto.
      + intros i n. unfold upd. destruct (N.eqb_spec i (slot q)) as [->|]; [|eauto].
        intros E. injection E as E. assert (n = q) by lia. subst n. exists p. rewrite Hd. auto.
      + intros x H1 H2. destruct (N.eq_dec x q) as [->|Hx].
        * left. apply upd_eq.
        * assert (Hs : slot x <> slot q).
          { intros e. apply Hx.
            assert (L : sm_head (b_mem s) <= q + 2 ^ k) by (apply (Hnl p q), place_claim; eauto).
            unfold RingMem.cap in *.
            destruct (N.le_gt_cases x q); [|symmetry]; apply (slot_inj k); unfold RingMem.cap; auto; lia. }
          rewrite upd_neq by auto. destruct (v_last0 x H1 H2) as [?|(p' & y & H3)]; auto. right. exists p', y.
          rewrite updn_neq; auto. intros ->. rewrite Hc0 in H3. congruence.
      + intros c. specialize (v_sub0 c). unfold sub_ok, holds_or_gone in *. cbn [sm_ready sm_data set_ready set_data].
        destruct (r_pc (b_sub s c)); auto.
        all: unfold upd; destruct (N.eqb_spec (slot (r_tail (b_sub s c))) (slot q)) as [e|e]; auto.
        * destruct v_sub0 as (A & B). split; auto. right. rewrite e, Hr in B. cbn [st_num] in *.
          destruct B as [(B & _)|B]; [congruence|lia].
        * right. rewrite e, Hr in v_sub0. cbn [st_num] in *.
          destruct v_sub0 as [(B & _)|B]; [congruence|lia].
      + intros p'. rewrite b_sent_app. cbn [b_sent]. unfold updn. rewrite v_sent0, (Nat.eqb_sym p p').
        destruct (Nat.eqb_spec p' p) as [->|Hn]; [rewrite Hc0; cbn; rewrite app_nil_r; auto|rewrite app_nil_r; auto].
      + intros p'. rewrite b_pending_app. cbn [b_pending_from]. unfold updn. rewrite (Nat.eqb_sym p p').
        destruct (Nat.eqb_spec p' p) as [->|Hn]; auto.
  Qed.

  (** ** Subscriber steps *)
  Definition follows (log : list (nat * msg)) (H : N) (j : option N) (t : rst) (got : list msg) : Prop :=
    match j with
    | None => joining t /\ r_missed t = 0 /\ got = []
    | Some pos => ~ joining t /\ pos <= r_tail t /\ (r_tail t <= H \/ r_tail t = pos) /\
        skips (seg pos (r_tail t) (map snd log)) (r_missed t) got
    end.

  Lemma sub_generic log tr s c mem' t' ev : binv log tr s ->
    sm_head mem' = sm_head (b_mem s) -> sm_ready mem' = sm_ready (b_mem s) -> sm_data mem' = sm_data (b_mem s) ->
    (forall d, d <> c -> b_received d ev = [] /\ b_joined d ev = None) ->
    (forall p, b_sent p ev = []) -> (forall o p, b_pending_from o p ev = o) ->
    sub_ok (b_mem s) t' ->
    follows log (sm_head (b_mem s)) (b_joined c (tr ++ ev)) t' (b_received c (tr ++ ev)) ->
    binv log (tr ++ ev) (BSys mem' (b_pub s) (updn (b_sub s) c t')).
  Proof.
    intros I E1 E2 E3 Hd Hs Hp Hok Hf. destruct I.
    constructor; cbn [b_mem b_pub b_sub]; rewrite ?E1, ?E2, ?E3; auto.
    - intros d. unfold updn. destruct (Nat.eqb_spec d c) as [->|Hn].
      + unfold sub_ok, holds_or_gone in *. rewrite E2, E3. auto.
      + specialize (v_sub0 d). unfold sub_ok, holds_or_gone in *. rewrite E2, E3. auto.
    - intros d. unfold updn. destruct (Nat.eqb_spec d c) as [->|Hn]; [exact Hf|].
      destruct (Hd d Hn) as (A & B). rewrite b_received_app, b_joined_app, A, B, app_nil_r.
      specialize (v_follow0 d). destruct (b_joined d tr); auto.
    - intros p. rewrite b_sent_app, Hs, app_nil_r. auto.
    - intros p. rewrite b_pending_app, Hp. auto.
  Qed.

  Lemma sub_binv log tr s c : binv log tr s ->
    binv log (tr ++ snd (b_step k W s (ASub c))) (fst (b_step k W s (ASub c))).
  Proof.
    intros I. cbn [b_step].
    pose proof (v_follow _ _ _ I c) as F. pose proof (v_sub _ _ _ I c) as Ok.
    assert (Q0 : forall d, d <> c -> b_received d [] = [] /\ b_joined d [] = None) by auto.
    assert (Q1 : forall d, d <> c -> b_received d [BNone c] = [] /\ b_joined d [BNone c] = None) by auto.
    assert (Q2 : forall x d, d <> c -> b_received d [BJoin c x] = [] /\ b_joined d [BJoin c x] = None).
    { intros x d Hn. cbn. destruct (Nat.eqb_spec c d); [congruence|auto]. }
    assert (Q3 : forall x d, d <> c -> b_received d [BRecv c x] = [] /\ b_joined d [BRecv c x] = None).
    { intros x d Hn. cbn. destruct (Nat.eqb_spec c d); [congruence|auto]. }
    (* a step that keeps the position *)
    assert (Keep : forall pc h ev, (ev = [] \/ ev = [BNone c]) ->
              (joining (RSt pc h (r_tail (b_sub s c)) (r_missed (b_sub s c))) <-> joining (b_sub s c)) ->
              follows log (sm_head (b_mem s)) (b_joined c (tr ++ ev))
                (RSt pc h (r_tail (b_sub s c)) (r_missed (b_sub s c))) (b_received c (tr ++ ev))).
    { intros pc h ev Hev Hj. rewrite b_joined_app, b_received_app.
      assert (b_joined c ev = None /\ b_received c ev = []) as (-> & ->) by (destruct Hev as [->| ->]; auto).
      rewrite app_nil_r. unfold follows in *. destruct (b_joined c tr); cbn [r_tail r_missed]; tauto. }
    unfold sub_step. destruct (b_sub s c) as [pc h tail mi] eqn:Es. cbn [r_pc r_head r_tail r_missed] in *.
    set (H := sm_head (b_mem s)) in *.
    assert (Joined : forall pos, b_joined c tr = Some pos ->
              pos <= tail /\ (tail <= H \/ tail = pos) /\ skips (seg pos tail (map snd log)) mi (b_received c tr)).
    { intros pos E. rewrite E in F. cbn in F. tauto. }
    destruct pc as [|jh|jh jt| | | | |acc|acc].
    - cbn [fst snd]. apply sub_generic; auto; try exact Logic.I; apply Keep; auto; reflexivity.
    - destruct (RingMem.cap k <? wsub jh (sm_tail (b_mem s))); cbn [fst snd].
      + apply sub_generic; auto; try exact Logic.I; apply Keep; auto; reflexivity.
      + apply sub_generic; auto; try exact Logic.I.
        rewrite b_joined_app, b_received_app. cbn [b_joined b_received]. rewrite Nat.eqb_refl, app_nil_r.
        destruct (b_joined c tr); cbn in F; [tauto|]. destruct F as (_ & F1 & F2).
        unfold follows; cbn. rewrite seg_nil, F1, F2. repeat split; auto; [lia|constructor].
    - cbn [fst snd]. apply sub_generic; auto; try exact Logic.I.
      rewrite b_joined_app, b_received_app. cbn [b_joined b_received]. rewrite Nat.eqb_refl, app_nil_r.
      destruct (b_joined c tr); cbn in F; [tauto|]. destruct F as (_ & F1 & F2).
      unfold follows; cbn. rewrite seg_nil, F1, F2. repeat split; auto; [lia|constructor].
    - destruct (wsub h tail =? 0); cbn [fst snd]; apply sub_generic; auto; try exact Logic.I.
      + apply Keep; auto. reflexivity.
      + unfold sub_ok, after_head; cbn. destruct (_ <? _); exact Logic.I.
      + apply Keep; auto. unfold after_head, joining; cbn. destruct (_ <? _); reflexivity.
    - destruct (wsub H tail =? 0); cbn [fst snd]; apply sub_generic; auto; try exact Logic.I.
      + apply Keep; auto. reflexivity.
      + unfold sub_ok, after_head; cbn. destruct (_ <? _); exact Logic.I.
      + apply Keep; auto. unfold after_head, joining; cbn. destruct (_ <? _); reflexivity.
    - destruct ((RingMem.cap k <? H) && _) eqn:E; cbn [fst snd]; apply sub_generic; auto; try exact Logic.I.
      2:{ apply Keep; auto. reflexivity. }
      bool_prop. rewrite b_joined_app, b_received_app. cbn [b_joined b_received]. rewrite app_nil_r.
      destruct (b_joined c tr) as [pos|]; cbn in F; [|tauto]. destruct F as (F0 & F1 & F2 & F3).
      set (r := H - cap + cap / 2) in *.
      assert (r <= H) by (unfold r; lia).
      unfold follows; cbn. split; [tauto|]. split; [lia|]. split; [left; lia|].
      rewrite (seg_app pos tail r) by lia.
      replace (r - tail) with (N.of_nat (length (seg tail r (map snd log)))).
      + apply skips_skip; auto.
      + apply seg_length. rewrite map_length, (v_len _ _ _ I). auto.
    - destruct (sm_ready (b_mem s) (slot tail)) as [w n] eqn:Er. cbn [st_writing st_num].
      destruct w; [|destruct (n <? tail + 1) eqn:E1; [|destruct (tail + 1 <? n) eqn:E2]];
        cbn [fst snd]; apply sub_generic; auto; try exact Logic.I.
      1,2,3: apply Keep; auto; reflexivity.
      + bool_prop. assert (n = tail + 1) by lia. subst n.
        unfold sub_ok, holds_or_gone. destruct (Nat.eqb_spec W 0) as [e|e]; cbn [r_pc r_tail].
        * left. rewrite Er. split; auto. pose proof (v_dlen _ _ _ I (slot tail)) as Hl. rewrite e in Hl.
          apply length_zero_iff_nil in Hl. auto.
        * cbn [length]. split; [lia|]. left. rewrite Er. split; auto.
      + apply Keep; auto. destruct (W =? 0)%nat; reflexivity.
    - cbn [fst snd]. unfold sub_ok in Ok. cbn [r_pc r_tail] in Ok. destruct Ok as (Ol & Ok).
      apply sub_generic; auto.
      2:{ apply Keep; auto. destruct (_ =? W)%nat; reflexivity. }
      pose proof (v_dlen _ _ _ I (slot tail)) as Hl.
      set (d := sm_data (b_mem s) (slot tail)) in *. set (acc' := acc ++ _).
      assert (Hla : length acc' = S (length acc)) by (unfold acc'; rewrite app_length; cbn; lia).
      assert (Hacc : holds_or_gone (b_mem s) tail (fun x => acc' = firstn (length acc') x)).
      { destruct Ok as [(A & B)|B]; [left|right; auto]. split; auto. fold d. fold d in B.
        rewrite Hla, (firstn_snoc 0) by lia. unfold acc'. congruence. }
      unfold sub_ok. destruct (Nat.eqb_spec (length acc') W) as [e|e]; cbn [r_pc r_tail].
      + destruct Hacc as [(A & B)|B]; [left|right; auto]. split; auto. fold d. fold d in B.
        rewrite e in B. rewrite firstn_all2 in B; auto. lia.
      + split; auto. lia.
    - unfold sub_ok in Ok. cbn [r_pc r_tail] in Ok.
      destruct (negb _ && _) eqn:E; cbn [fst snd]; apply sub_generic; auto; try exact Logic.I.
      2:{ apply Keep; auto. reflexivity. }
      bool_prop. destruct Ok as [(A & B)|B]; [|lia].
      destruct (v_done _ _ _ I _ _ A) as (p & Hp). rewrite <- B in Hp.
      rewrite b_joined_app, b_received_app. cbn [b_joined b_received]. rewrite Nat.eqb_refl.
      destruct (b_joined c tr) as [pos|]; cbn in F; [|tauto]. destruct F as (F0 & F1 & F2 & F3).
      unfold follows; cbn. split; [tauto|]. split; [lia|].
      assert (Hlt : tail < H).
      { unfold H. rewrite <- (v_len _ _ _ I). apply nth_error_Some_lt in Hp. lia. }
      split; [left; lia|].
      rewrite (seg_app pos tail (tail + 1)) by lia. rewrite (seg_one tail (map snd log) acc).
      + apply skips_take; auto.
      + rewrite nth_error_map, Hp. auto.
  Qed.

  Lemma binv_step log tr s a : binv log tr s -> not_lapped k s ->
    exists more, binv (log ++ more) (tr ++ snd (b_step k W s a)) (fst (b_step k W s a)).
  Proof.
    intros I Hn. destruct a as [p arg|c]; [apply pub_binv; auto|].
    exists []. rewrite app_nil_r. apply sub_binv; auto.
  Qed.

  Lemma b_run_app s a b :
    b_run k W s (a ++ b) = (fst (b_run k W (fst (b_run k W s a)) b), snd (b_run k W s a) ++ snd (b_run k W (fst (b_run k W s a)) b)).
  Proof.
    revert s. induction a as [|x a IH]; intros s.
    - cbn. destruct (b_run k W s b); auto.
    - cbn [app b_run]. destruct (b_step k W s x) as [s1 e1]. rewrite IH.
      destruct (b_run k W s1 a) as [s2 e2]. cbn [fst snd]. rewrite app_assoc. auto.
  Qed.

  Lemma binv_run sched : forall log tr s, binv log tr s ->
    (forall pre suf, sched = pre ++ suf -> not_lapped k (fst (b_run k W s pre))) ->
    exists more, binv (log ++ more) (tr ++ snd (b_run k W s sched)) (fst (b_run k W s sched)).
  Proof.
    induction sched as [|a r IH]; intros log tr s I Hn.
    - exists []. cbn. rewrite !app_nil_r. auto.
    - destruct (binv_step _ _ _ a I (Hn [] (a :: r) eq_refl)) as (m1 & I1).
      cbn [b_run]. destruct (b_step k W s a) as [s1 e1] eqn:Es. cbn [fst snd] in I1.
      destruct (IH _ _ _ I1) as (m2 & I2).
      { intros pre suf ->. specialize (Hn (a :: pre) suf eq_refl). cbn [b_run] in Hn. rewrite Es in Hn.
        destruct (b_run k W s1 pre); auto. }
      destruct (b_run k W s1 r) as [s2 e2]. cbn [fst snd] in *.
      exists (m1 ++ m2). rewrite !app_assoc in *. auto.
  Qed.

  Lemma b_reach sched : never_lapped k W sched -> exists log, binv log (b_trace k W sched) (b_final k W sched).
  Proof. intros H. destruct (binv_run sched [] [] (b_init W) binv_init H) as (log & I). exists log. exact I. Qed.

  (** One publisher is never overtaken. *)
  Lemma one_publisher_alone p sched : one_publisher p sched ->
    (forall q, q <> p -> b_pub (b_final k W sched) q = BIdle) /\
    (forall x, place (b_pub (b_final k W sched) p) = Some x -> sm_head (b_mem (b_final k W sched)) = x + 1).
  Proof.
    unfold b_final. assert (H0 : (forall q, q <> p -> b_pub (b_init W) q = BIdle) /\
      (forall x, place (b_pub (b_init W) p) = Some x -> sm_head (b_mem (b_init W)) = x + 1)) by (split; auto; discriminate).
    revert H0. generalize (b_init W) as s. induction sched as [|a r IH]; intros s (H1 & H2) Ho; auto.
    apply Forall_cons_iff in Ho as [Ha Ho]. cbn [b_run].
    destruct (b_step k W s a) as [s1 e1] eqn:Es. specialize (IH s1).
    destruct (b_run k W s1 r) as [s2 e2]. cbn [fst] in *. apply IH; auto. clear IH Ho.
    destruct a as [q arg|c]; cbn [b_step] in Es.
    - subst q. destruct (pub_step k W p arg (b_mem s) (b_pub s p)) as [[mem pc] ev] eqn:Ep.
      injection Es as <- <-. cbn [b_pub b_mem]. split.
      + intros q Hq. rewrite updn_neq; auto.
      + rewrite updn_eq. unfold pub_step in Ep. destruct (b_pub s p) as [|m|m q|m q j|m q];
          [destruct (length arg =? W)%nat| | | |]; injection Ep as <- <- <-; cbn in *; try discriminate.
        * intros x E; injection E as <-. auto.
        * intros x. unfold b_start_write. destruct (W =? 0)%nat; cbn; auto.
        * intros x. destruct W as [|n]; cbn; auto. destruct (j =? n)%nat; cbn; auto.
    - destruct (sub_step k W c (b_mem s) (b_sub s c)) as [[mem t] ev] eqn:Ep. injection Es as <- <-. cbn [b_pub b_mem].
      split; auto. intros x Hx. rewrite <- (H2 x Hx).
      unfold sub_step in Ep. destruct (r_pc (b_sub s c)); cbn in Ep;
        repeat match type of Ep with context [if ?b then _ else _] => destruct b eqn:? end;
        injection Ep as <- <- <-; auto.
  Qed.
  Lemma one_publisher_never_lapped p sched : one_publisher p sched -> never_lapped k W sched.
  Proof.
    intros Ho pre suf -> r q Hq. apply Forall_app in Ho as [Ho _].
    destruct (one_publisher_alone p pre Ho) as (H1 & H2).
    destruct (Nat.eq_dec r p) as [->|Hn].
    - rewrite (H2 q Hq). pose proof (cap_pos k). unfold RingMem.cap in *. lia.
    - rewrite (H1 r Hn) in Hq. discriminate.
  Qed.

  Lemma binv_order log tr s : binv log tr s -> sent_order tr log.
  Proof.
    intros I p. rewrite (v_sent _ _ _ I p). pose proof (v_pend _ _ _ I p) as Hp.
    destruct (b_claim (b_pub s p)) as [[m q]|] eqn:E.
    - right. exists m. split; auto. rewrite Hp. destruct (b_pub s p); cbn in *; congruence.
    - left. apply app_nil_r.
  Qed.
  Lemma binv_followed log tr s c pos : binv log tr s -> b_joined c tr = Some pos ->
    followed log pos (missed_count c s) (b_received c tr).
  Proof.
    intros I E. pose proof (v_follow _ _ _ I c) as F. rewrite E in F. destruct F as (F0 & F1 & F2 & F3).
    exists (seg pos (r_tail (b_sub s c)) (map snd log)), (skipn (N.to_nat (r_tail (b_sub s c) - pos)) (skipn (N.to_nat pos) (map snd log))).
    split; auto. symmetry. apply firstn_skipn.
  Qed.
End Inv.
