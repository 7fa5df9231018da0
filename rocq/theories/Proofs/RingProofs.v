(** Invariant of the queue-mode ring and its consequences. *)
From Verif.Base Require Import Prelude.
From Verif.Model Require Import RingMem Ring.
From Verif.Spec Require Import RingSpec.
From Verif.Proofs Require Import RingMemProofs.
Local Open Scope N_scope.

(** ** Traces *)
Lemma accepted_app p a b : accepted p (a ++ b) = accepted p a ++ accepted p b.
Proof.
  induction a as [|e a IH]; auto. destruct e; cbn [accepted app]; auto.
  destruct (p0 =? p)%nat; cbn [app]; congruence.
Qed.
Lemma received_app a b : received (a ++ b) = received a ++ received b.
Proof. induction a as [|e a IH]; auto. destruct e; cbn [received app]; auto. congruence. Qed.
Lemma pending_from_app o p a b : pending_from o p (a ++ b) = pending_from (pending_from o p a) p b.
Proof. revert o; induction a as [|e a IH]; intros o; auto. destruct e; cbn [pending_from app]; auto. Qed.
Lemma pending_app p a b : pending p (a ++ b) = pending_from (pending p a) p b.
Proof. apply pending_from_app. Qed.
Lemma n_accepted_app a b : n_accepted (a ++ b) = (n_accepted a + n_accepted b)%nat.
Proof. induction a as [|e a IH]; auto. destruct e; cbn [n_accepted app]; rewrite ?IH; auto. Qed.
Lemma by_publisher_app p a b : by_publisher p (a ++ b) = by_publisher p a ++ by_publisher p b.
Proof. unfold by_publisher. rewrite filter_app, map_app. auto. Qed.
Lemma by_publisher_one p q m : by_publisher p [(q, m)] = if (q =? p)%nat then [m] else [].
Proof. unfold by_publisher; cbn. destruct (q =? p)%nat; auto. Qed.

Definition pc_pending (pc : ppc) : option msg :=
  match pc with
  | PHead m | PTail m _ | PCas m _ | PWrite m _ _ | PStamp m _ => Some m
  | _ => None
  end.
Definition claim (pc : ppc) : option (msg * N) :=
  match pc with
  | PWrite m q _ | PStamp m q => Some (m, q)
  | _ => None
  end.

Section Inv.
  Variables (k : N) (W : nat).
  Notation cap := (cap k).
  Notation slot := (slot k).

  Record inv (log : list (nat * msg)) (tr : list event) (s : sys) : Prop := Inv {
    i_len : N.of_nat (length log) = sm_head (s_mem s);
    i_T : sm_tail (s_mem s) <= c_tail (s_cons s);
    i_LT : c_tail (s_cons s) <= sm_head (s_mem s);
    i_cap : sm_head (s_mem s) <= sm_tail (s_mem s) + cap;
    i_ptail : forall p, p_tail (s_prod s p) <= sm_tail (s_mem s);
    i_cas : forall p m h, p_pc (s_prod s p) = PCas m h ->
              p_tail (s_prod s p) <= h -> h < p_tail (s_prod s p) + cap;
    i_mlen : forall p m, pc_pending (p_pc (s_prod s p)) = Some m -> length m = W;
    i_ready_le : forall i, st_num (sm_ready (s_mem s) i) <= sm_head (s_mem s);
    i_claim : forall p m q, claim (p_pc (s_prod s p)) = Some (m, q) ->
              c_tail (s_cons s) <= q < sm_head (s_mem s) /\
              nth_error log (N.to_nat q) = Some (p, m) /\
              st_num (sm_ready (s_mem s) (slot q)) <> q + 1;
    i_slots : forall q, c_tail (s_cons s) <= q < sm_head (s_mem s) ->
              exists p m, nth_error log (N.to_nat q) = Some (p, m) /\
              ((sm_ready (s_mem s) (slot q) = Stamp false (q + 1) /\ sm_data (s_mem s) (slot q) = m) \/
               claim (p_pc (s_prod s p)) = Some (m, q));
    i_write : forall p m q j, p_pc (s_prod s p) = PWrite m q j ->
              (j < W)%nat /\ firstn j (sm_data (s_mem s) (slot q)) = firstn j m;
    i_stamp : forall p m q, p_pc (s_prod s p) = PStamp m q -> sm_data (s_mem s) (slot q) = m;
    i_dlen : forall i, length (sm_data (s_mem s) i) = W;
    i_chead : c_tail (s_cons s) <= c_head (s_cons s) <= sm_head (s_mem s);
    i_cpc : match c_pc (s_cons s) with
            | CIdle | CHead => True
            | CReady => c_tail (s_cons s) < c_head (s_cons s)
            | CRead acc => (length acc < W)%nat /\ c_tail (s_cons s) < c_head (s_cons s) /\
                st_num (sm_ready (s_mem s) (slot (c_tail (s_cons s)))) = c_tail (s_cons s) + 1 /\
                acc = firstn (length acc) (sm_data (s_mem s) (slot (c_tail (s_cons s)))) 
            | CDone acc => c_tail (s_cons s) < c_head (s_cons s) /\
                st_num (sm_ready (s_mem s) (slot (c_tail (s_cons s)))) = c_tail (s_cons s) + 1 /\
                acc = sm_data (s_mem s) (slot (c_tail (s_cons s)))
            end;
    i_recv : received tr = map snd (firstn (N.to_nat (c_tail (s_cons s))) log);
    i_acc : forall p, by_publisher p log =
              accepted p tr ++ match claim (p_pc (s_prod s p)) with Some (m, _) => [m] | None => [] end;
    i_pend : forall p, pending p tr = pc_pending (p_pc (s_prod s p))
  }.

  Lemma inv_init : inv [] [] (init W).
  Proof.
    constructor; cbn; intros; try discriminate; auto; try lia.
    all: try (rewrite repeat_length; auto).
  Qed.

  (** A publisher step that touches no shared memory and claims nothing. *)
  Lemma inv_local log tr s p t' ev :
    inv log tr s ->
    claim (p_pc (s_prod s p)) = None -> claim (p_pc t') = None ->
    p_tail t' <= sm_tail (s_mem s) ->
    (forall m h, p_pc t' = PCas m h -> p_tail t' <= h -> h < p_tail t' + cap) ->
    (forall m, pc_pending (p_pc t') = Some m -> length m = W) ->
    received ev = [] -> (forall q, accepted q ev = []) ->
    pending_from (pc_pending (p_pc (s_prod s p))) p ev = pc_pending (p_pc t') ->
    (forall o q, q <> p -> pending_from o q ev = o) ->
    inv log (tr ++ ev) (Sys (s_mem s) (updn (s_prod s) p t') (s_cons s)).
  Proof.
    intros I Hc Hc' Ht Hcas Hm Hr Ha Hp Hpo. destruct I.
    assert (Hpc : forall q, p_pc (updn (s_prod s) p t' q) = if (q =? p)%nat then p_pc t' else p_pc (s_prod s q)).
    { intros q. unfold updn. destruct (q =? p)%nat; auto. }
    constructor; cbn [s_mem s_prod s_cons]; auto.
    - intros q. unfold updn. destruct (q =? p)%nat; auto.
    - intros q m h. unfold updn. destruct (q =? p)%nat; eauto.
    - intros q m. unfold updn. destruct (q =? p)%nat; eauto.
    - intros q m x. rewrite Hpc. destruct (q =? p)%nat; [congruence|eauto].
    - intros q Hq. destruct (i_slots0 q Hq) as (r & m & H1 & H2). exists r, m. split; auto.
      destruct H2 as [H2|H2]; auto. right. rewrite Hpc. destruct (Nat.eqb_spec r p); congruence.
    - intros q m x j. rewrite Hpc. destruct (q =? p)%nat; [|eauto].
      intros E. rewrite E in Hc'. discriminate.
    - intros q m x. rewrite Hpc. destruct (q =? p)%nat; [|eauto].
      intros E. rewrite E in Hc'. discriminate.
    - rewrite received_app, Hr, app_nil_r. auto.
    - intros q. rewrite accepted_app, Ha, app_nil_r, Hpc, i_acc0.
      destruct (Nat.eqb_spec q p) as [->|]; auto. rewrite Hc, Hc'. auto.
    - intros q. rewrite pending_app, Hpc. destruct (Nat.eqb_spec q p) as [->|].
      + rewrite i_pend0. auto.
      + rewrite Hpo; auto.
  Qed.

  (** Winning the compare-exchange: the message takes its place in the order. *)
  Lemma inv_claim log tr s p m h :
    inv log tr s -> p_pc (s_prod s p) = PCas m h -> sm_head (s_mem s) = h ->
    inv (log ++ [(p, m)]) tr
      (Sys (set_head (s_mem s) (h + 1))
           (updn (s_prod s) p (PSt (start_write W m h) (p_tail (s_prod s p)))) (s_cons s)).
  Proof.
    intros I Hpc Hh. pose proof I as I0. destruct I.
    set (t' := PSt _ _).
    assert (Hroom : h < sm_tail (s_mem s) + cap).
    { pose proof (i_cas0 p m h Hpc). pose proof (i_ptail0 p). lia. }
    assert (Hml : length m = W). { apply (i_mlen0 p). rewrite Hpc. auto. }
    assert (Hcl : claim (p_pc t') = Some (m, h)).
    { subst t'. unfold start_write; cbn. destruct (W =? 0)%nat; auto. }
    assert (Hpd : pc_pending (p_pc t') = Some m).
    { subst t'. unfold start_write; cbn. destruct (W =? 0)%nat; auto. }
    assert (Hlen : length log = N.to_nat h) by lia.
    constructor; cbn [s_mem s_prod s_cons set_head sm_head sm_tail sm_ready sm_data]; auto; try lia.
    - rewrite app_length. cbn [length]. lia.
    - intros q. unfold updn. destruct (q =? p)%nat eqn:E; auto. cbn. auto.
    - intros q x y. unfold updn. destruct (q =? p)%nat eqn:E; [|apply i_cas0].
      subst t'; cbn. unfold start_write. destruct (W =? 0)%nat; discriminate.
    - intros q x. unfold updn. destruct (q =? p)%nat eqn:E; [|apply i_mlen0]. congruence.
    - intros i. specialize (i_ready_le0 i). lia.
    - intros q x y. unfold updn. destruct (Nat.eqb_spec q p) as [->|Hn].
      + rewrite Hcl. intros E; injection E as <- <-. split; [lia|]. split.
        * rewrite <- Hlen. apply nth_error_snoc_last.
        * specialize (i_ready_le0 (slot h)). lia.
      + intros E. destruct (i_claim0 q x y E) as (H1 & H2 & H3). split; [lia|]. split; auto.
        apply nth_error_app_old; auto.
    - intros q Hq. destruct (N.eq_dec q h) as [->|Hn].
      + exists p, m. split; [rewrite <- Hlen; apply nth_error_snoc_last|]. right. rewrite updn_eq. auto.
      + destruct (i_slots0 q) as (r & x & H1 & H2); [lia|]. exists r, x. split; [apply nth_error_app_old; auto|].
        destruct H2 as [H2|H2]; auto. right. unfold updn. destruct (Nat.eqb_spec r p) as [->|]; auto.
        rewrite Hpc in H2. discriminate.
    - intros q x y j. unfold updn. destruct (Nat.eqb_spec q p) as [->|Hn]; [|apply i_write0].
      subst t'; cbn. unfold start_write. destruct (Nat.eqb_spec W 0); [discriminate|].
      intros E; injection E as <- <- <-. split; [lia|reflexivity].
    - intros q x y. unfold updn. destruct (Nat.eqb_spec q p) as [->|Hn]; [|apply i_stamp0].
      subst t'; cbn. unfold start_write. destruct (Nat.eqb_spec W 0) as [E0|]; [|discriminate].
      intros E; injection E as <- <-. specialize (i_dlen0 (slot h)).
      rewrite E0 in *. destruct m; [|discriminate]. apply length_zero_iff_nil; auto.
    - rewrite i_recv0. rewrite firstn_app. replace (N.to_nat _ - length log)%nat with 0%nat by lia.
      rewrite app_nil_r. auto.
    - intros q. rewrite by_publisher_app, i_acc0, by_publisher_one. unfold updn.
      rewrite (Nat.eqb_sym q p). destruct (Nat.eqb_spec p q) as [->|Hn].
      + rewrite Hpc, Hcl. cbn [claim]. rewrite app_nil_r. auto.
      + rewrite app_nil_r. auto.
    - intros q. unfold updn. destruct (Nat.eqb_spec q p) as [->|Hn]; auto.
      rewrite i_pend0, Hpc, Hpd. auto.
  Qed.

  (** Two different live positions use different slots. *)
  Lemma live_slots log tr s a b :
    inv log tr s ->
    c_tail (s_cons s) <= a < sm_head (s_mem s) -> c_tail (s_cons s) <= b < sm_head (s_mem s) ->
    a <> b -> slot a <> slot b.
  Proof.
    intros I Ha Hb. apply (slot_neq k a b (c_tail (s_cons s)) (sm_head (s_mem s))); auto.
    pose proof (i_cap _ _ _ I). pose proof (i_T _ _ _ I). lia.
  Qed.

  (** Two publishers never hold the same position. *)
  Lemma claims_differ log tr s p p' m m' q q' :
    inv log tr s -> claim (p_pc (s_prod s p)) = Some (m, q) -> claim (p_pc (s_prod s p')) = Some (m', q') ->
    p <> p' -> q <> q'.
  Proof.
    intros I H1 H2 Hn ->. destruct (i_claim _ _ _ I _ _ _ H1) as (_ & E1 & _).
    destruct (i_claim _ _ _ I _ _ _ H2) as (_ & E2 & _). congruence.
  Qed.

  Lemma inv_write log tr s p m q j :
    inv log tr s -> p_pc (s_prod s p) = PWrite m q j ->
    inv log tr
      (Sys (set_data (s_mem s) (slot q) j (nth j m 0))
           (updn (s_prod s) p (PSt (if Nat.eqb (S j) W then PStamp m q else PWrite m q (S j)) (p_tail (s_prod s p))))
           (s_cons s)).
  Proof.
    intros I Hpc. pose proof I as I0. destruct I.
    set (t' := PSt _ _).
    assert (Hcl0 : claim (p_pc (s_prod s p)) = Some (m, q)) by (rewrite Hpc; auto).
    destruct (i_claim0 p m q Hcl0) as (Hq & Hnth & Hnr).
    destruct (i_write0 p m q j Hpc) as (Hj & Hfst).
    assert (Hml : length m = W). { apply (i_mlen0 p). rewrite Hpc. auto. }
    assert (Hcl : claim (p_pc t') = Some (m, q)). { subst t'; cbn. destruct W; auto. destruct (j =? n)%nat; auto. }
    assert (Hpd : pc_pending (p_pc t') = Some m). { subst t'; cbn. destruct W; auto. destruct (j =? n)%nat; auto. }
    assert (Hclq : forall r, claim (p_pc (updn (s_prod s) p t' r)) = claim (p_pc (s_prod s r))).
    { intros r. unfold updn. destruct (Nat.eqb_spec r p) as [->|]; congruence. }
    assert (Hpdq : forall r, pc_pending (p_pc (updn (s_prod s) p t' r)) = pc_pending (p_pc (s_prod s r))).
    { intros r. unfold updn. destruct (Nat.eqb_spec r p) as [->|]; auto. rewrite Hpd, Hpc. auto. }
    assert (Hdat : forall x, c_tail (s_cons s) <= x < sm_head (s_mem s) -> x <> q ->
              upd (sm_data (s_mem s)) (slot q) (set_word j (nth j m 0) (sm_data (s_mem s) (slot q))) (slot x)
              = sm_data (s_mem s) (slot x)).
    { intros x Hx Hn. apply upd_neq. apply (live_slots log tr s); auto. }
    assert (Hnew : firstn (S j) (set_word j (nth j m 0) (sm_data (s_mem s) (slot q))) = firstn (S j) m).
    { rewrite set_word_firstn by (rewrite i_dlen0; auto). rewrite (firstn_snoc 0) by lia. congruence. }
    constructor; cbn [s_mem s_prod s_cons set_data sm_head sm_tail sm_ready sm_data]; auto.
    - intros r. unfold updn. destruct (r =? p)%nat eqn:E; auto. cbn. auto.
    - intros r x y. unfold updn. destruct (r =? p)%nat eqn:E; [|apply i_cas0].
      subst t'; cbn. destruct W; try discriminate. destruct (j =? n)%nat; discriminate.
    - intros r x. rewrite Hpdq. apply i_mlen0.
    - intros r x y. rewrite Hclq. apply i_claim0.
    - intros x Hx. destruct (i_slots0 x Hx) as (r & y & H1 & H2). exists r, y. split; auto.
      destruct H2 as [(H2 & H3)|H2].
      + left. split; auto. rewrite Hdat; auto. intros ->. rewrite H2 in Hnr. cbn in Hnr. lia.
      + right. rewrite Hclq. auto.
    - intros r x y i. unfold updn at 1. destruct (Nat.eqb_spec r p) as [->|Hn].
      + subst t'; cbn [p_pc]. destruct (Nat.eqb_spec (S j) W); [discriminate|].
        intros E; injection E as <- <- <-. split; [lia|]. rewrite upd_eq. auto.
      + intros E. destruct (i_write0 r x y i E). split; auto.
        assert (Hy : claim (p_pc (s_prod s r)) = Some (x, y)) by (rewrite E; auto).
        rewrite Hdat; auto.
        * apply (i_claim0 _ _ _ Hy).
        * apply (claims_differ _ _ _ r p x m y q I0); auto.
    - intros r x y. unfold updn at 1. destruct (Nat.eqb_spec r p) as [->|Hn].
      + subst t'; cbn [p_pc]. destruct (Nat.eqb_spec (S j) W) as [e|]; [|discriminate].
        intros E; injection E as <- <-. rewrite upd_eq. rewrite e in Hnew.
        rewrite !firstn_all2 in Hnew; auto; rewrite ?set_word_length, ?i_dlen0; lia.
      + intros E. assert (Hy : claim (p_pc (s_prod s r)) = Some (x, y)) by (rewrite E; auto).
        rewrite Hdat; auto.
        * apply (i_stamp0 r); auto.
        * apply (i_claim0 _ _ _ Hy).
        * apply (claims_differ _ _ _ r p x m y q I0); auto.
    - intros i. unfold upd. destruct (i =? slot q); auto. rewrite set_word_length. auto.
    - destruct (c_pc (s_cons s)) as [| | |acc|acc]; auto.
      + destruct i_cpc0 as (H1 & H0 & H2 & H3). split; auto. split; auto. split; auto.
        rewrite Hdat; [auto|lia|]. intros e. rewrite e in H2. congruence.
      + destruct i_cpc0 as (H1 & H2 & H3). split; auto. split; auto.
        rewrite Hdat; [auto|lia|]. intros e. rewrite e in H2. congruence.
    - intros r. rewrite Hclq. auto.
    - intros r. rewrite Hpdq. auto.
  Qed.

  Lemma inv_stamp log tr s p m q :
    inv log tr s -> p_pc (s_prod s p) = PStamp m q ->
    inv log (tr ++ [EOk p m])
      (Sys (set_ready (s_mem s) (slot q) (Stamp false (q + 1)))
           (updn (s_prod s) p (PSt PIdle (p_tail (s_prod s p)))) (s_cons s)).
  Proof.
    intros I Hpc. pose proof I as I0. destruct I.
    assert (Hcl0 : claim (p_pc (s_prod s p)) = Some (m, q)) by (rewrite Hpc; auto).
    destruct (i_claim0 p m q Hcl0) as (Hq & Hnth & Hnr).
    pose proof (i_stamp0 p m q Hpc) as Hd.
    assert (Hrdy : forall x, c_tail (s_cons s) <= x < sm_head (s_mem s) -> x <> q ->
              upd (sm_ready (s_mem s)) (slot q) (Stamp false (q + 1)) (slot x) = sm_ready (s_mem s) (slot x)).
    { intros x Hx Hn. apply upd_neq. apply (live_slots log tr s); auto. }
    constructor; cbn [s_mem s_prod s_cons set_ready sm_head sm_tail sm_ready sm_data]; auto.
    - intros r. unfold updn. destruct (r =? p)%nat eqn:E; auto. cbn. auto.
    - intros r x y. unfold updn. destruct (r =? p)%nat eqn:E; [discriminate|apply i_cas0].
    - intros r x. unfold updn. destruct (r =? p)%nat eqn:E; [discriminate|apply i_mlen0].
    - intros i. unfold upd. destruct (i =? slot q); auto. cbn. lia.
    - intros r x y. unfold updn. destruct (Nat.eqb_spec r p) as [->|Hn]; [discriminate|].
      intros Hc. destruct (i_claim0 r x y Hc) as (H1 & H2 & H3). split; auto. split; auto.
      rewrite Hrdy; auto. apply (claims_differ _ _ _ r p x m y q I0); auto.
    - intros x Hx. destruct (N.eq_dec x q) as [->|Hn].
      + exists p, m. split; auto. left. rewrite upd_eq. auto.
      + destruct (i_slots0 x Hx) as (r & y & H1 & H2). exists r, y. split; auto.
        rewrite Hrdy by auto. destruct H2 as [H2|H2]; auto. right.
        rewrite updn_neq; auto. intros ->. rewrite Hcl0 in H2. congruence.
    - intros r x y i. unfold updn at 1. destruct (Nat.eqb_spec r p) as [->|Hn]; [discriminate|apply i_write0].
    - intros r x y. unfold updn at 1. destruct (Nat.eqb_spec r p) as [->|Hn]; [discriminate|apply i_stamp0].
    - destruct (c_pc (s_cons s)) as [| | |acc|acc]; auto.
      + destruct i_cpc0 as (H1 & H0 & H2 & H3). split; auto. split; auto. split; auto.
        rewrite Hrdy; [auto|lia|]. intros e. rewrite e in H2. congruence.
      + destruct i_cpc0 as (H1 & H2 & H3). split; auto. split; auto.
        rewrite Hrdy; [auto|lia|]. intros e. rewrite e in H2. congruence.
    - rewrite received_app. cbn [received]. rewrite app_nil_r. auto.
    - intros r. rewrite accepted_app. cbn [accepted]. unfold updn.
      rewrite i_acc0, (Nat.eqb_sym p r). destruct (Nat.eqb_spec r p) as [->|Hn].
      + rewrite Hcl0. cbn [claim p_pc]. rewrite app_nil_r. auto.
      + rewrite app_nil_r. auto.
    - intros r. rewrite pending_app. cbn [pending_from]. unfold updn.
      rewrite (Nat.eqb_sym p r). destruct (Nat.eqb_spec r p) as [->|Hn]; auto.
  Qed.

  (** The subscriber's steps that do not finish a receive. *)
  Lemma inv_cons_local log tr s c' ev :
    inv log tr s -> c_tail c' = c_tail (s_cons s) ->
    c_tail c' <= c_head c' <= sm_head (s_mem s) ->
    (match c_pc c' with
     | CIdle | CHead => True
     | CReady => c_tail c' < c_head c'
     | CRead acc => (length acc < W)%nat /\ c_tail c' < c_head c' /\
         st_num (sm_ready (s_mem s) (slot (c_tail c'))) = c_tail c' + 1 /\
         acc = firstn (length acc) (sm_data (s_mem s) (slot (c_tail c'))) 
     | CDone acc => c_tail c' < c_head c' /\
         st_num (sm_ready (s_mem s) (slot (c_tail c'))) = c_tail c' + 1 /\
         acc = sm_data (s_mem s) (slot (c_tail c'))
     end) ->
    ev = [] \/ ev = [ENone] ->
    inv log (tr ++ ev) (Sys (s_mem s) (s_prod s) c').
  Proof.
    intros I Ht Hh Hpc Hev. destruct I.
    constructor; cbn [s_mem s_prod s_cons]; rewrite ?Ht; auto; try (rewrite <- Ht; auto; fail).
    - rewrite received_app. destruct Hev as [->| ->]; cbn [received]; rewrite app_nil_r; auto.
    - intros p. rewrite accepted_app. destruct Hev as [->| ->]; cbn [accepted]; rewrite app_nil_r; auto.
    - intros p. rewrite pending_app. destruct Hev as [->| ->]; cbn [pending_from]; auto.
  Qed.

  Lemma inv_done log tr s acc :
    inv log tr s -> c_pc (s_cons s) = CDone acc ->
    inv log (tr ++ [ERecv acc])
      (Sys (if N.land (c_tail (s_cons s) + 1) (flush_mask k) =? 0
            then set_tail (s_mem s) (c_tail (s_cons s) + 1) else s_mem s)
           (s_prod s) (CSt CIdle (c_head (s_cons s)) (c_tail (s_cons s) + 1))).
  Proof.
    intros I Hpc. pose proof I as I0. destruct I. rewrite Hpc in i_cpc0. destruct i_cpc0 as (Hlt & Hst & Hacc).
    assert (Hr : exists r, nth_error log (N.to_nat (c_tail (s_cons s))) = Some (r, acc)).
    { destruct (i_slots0 (c_tail (s_cons s))) as (r & x & H1 & [(H2 & H3)|H2]); [lia| |].
      - exists r. congruence.
      - destruct (i_claim0 _ _ _ H2) as (_ & _ & H3). congruence. }
    destruct Hr as (r & Hr).
    assert (Hnc : forall p m q, claim (p_pc (s_prod s p)) = Some (m, q) -> c_tail (s_cons s) + 1 <= q).
    { intros p m q Hc. destruct (i_claim0 _ _ _ Hc) as (H1 & _ & H3).
      assert (q <> c_tail (s_cons s)) by congruence. lia. }
    set (mem' := if _ =? 0 then _ else _).
    assert (E1 : sm_head mem' = sm_head (s_mem s)) by (unfold mem'; destruct (_ =? 0); auto).
    assert (E2 : sm_ready mem' = sm_ready (s_mem s)) by (unfold mem'; destruct (_ =? 0); auto).
    assert (E3 : sm_data mem' = sm_data (s_mem s)) by (unfold mem'; destruct (_ =? 0); auto).
    assert (E4 : sm_tail (s_mem s) <= sm_tail mem' <= c_tail (s_cons s) + 1).
    { unfold mem'; destruct (_ =? 0); cbn; lia. }
    clearbody mem'.
    constructor; cbn [s_mem s_prod s_cons c_tail c_head c_pc]; rewrite ?E1, ?E2, ?E3; auto; try lia.
    - intros p. specialize (i_ptail0 p). lia.
    - intros p m q Hc. destruct (i_claim0 _ _ _ Hc) as (H1 & H2 & H3). specialize (Hnc _ _ _ Hc).
      split; [lia|]. auto.
    - intros q Hq. apply i_slots0. lia.
    - rewrite received_app, i_recv0. cbn [received]. rewrite N.add_1_r, N2Nat.inj_succ.
      rewrite (firstn_succ_nth _ _ _ Hr). rewrite map_app. reflexivity.
    - intros p. rewrite accepted_app. cbn [accepted]. rewrite app_nil_r. auto.
    - intros p. rewrite pending_app. cbn [pending_from]. auto.
  Qed.

  Lemma full_for_false h t : full_for k h t = false -> t <= h -> h < t + cap.
  Proof. unfold full_for. intros H Ht. apply N.leb_gt in H. rewrite wsub_ge in H by auto. lia. Qed.

  Lemma inv_step log tr s a :
    inv log tr s -> exists more, inv (log ++ more) (tr ++ snd (step k W s a)) (fst (step k W s a)).
  Proof.
    intros I. destruct a as [p arg weak|].
    - cbn [step]. unfold prod_step. destruct (p_pc (s_prod s p)) as [| |m|m h|m h|m q j|m q] eqn:Epc.
      + cbn [fst snd]. exists []. rewrite app_nil_r. apply inv_local; auto; cbn; try discriminate; rewrite ?Epc; auto; lia.
      + exists []. rewrite app_nil_r. destruct (Nat.eqb_spec (length arg) W) as [e|e]; cbn [fst snd].
        * apply inv_local; auto; cbn; try discriminate; rewrite ?Epc; auto.
          -- apply (i_ptail _ _ _ I).
          -- congruence.
          -- rewrite Nat.eqb_refl. auto.
          -- intros o q Hq. destruct (Nat.eqb_spec p q); congruence.
        * replace (updn (s_prod s) p (s_prod s p)) with (updn (s_prod s) p (s_prod s p)) by auto.
          apply inv_local; auto; rewrite ?Epc; try discriminate; auto. apply (i_ptail _ _ _ I).
      + exists []. rewrite app_nil_r.
        assert (Hml : length m = W) by (apply (i_mlen _ _ _ I p); rewrite Epc; auto).
        destruct (full_for k (sm_head (s_mem s)) (p_tail (s_prod s p))) eqn:Ef; cbn [fst snd];
          apply inv_local; auto; cbn; try discriminate; rewrite ?Epc; auto; try congruence.
        * apply (i_ptail _ _ _ I).
        * apply (i_ptail _ _ _ I).
        * intros m0 h0 E; injection E as <- <-. apply full_for_false; auto.
      + exists []. rewrite app_nil_r.
        assert (Hml : length m = W) by (apply (i_mlen _ _ _ I p); rewrite Epc; auto).
        destruct (full_for k h (sm_tail (s_mem s))) eqn:Ef; cbn [fst snd];
          apply inv_local; auto; cbn; try discriminate; rewrite ?Epc; auto; try congruence; try lia.
        * rewrite Nat.eqb_refl. auto.
        * intros o q Hq. destruct (Nat.eqb_spec p q); congruence.
        * intros m0 h0 E; injection E as <- <-. apply full_for_false; auto.
      + destruct (negb weak && (sm_head (s_mem s) =? h)) eqn:Ec; cbn [fst snd].
        * bool_prop. exists [(p, m)]. rewrite app_nil_r. apply inv_claim; auto.
        * exists []. rewrite app_nil_r.
          assert (Hml : length m = W) by (apply (i_mlen _ _ _ I p); rewrite Epc; auto).
          apply inv_local; auto; cbn; try discriminate; rewrite ?Epc; auto; try congruence.
          apply (i_ptail _ _ _ I).
      + exists []. rewrite app_nil_r. cbn [fst snd]. rewrite app_nil_r. apply inv_write; auto.
      + exists []. rewrite app_nil_r. cbn [fst snd]. apply inv_stamp; auto.
    - exists []. rewrite app_nil_r. cbn [step]. unfold cons_step.
      pose proof (i_chead _ _ _ I) as Hh. pose proof (i_LT _ _ _ I) as HL.
      pose proof (i_cpc _ _ _ I) as Hp.
      destruct (c_pc (s_cons s)) as [| | |acc|acc] eqn:Epc.
      + destruct (wsub (c_head (s_cons s)) (c_tail (s_cons s)) =? 0) eqn:E; cbn [fst snd];
          apply inv_cons_local; cbn; auto. apply wsub_nonzero in E; lia.
      + destruct (wsub (sm_head (s_mem s)) (c_tail (s_cons s)) =? 0) eqn:E; cbn [fst snd];
          apply inv_cons_local; cbn; auto; try lia. apply wsub_nonzero in E; lia.
      + destruct (negb _ && _) eqn:E; cbn [fst snd]; apply inv_cons_local; cbn; auto.
        bool_prop. unfold start_read. destruct (Nat.eqb_spec W 0) as [e|e].
        * repeat split; auto. pose proof (i_dlen _ _ _ I (slot (c_tail (s_cons s)))) as Hl.
          rewrite e in Hl. symmetry. apply length_zero_iff_nil; auto.
        * cbn [length]. repeat split; auto; lia.
      + destruct Hp as (H1 & H2 & H3 & H4). cbn [fst snd]. apply inv_cons_local; cbn; auto.
        pose proof (i_dlen _ _ _ I (slot (c_tail (s_cons s)))) as Hl.
        set (d := sm_data (s_mem s) (slot (c_tail (s_cons s)))) in *.
        assert (Ha : acc ++ [nth (length acc) d 0] = firstn (S (length acc)) d).
        { rewrite (firstn_snoc 0) by lia. congruence. }
        rewrite Ha. rewrite firstn_length_le by lia.
        destruct (Nat.eqb_spec (S (length acc)) W) as [e|e].
        * repeat split; auto. rewrite firstn_all2; auto. lia.
        * rewrite firstn_length_le by lia. repeat split; auto. lia.
      + cbn [fst snd]. apply inv_done; auto.
  Qed.

  Lemma inv_run log tr s sched :
    inv log tr s -> exists more, inv (log ++ more) (tr ++ snd (run k W s sched)) (fst (run k W s sched)).
  Proof.
    revert log tr s. induction sched as [|a r IH]; intros log tr s I.
    - exists []. cbn. rewrite !app_nil_r. auto.
    - destruct (inv_step _ _ _ a I) as (m1 & I1). cbn [run]. destruct (step k W s a) as [s1 e1].
      cbn [fst snd] in I1. destruct (IH _ _ _ I1) as (m2 & I2).
      destruct (run k W s1 r) as [s2 e2]. cbn [fst snd] in *.
      exists (m1 ++ m2). rewrite !app_assoc in *. auto.
  Qed.

  Lemma run_app s a b :
    run k W s (a ++ b) = (fst (run k W (fst (run k W s a)) b), snd (run k W s a) ++ snd (run k W (fst (run k W s a)) b)).
  Proof.
    revert s. induction a as [|x a IH]; intros s.
    - cbn. destruct (run k W s b); auto.
    - cbn [app run]. destruct (step k W s x) as [s1 e1]. rewrite IH.
      destruct (run k W s1 a) as [s2 e2]. cbn [fst snd]. rewrite app_assoc. auto.
  Qed.

  Lemma inv_history log tr s : inv log tr s -> queue_history tr log.
  Proof.
    intros I. split.
    - intros p. rewrite (i_acc _ _ _ I p). pose proof (i_pend _ _ _ I p) as Hp.
      destruct (claim (p_pc (s_prod s p))) as [[m q]|] eqn:E.
      + right. exists m. split; auto. rewrite Hp. destruct (p_pc (s_prod s p)); cbn in *; congruence.
      + left. apply app_nil_r.
    - exists (firstn (N.to_nat (c_tail (s_cons s))) log), (skipn (N.to_nat (c_tail (s_cons s))) log).
      split; [symmetry; apply firstn_skipn|]. split; [apply (i_recv _ _ _ I)|].
      intros p. pose proof (i_acc _ _ _ I p) as Ha.
      rewrite <- (firstn_skipn (N.to_nat (c_tail (s_cons s))) log) in Ha at 1.
      rewrite by_publisher_app in Ha.
      destruct (claim (p_pc (s_prod s p))) as [[m q]|] eqn:E.
      + destruct (i_claim _ _ _ I _ _ _ E) as (Hq & Hn & _).
        assert (Hin : In m (by_publisher p (skipn (N.to_nat (c_tail (s_cons s))) log))).
        { unfold by_publisher. apply in_map_iff. exists (p, m). split; auto. apply filter_In.
          split; [|cbn; apply Nat.eqb_refl].
          rewrite <- (firstn_skipn (N.to_nat (c_tail (s_cons s))) log) in Hn.
          rewrite nth_error_app2 in Hn; [apply nth_error_In in Hn; auto|].
          rewrite firstn_length. lia. }
        destruct (by_publisher p (skipn _ log)) as [|x l] using rev_ind; [destruct Hin|].
        rewrite app_assoc in Ha. apply app_inj_tail in Ha as [Ha _]. exists l. auto.
      + rewrite app_nil_r in Ha. exists (by_publisher p (skipn (N.to_nat (c_tail (s_cons s))) log)). auto.
  Qed.

  Lemma reach sched : exists log, inv log (trace k W sched) (final k W sched).
  Proof. destruct (inv_run [] [] (init W) sched inv_init) as (log & I). exists log. exact I. Qed.

  Lemma history sched1 sched2 : exists o more,
    queue_history (trace k W sched1) o /\ queue_history (trace k W (sched1 ++ sched2)) (o ++ more).
  Proof.
    destruct (reach sched1) as (o & I). destruct (inv_run _ _ _ sched2 I) as (more & I2).
    exists o, more. split; [eapply inv_history; eauto|]. unfold trace. rewrite run_app.
    eapply inv_history; eauto.
  Qed.

  (** ** Counting *)
  Fixpoint sumto (f : nat -> nat) (n : nat) : nat :=
    match n with O => O | S n' => (sumto f n' + f n')%nat end.
  Lemma sumto_le f g n : (forall i, (f i <= g i)%nat) -> (sumto f n <= sumto g n)%nat.
  Proof. intros H. induction n; cbn; auto. specialize (H n). lia. Qed.
  Lemma sumto_ext f g n : (forall i, f i = g i) -> sumto f n = sumto g n.
  Proof. intros H. induction n; cbn; auto. Qed.
  Lemma sumto_add f g n : sumto (fun i => (f i + g i)%nat) n = (sumto f n + sumto g n)%nat.
  Proof. induction n; cbn; lia. Qed.
  Lemma sumto_one p n : (p < n)%nat -> sumto (fun i => if (p =? i)%nat then 1%nat else 0%nat) n = 1%nat.
  Proof.
    induction n; intros H; [lia|]. cbn [sumto]. destruct (Nat.eqb_spec p n) as [->|].
    - assert (E : sumto (fun i => if (n =? i)%nat then 1%nat else 0%nat) n = 0%nat).
      { clear. assert (G : forall a, (a <= n)%nat -> sumto (fun i => if (n =? i)%nat then 1%nat else 0%nat) a = 0%nat).
        { induction a; intros; cbn; auto. rewrite IHa by lia. destruct (Nat.eqb_spec n a); lia. }
        apply G; auto. }
      lia.
    - rewrite IHn by lia. lia.
  Qed.
  Definition ids_below (n : nat) (tr : list event) : Prop :=
    Forall (fun e => match e with EOk p _ => (p < n)%nat | _ => True end) tr.
  Lemma n_accepted_sum n tr : ids_below n tr -> n_accepted tr = sumto (fun p => length (accepted p tr)) n.
  Proof.
    induction 1 as [|e tr He Hf IH]; cbn [n_accepted accepted].
    - clear. cbn [length]. induction n; cbn [sumto]; auto. rewrite <- IHn. reflexivity.
    - destruct e as [p0 m0|p m|p0 m0|m0|]; cbn [n_accepted accepted]; auto.
      rewrite IH. rewrite <- Nat.add_1_l. rewrite <- (sumto_one p n He). rewrite <- sumto_add. apply sumto_ext.
      intros i. destruct (p =? i)%nat; cbn [length]; lia.
  Qed.
  Lemma order_sum n (o : list (nat * msg)) : Forall (fun e => (fst e < n)%nat) o ->
    length o = sumto (fun p => length (by_publisher p o)) n.
  Proof.
    induction 1 as [|[p m] o He Hf IH].
    - clear. cbn [length]. induction n; cbn [sumto]; auto. rewrite <- IHn. reflexivity.
    - cbn [length]. rewrite IH. rewrite <- (Nat.add_1_l). rewrite <- (sumto_one p n He).
      rewrite <- sumto_add. apply sumto_ext.
      intros i. unfold by_publisher. cbn [filter fst]. destruct (p =? i)%nat; cbn [map length]; lia.
  Qed.
  Lemma bound_ex {A} (f : A -> nat) (l : list A) : exists n, forall m, (n <= m)%nat -> Forall (fun e => (f e < m)%nat) l.
  Proof.
    induction l as [|a l (n & IH)]; [exists 0%nat; constructor|].
    exists (Nat.max n (S (f a))). intros m Hm. constructor; [lia|apply IH; lia].
  Qed.
  Lemma n_accepted_le tr o : (forall p, (length (accepted p tr) <= length (by_publisher p o))%nat) ->
    (n_accepted tr <= length o)%nat.
  Proof.
    intros H.
    destruct (bound_ex (fun e : nat * msg => fst e) o) as (n1 & H1).
    destruct (bound_ex (fun e => match e with EOk p _ => p | _ => 0%nat end) tr) as (n2 & H2).
    pose proof (H1 (S (n1 + n2)) ltac:(lia)) as G1. pose proof (H2 (S (n1 + n2)) ltac:(lia)) as G2.
    rewrite (n_accepted_sum (S (n1 + n2))), (order_sum (S (n1 + n2))); auto.
    - apply sumto_le. auto.
    - eapply Forall_impl; [|apply G2]. intros e He. destruct e; auto.
  Qed.

  Lemma received_length log tr s : inv log tr s -> N.of_nat (length (received tr)) = c_tail (s_cons s).
  Proof.
    intros I. rewrite (i_recv _ _ _ I), map_length, firstn_length.
    pose proof (i_len _ _ _ I). pose proof (i_LT _ _ _ I). lia.
  Qed.

  Lemma bounded sched :
    N.of_nat (n_accepted (trace k W sched)) <= N.of_nat (length (received (trace k W sched))) + cap.
  Proof.
    destruct (reach sched) as (o & I).
    rewrite (received_length _ _ _ I).
    assert (n_accepted (trace k W sched) <= length o)%nat.
    { apply n_accepted_le. intros p. rewrite (i_acc _ _ _ I p), app_length. lia. }
    pose proof (i_len _ _ _ I). pose proof (i_cap _ _ _ I). pose proof (i_T _ _ _ I). lia.
  Qed.

  (** ** Draining *)
  Definition rank (pc : cpc) : nat :=
    match pc with CIdle => W + 3 | CHead => W + 2 | CReady => W + 1 | CRead acc => W - length acc | CDone _ => 0 end.
  Definition measure (s : sys) : nat :=
    N.to_nat (sm_head (s_mem s) - c_tail (s_cons s)) * (W + 4) + rank (c_pc (s_cons s)).

  Lemma drain_step log tr s : inv log tr s -> (forall p, claim (p_pc (s_prod s p)) = None) ->
    c_tail (s_cons s) < sm_head (s_mem s) ->
    (measure (fst (step k W s ACons)) < measure s)%nat.
  Proof.
    intros I Hc Hlt. cbn [step]. unfold cons_step, measure.
    pose proof (i_chead _ _ _ I) as Hh. pose proof (i_cpc _ _ _ I) as Hp.
    destruct (c_pc (s_cons s)) as [| | |acc|acc] eqn:Epc.
    - destruct (wsub (c_head (s_cons s)) (c_tail (s_cons s)) =? 0) eqn:E; cbn [fst snd s_mem s_cons c_tail c_pc rank]; lia.
    - destruct (wsub (sm_head (s_mem s)) (c_tail (s_cons s)) =? 0) eqn:E; cbn [fst snd s_mem s_cons c_tail c_pc rank]; [|lia].
      apply wsub_zero in E; lia.
    - destruct (i_slots _ _ _ I (c_tail (s_cons s))) as (p & m & _ & [(H1 & H2)|H1]); [lia| |rewrite Hc in H1; discriminate].
      rewrite H1. cbn [st_writing st_num negb andb]. rewrite N.eqb_refl. cbn [fst s_mem s_cons c_tail c_pc].
      unfold start_read. destruct (Nat.eqb_spec W 0); cbn [rank length]; lia.
    - destruct Hp as (H1 & H2 & _). cbn [fst s_mem s_cons c_tail c_pc]. rewrite app_length. cbn [length].
      destruct (Nat.eqb_spec (length acc + 1) W); cbn [rank]; rewrite ?app_length; cbn [length]; lia.
    - cbn [fst s_mem s_cons c_tail c_pc rank].
      assert (E : sm_head (if N.land (c_tail (s_cons s) + 1) (flush_mask k) =? 0
                   then set_tail (s_mem s) (c_tail (s_cons s) + 1) else s_mem s) = sm_head (s_mem s)).
      { destruct (_ =? 0); auto. }
      rewrite E. replace (N.to_nat (sm_head (s_mem s) - c_tail (s_cons s)))
        with (S (N.to_nat (sm_head (s_mem s) - (c_tail (s_cons s) + 1)))) by lia. lia.
  Qed.

  Lemma drain n : forall log tr s, (measure s <= n)%nat -> inv log tr s ->
    (forall p, claim (p_pc (s_prod s p)) = None) ->
    exists j, inv log (tr ++ snd (run k W s (repeat ACons j))) (fst (run k W s (repeat ACons j))) /\
      c_tail (s_cons (fst (run k W s (repeat ACons j)))) = sm_head (s_mem (fst (run k W s (repeat ACons j)))) /\
      (forall p, claim (p_pc (s_prod (fst (run k W s (repeat ACons j))) p)) = None).
  Proof.
    induction n as [|n IH]; intros log tr s Hm I Hc.
    all: destruct (N.eq_dec (c_tail (s_cons s)) (sm_head (s_mem s))) as [E|E];
      [exists 0%nat; cbn; rewrite app_nil_r; auto|].
    all: pose proof (i_LT _ _ _ I) as HL.
    all: pose proof (drain_step _ _ _ I Hc ltac:(lia)) as Hd.
    1: exfalso; lia.
    destruct (inv_step _ _ _ ACons I) as (more & I2).
    assert (Hmore : more = []).
    { pose proof (i_len _ _ _ I2) as L2. pose proof (i_len _ _ _ I) as L1. rewrite app_length in L2.
      assert (Hh : sm_head (s_mem (fst (step k W s ACons))) = sm_head (s_mem s)).
      { cbn [step]. unfold cons_step. destruct (c_pc (s_cons s)); cbn; repeat (destruct (_ =? _)%N); auto;
        destruct (negb _ && _); auto. }
      rewrite Hh in L2. destruct more; auto. cbn [length] in L2. lia. }
    subst more. rewrite app_nil_r in I2.
    assert (Hc2 : forall p, claim (p_pc (s_prod (fst (step k W s ACons)) p)) = None).
    { intros p. cbn [step]. destruct (cons_step k W (s_mem s) (s_cons s)) as [[a b] c]. cbn. auto. }
    destruct (IH log _ (fst (step k W s ACons)) ltac:(lia) I2 Hc2) as (j & H1 & H2 & H3).
    exists (S j). cbn [repeat run]. destruct (step k W s ACons) as [s1 e1]. cbn [fst snd] in *.
    destruct (run k W s1 (repeat ACons j)) as [s2 e2]. cbn [fst snd] in *. rewrite app_assoc. auto.
  Qed.

  Lemma drained sched : (forall p, pending p (trace k W sched) = None) ->
    exists n o, queue_history (trace k W (sched ++ repeat ACons n)) o /\
      received (trace k W (sched ++ repeat ACons n)) = map snd o /\
      (forall p, by_publisher p o = accepted p (trace k W sched)).
  Proof.
    intros Hp. destruct (reach sched) as (o & I).
    assert (Hc : forall p, claim (p_pc (s_prod (final k W sched) p)) = None).
    { intros p. specialize (Hp p). rewrite (i_pend _ _ _ I p) in Hp. destruct (p_pc _); cbn in *; congruence. }
    destruct (drain _ _ _ _ (le_n _) I Hc) as (j & I2 & E & Hc2).
    exists j, o. unfold trace. rewrite run_app. cbn [snd]. fold (trace k W sched). fold (final k W sched).
    split; [eapply inv_history; eauto|]. split.
    - rewrite (i_recv _ _ _ I2), E. rewrite <- (i_len _ _ _ I2), Nat2N.id, firstn_all. auto.
    - intros p. rewrite (i_acc _ _ _ I p), Hc, app_nil_r. auto.
  Qed.

  (** ** A publisher that stops inside its write *)
  Lemma without_same p s2 : forall s, without_publisher p s2 -> s_prod (fst (run k W s s2)) p = s_prod s p.
  Proof.
    induction s2 as [|a r IH]; intros s H; auto. apply Forall_cons_iff in H as [H1 H2].
    cbn [run]. destruct (step k W s a) as [s1 e1] eqn:E. specialize (IH s1 H2).
    destruct (run k W s1 r) as [sf ef]. cbn [fst] in *. rewrite IH.
    destruct a as [q arg weak|]; cbn [step] in E.
    - destruct (prod_step k W q arg weak (s_mem s) (s_prod s q)) as [[a b] c]. injection E as <- <-.
      cbn. apply updn_neq. auto.
    - destruct (cons_step k W (s_mem s) (s_cons s)) as [[a b] c]. injection E as <- <-. auto.
  Qed.

  Lemma stalled s1 s2 p m q : claim (p_pc (s_prod (final k W s1) p)) = Some (m, q) -> without_publisher p s2 ->
    N.of_nat (length (received (trace k W (s1 ++ s2)))) <= q.
  Proof.
    intros Hc Hw. destruct (reach (s1 ++ s2)) as (o & I).
    rewrite (received_length _ _ _ I).
    assert (Hc2 : claim (p_pc (s_prod (final k W (s1 ++ s2)) p)) = Some (m, q)).
    { unfold final in *. rewrite run_app. cbn [fst]. rewrite without_same; auto. }
    destruct (i_claim _ _ _ I _ _ _ Hc2). lia.
  Qed.

  (** ** Refusals seen by a lone publisher *)
  Lemma flush_pow : flush_interval k = 2 ^ N.pred k.
  Proof.
    unfold flush_interval, RingMem.cap. destruct k as [|x] eqn:E.
    - reflexivity.
    - rewrite <- E. replace k with (N.succ (N.pred k)) at 1 by lia.
      rewrite N.pow_succ_r', N.mul_comm, N.div_mul by lia.
      apply N.max_l. pose proof (N.pow_nonzero 2 (N.pred k)). lia.
  Qed.
  Lemma flush_land n : (N.land n (flush_mask k) =? 0) = (n mod flush_interval k =? 0).
  Proof.
    unfold flush_mask. rewrite flush_pow. rewrite <- N.land_ones, N.ones_equiv.
    rewrite N.sub_1_r. reflexivity.
  Qed.
  Lemma flush_half : 0 < flush_interval k /\ flush_interval k + cap / 2 <= cap.
  Proof.
    rewrite flush_pow. pose proof (N.pow_nonzero 2 (N.pred k) ltac:(lia)). split; [lia|].
    unfold RingMem.cap. destruct k as [|x] eqn:E; [cbn; lia|].
    rewrite <- E. replace k with (N.succ (N.pred k)) at 2 3 by lia.
    rewrite N.pow_succ_r', (N.mul_comm 2), N.div_mul by lia. lia.
  Qed.

  Record lone (p : nat) (tr : list event) (s : sys) : Prop := Lone {
    l_others : forall q, q <> p -> s_prod s q = PSt PNew 0;
    l_tail : forall m h, p_pc (s_prod s p) = PTail m h -> h = sm_head (s_mem s);
    l_flush : c_tail (s_cons s) < sm_tail (s_mem s) + flush_interval k;
    l_mult : sm_tail (s_mem s) mod flush_interval k = 0;
    l_count : n_accepted tr = length (accepted p tr)
  }.

  Lemma lone_step p log tr s a : inv log tr s -> lone p tr s ->
    match a with AProd q _ _ => q = p | ACons => True end ->
    lone p (tr ++ snd (step k W s a)) (fst (step k W s a)).
  Proof.
    intros I [Lo Lt Lf Lm Lc] Ha. destruct a as [q arg weak|].
    - subst q. cbn [step]. 
      assert (G : forall mem' t' ev, sm_tail mem' = sm_tail (s_mem s) ->
        (forall m h, p_pc t' = PTail m h -> h = sm_head mem') ->
        n_accepted ev = length (accepted p ev) ->
        lone p (tr ++ ev) (Sys mem' (updn (s_prod s) p t') (s_cons s))).
      { intros mem' t' ev E1 E2 E3. constructor; cbn [s_mem s_prod s_cons]; rewrite ?E1; auto.
        - intros q Hq. rewrite updn_neq; auto.
        - rewrite updn_eq. auto.
        - rewrite n_accepted_app, accepted_app, app_length. lia. }
      unfold prod_step. destruct (p_pc (s_prod s p)) as [| |m|m h|m h|m q j|m q] eqn:Epc;
        repeat match goal with |- context [if ?b then _ else _] => destruct b eqn:? end;
        cbn [fst snd]; apply G; cbn; auto; try discriminate; rewrite ?Nat.eqb_refl; auto; try congruence.
      unfold start_write. destruct (W =? 0)%nat; discriminate.
    - cbn [step]. unfold cons_step.
      pose proof flush_half as [Hf0 _].
      destruct (c_pc (s_cons s)) as [| | |acc|acc];
        repeat match goal with |- context [if ?b then _ else _] => destruct b eqn:? end;
        cbn [fst snd]; constructor; cbn [s_mem s_prod s_cons set_tail sm_tail sm_head c_tail]; auto; try lia;
        try (rewrite n_accepted_app, accepted_app, app_length; cbn; lia).
      + rewrite flush_land in *. lia.
      + rewrite flush_land in *. pose proof (i_T _ _ _ I).
        destruct (N.eq_dec (c_tail (s_cons s) + 1) (sm_tail (s_mem s) + flush_interval k)) as [e|e]; [|lia].
        exfalso. rewrite e in *. rewrite <- (N.mul_1_l (flush_interval k)) in Heqb at 1.
        rewrite N.mod_add in Heqb by lia. lia.
  Qed.

  Lemma lone_run p sched : only_publisher p sched -> lone p (trace k W sched) (final k W sched).
  Proof.
    intros H. unfold trace, final.
    assert (G : forall log tr s, inv log tr s -> lone p tr s ->
      lone p (tr ++ snd (run k W s sched)) (fst (run k W s sched))).
    { induction sched as [|a r IH]; intros log tr s I L.
      - cbn. rewrite app_nil_r. auto.
      - apply Forall_cons_iff in H as [H1 H2].
        pose proof (lone_step _ _ _ _ a I L H1) as L1. destruct (inv_step _ _ _ a I) as (more & I1).
        cbn [run]. destruct (step k W s a) as [s1 e1]. cbn [fst snd] in *.
        specialize (IH H2 _ _ _ I1 L1). destruct (run k W s1 r) as [s2 e2]. cbn [fst snd] in *.
        rewrite app_assoc. auto. }
    apply (G [] [] (init W)).
    - apply inv_init.
    - pose proof flush_half as [Hf0 _]. constructor; cbn [init s_prod s_mem s_cons smem0 sm_tail sm_head c_tail]; auto; try lia.
      discriminate.
  Qed.

  Lemma lone_err p sched a m : only_publisher p sched ->
    In (EErr p m) (snd (step k W (final k W sched) a)) ->
    cap / 2 + N.of_nat (length (received (trace k W sched))) < N.of_nat (n_accepted (trace k W sched)).
  Proof.
    intros Ho Hin. destruct (reach sched) as (o & I). pose proof (lone_run p sched Ho) as [Lo Lt Lf Lm Lc].
    rewrite (received_length _ _ _ I), Lc.
    set (s := final k W sched) in *. clearbody s.
    pose proof flush_half as [Hf0 Hf1].
    destruct a as [q arg weak|]; cbn [step] in Hin.
    2:{ exfalso. unfold cons_step in Hin. destruct (c_pc (s_cons s));
        repeat match type of Hin with context [if ?b then _ else _] => destruct b eqn:? end;
        cbn in Hin; repeat (destruct Hin as [Hin|Hin]; try discriminate); auto. }
    unfold prod_step in Hin. destruct (p_pc (s_prod s q)) as [| |x|x h|x h|x y j|x y] eqn:Epc;
      repeat match type of Hin with context [if ?b then _ else _] => destruct b eqn:? end;
      cbn in Hin; try (repeat (destruct Hin as [Hin|Hin]; try discriminate); destruct Hin; fail).
    destruct Hin as [Hin|[]]. injection Hin as -> ->.
    pose proof (Lt _ _ Epc) as ->. pose proof (i_T _ _ _ I). pose proof (i_LT _ _ _ I).
    unfold full_for in Heqb. apply N.leb_le in Heqb. rewrite wsub_ge in Heqb by lia.
    assert (Hacc : length (accepted p (trace k W sched)) = length o).
    { assert (Hall : Forall (fun e => fst e = p) o).
      { apply Forall_forall. intros [r y] Hin. cbn. destruct (Nat.eq_dec r p) as [|Hr]; auto. exfalso.
        assert (Hb : by_publisher r o <> []).
        { unfold by_publisher. intros E0. apply map_eq_nil in E0.
          assert (In (r, y) (filter (fun e => (fst e =? r)%nat) o)) as Hi.
          { apply filter_In. split; auto. cbn. apply Nat.eqb_refl. }
          rewrite E0 in Hi. destruct Hi. }
        apply Hb. rewrite (i_acc _ _ _ I r). rewrite (Lo r Hr). cbn [p_pc claim]. rewrite app_nil_r.
        assert (Hz : length (accepted p (trace k W sched)) = n_accepted (trace k W sched)) by auto.
        revert Hz. generalize (trace k W sched) as tr. intros tr Hz.
        assert (Hle : forall t, (length (accepted p t) + length (accepted r t) <= n_accepted t)%nat).
        { clear -Hr. induction t as [|e t IH]; auto. destruct e; cbn [accepted n_accepted]; auto.
          destruct (Nat.eqb_spec p0 p), (Nat.eqb_spec p0 r); cbn [length]; lia. }
        specialize (Hle tr). destruct (accepted r tr); auto. cbn [length] in Hle. lia. }
      pose proof (i_acc _ _ _ I p) as Ha. rewrite Epc in Ha. cbn [claim] in Ha. rewrite app_nil_r in Ha.
      rewrite <- Ha. unfold by_publisher. rewrite map_length. f_equal.
      clear -Hall. induction Hall as [|e o He Hf IH]; auto. cbn [filter]. rewrite He, Nat.eqb_refl. congruence. }
    rewrite Hacc. pose proof (i_len _ _ _ I). lia.
  Qed.

  (** Everything received was accepted. *)
  Lemma received_accepted tr o m : queue_history tr o -> In m (received tr) -> exists p, In m (accepted p tr).
  Proof.
    intros (_ & g & r & _ & E & Hp) Hin. rewrite E in Hin. apply in_map_iff in Hin as ([p x] & <- & Hin).
    exists p. destruct (Hp p) as (c & ->). apply in_or_app. left.
    unfold by_publisher. apply in_map_iff. exists (p, x). split; auto. apply filter_In. split; auto.
    cbn. apply Nat.eqb_refl.
  Qed.
  Lemma accepted_event p tr m : In m (accepted p tr) <-> In (EOk p m) tr.
  Proof.
    induction tr as [|e tr IH]; [tauto|]. destruct e as [q x|q x|q x|x|]; cbn [accepted In].
    2:{ destruct (Nat.eqb_spec q p) as [->|Hn]; cbn [In]; rewrite IH; intuition congruence. }
    all: rewrite IH; intuition congruence.
  Qed.
End Inv.
