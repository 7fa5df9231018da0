(** Invariant of a fan-out channel. *)
From Verif.Base Require Import Prelude.
From Verif.Model Require Import RingMem Seqlock.
From Verif.Spec Require Import SeqlockSpec.
From Verif.Proofs Require Import RingMemProofs BroadcastProofs.
Local Open Scope N_scope.

Lemma q_sent_app a b : q_sent (a ++ b) = q_sent a ++ q_sent b.
Proof. induction a as [|e a IH]; auto. destruct e; cbn [q_sent app]; congruence. Qed.
Lemma q_received_app a b : q_received (a ++ b) = q_received a ++ q_received b.
Proof. induction a as [|e a IH]; auto. destruct e; cbn [q_received app]; congruence. Qed.

Definition q_claim (pc : qppc) : option (msg * N) :=
  match pc with QMark m p | QWrite m p _ | QStamp m p | QHead m p => Some (m, p) | _ => None end.
Definition q_busy (pc : qppc) : bool :=
  match pc with QWrite _ _ _ | QStamp _ _ | QHead _ _ => true | _ => false end.
Definition q_next (s : qsys) : N :=
  match q_con s with
  | KIdle => q_tail s
  | KHead _ n | KVer _ n | KRead _ n _ | KCheck _ n _ | KTail n _ => n
  end.

Section Inv.
  Variables (k : N) (W : nat).
  Notation cap := (cap k).
  Notation slot := (slot k).

  Definition q_holds (s : qsys) (n : N) (P : msg -> Prop) : Prop :=
    (q_ver s (slot n) = Stamp false n /\ P (q_data s (slot n))) \/ n < st_num (q_ver s (slot n)).
  Definition con_ok (log : list msg) (s : qsys) : Prop :=
    match q_con s with
    | KVer _ n => n < q_head s
    | KRead _ n acc => n < q_head s /\ (length acc < W)%nat /\ q_holds s n (fun d => acc = firstn (length acc) d)
    | KCheck _ n acc => n < q_head s /\ q_holds s n (fun d => acc = d)
    | KTail n acc => n < q_head s /\ nth_error log (N.to_nat n) = Some acc
    | _ => True
    end.

  Record qinv (e : Prop) (tr : list qevent) (s : qsys) : Prop := QInv {
    i_len : N.of_nat (length (q_sent tr)) = q_head s;
    i_rle : forall i, st_num (q_ver s i) <= q_head s;
    i_claim : forall m p, q_claim (q_pub s) = Some (m, p) -> p = q_head s /\ length m = W;
    i_posm : forall m, q_pub s = QPos m -> length m = W;
    i_write : forall m p j, q_pub s = QWrite m p j ->
                q_ver s (slot p) = Stamp true p /\ (j < W)%nat /\ firstn j (q_data s (slot p)) = firstn j m;
    i_stamp : forall m p, q_pub s = QStamp m p -> q_ver s (slot p) = Stamp true p /\ q_data s (slot p) = m;
    i_head : forall m p, q_pub s = QHead m p -> q_ver s (slot p) = Stamp false p /\ q_data s (slot p) = m;
    i_dlen : forall i, length (q_data s i) = W;
    i_done : forall n, n < q_head s -> q_ver s (slot n) = Stamp false n ->
                nth_error (q_sent tr) (N.to_nat n) = Some (q_data s (slot n));
    i_window : forall n, n < q_head s -> q_head s <= n + cap -> q_busy (q_pub s) = false \/ n + cap <> q_head s ->
                q_ver s (slot n) = Stamp false n;
    i_con : con_ok (q_sent tr) s;
    i_tail : q_tail s <= q_next s /\ q_next s <= q_head s;
    i_acc : exists missed extra,
              skips (seg 0 (q_tail s) (q_sent tr)) missed (q_received tr) /\
              q_skipped s = missed + (q_next s - q_tail s) + extra /\ (e -> extra = 0)
  }.

  Lemma qinv_init (e : Prop) : qinv e [] (q_init W).
  Proof.
    constructor; cbn; intros; try discriminate; auto; try lia.
    - apply repeat_length.
    - exists 0, 0. split; [constructor|]. unfold q_next. cbn. split; auto.
  Qed.

  Lemma slot_head_neq h n : n < h -> h <= n + cap -> n + cap <> h -> slot n <> slot h.
  Proof.
    intros. pose proof (cap_pos k). intros E. assert (n = h) by (apply (slot_inj k); auto; lia). lia.
  Qed.

  (** The publisher touches only the slot of its own position. *)
  Lemma hold_keep (s s' : qsys) n p P :
    q_ver s' = upd (q_ver s) (slot p) (Stamp true p) \/ q_ver s' = upd (q_ver s) (slot p) (Stamp false p) ->
    q_data s' = q_data s -> n < p -> q_holds s n P -> q_holds s' n P.
  Proof.
    intros Hv Hd Hn H. unfold q_holds in *. rewrite Hd.
    destruct (N.eq_dec (slot n) (slot p)) as [E|E].
    - right. rewrite E. destruct Hv as [-> | ->]; rewrite upd_eq; cbn; auto.
    - destruct Hv as [-> | ->]; rewrite upd_neq by auto; auto.
  Qed.
  Lemma hold_write (s s' : qsys) n p d P :
    q_ver s' = q_ver s -> q_data s' = upd (q_data s) (slot p) d -> q_ver s (slot p) = Stamp true p ->
    n < p -> q_holds s n P -> q_holds s' n P.
  Proof.
    intros Hv Hd Hp Hn H. unfold q_holds in *. rewrite Hd, Hv.
    destruct (N.eq_dec (slot n) (slot p)) as [E|E].
    - right. rewrite E, Hp. cbn. auto.
    - rewrite upd_neq by auto. auto.
  Qed.
  Lemma con_keep log log' s s' : q_con s' = q_con s -> q_head s <= q_head s' ->
    (forall n a, nth_error log n = Some a -> nth_error log' n = Some a) ->
    (forall n P, n < q_head s -> q_holds s n P -> q_holds s' n P) -> con_ok log s -> con_ok log' s'.
  Proof.
    intros Hc Hh Hl Hk. unfold con_ok. rewrite Hc. destruct (q_con s) as [|a n|a n|a n acc|a n acc|n acc]; auto.
    - lia.
    - intros (A & B & C). repeat split; auto; lia.
    - intros (A & B). split; auto; lia.
    - intros (A & B). split; auto; lia.
  Qed.

  Lemma pub_qinv e tr s arg : qinv e tr s ->
    qinv e (tr ++ snd (q_step k W s (APublish arg))) (fst (q_step k W s (APublish arg))).
  Proof.
    intros I. cbn [q_step]. unfold q_pub_step.
    destruct (q_pub s) as [|m|m p|m p j|m p|m p] eqn:Epc.
    - destruct (Nat.eqb_spec (length arg) W) as [El|El]; cbn [fst snd]; [|rewrite app_nil_r; auto].
      destruct I. constructor; cbn [q_head q_tail q_ver q_data q_pub q_con q_skipped]; rewrite ?q_sent_app, ?q_received_app; cbn [q_sent q_received]; rewrite ?app_nil_r; auto; intros; try discriminate.
      + injection H as <-. auto.
      + apply i_window0; auto. rewrite Epc. auto.
    - cbn [fst snd]. rewrite app_nil_r.
      destruct I. constructor; cbn [q_head q_tail q_ver q_data q_pub q_con q_skipped q_claim q_busy]; auto; intros; try discriminate.
      + injection H as <- <-. auto.
      + apply i_window0; auto. rewrite Epc. auto.
    - (* mark *)
      cbn [fst snd]. rewrite app_nil_r.
      set (s' := QSys _ _ _ _ _ _ _).
      assert (Hk : forall n P, n < q_head s -> q_holds s n P -> q_holds s' n P).
      { intros n P Hn. apply (hold_keep s s' n p P); auto. destruct (i_claim _ _ _ I m p) as (-> & _); auto. rewrite Epc; auto. }
      destruct I. destruct (i_claim0 m p) as (Ep & Hm); [rewrite Epc; auto|].
      assert (C1 : q_claim (q_start_write W m p) = Some (m, p)) by (unfold q_start_write; destruct (Nat.eqb W 0); auto).
      assert (C2 : q_busy (q_start_write W m p) = true) by (unfold q_start_write; destruct (Nat.eqb W 0); auto).
      constructor; cbn [s' q_head q_tail q_ver q_data q_pub q_con q_skipped]; auto.
      + intros i. unfold upd. destruct (i =? slot p); [cbn; lia|auto].
      + intros. rewrite C1 in H. injection H as <- <-. auto.
      + intros x. unfold q_start_write. destruct (Nat.eqb W 0); discriminate.
      + intros x y j. unfold q_start_write. destruct (Nat.eqb_spec W 0); [discriminate|].
        intros E; injection E as <- <- <-. rewrite upd_eq. repeat split; auto. lia.
      + intros x y. unfold q_start_write. destruct (Nat.eqb_spec W 0) as [e0|]; [|discriminate].
        intros E; injection E as <- <-. rewrite upd_eq. split; auto. specialize (i_dlen0 (slot p)).
        rewrite e0 in *. apply length_zero_iff_nil in Hm, i_dlen0. congruence.
      + intros x y. unfold q_start_write. destruct (Nat.eqb W 0); discriminate.
      + intros n Hn. unfold upd. destruct (N.eqb_spec (slot n) (slot p)) as [E|E]; [discriminate|auto].
      + intros n H1 H2 H3. rewrite C2 in H3. destruct H3 as [|H3]; [discriminate|].
        rewrite upd_neq by (rewrite Ep; apply slot_head_neq; auto). apply i_window0; auto.
      + apply (con_keep (q_sent tr) (q_sent tr) s s'); auto. cbn [s' q_head]. lia.
    - (* write *)
      cbn [fst snd]. rewrite app_nil_r.
      set (pc' := if (S j =? W)%nat then _ else _).
      set (s' := QSys _ _ _ _ _ _ _).
      destruct (i_write _ _ _ I m p j Epc) as (Hv & Hj & Hd).
      assert (Hk : forall n P, n < q_head s -> q_holds s n P -> q_holds s' n P).
      { intros n P Hn. eapply (hold_write s s' n p _ P); try reflexivity; auto.
        destruct (i_claim _ _ _ I m p) as (-> & _); auto. rewrite Epc; auto. }
      destruct I. destruct (i_claim0 m p) as (Ep & Hm); [rewrite Epc; auto|].
      assert (C1 : q_claim pc' = Some (m, p)) by (unfold pc'; destruct (Nat.eqb (S j) W); auto).
      assert (C2 : q_busy pc' = true) by (unfold pc'; destruct (Nat.eqb (S j) W); auto).
      assert (Hnew : firstn (S j) (set_word j (nth j m 0) (q_data s (slot p))) = firstn (S j) m).
      { rewrite set_word_firstn by (rewrite i_dlen0; auto). rewrite (firstn_snoc 0) by lia. congruence. }
      constructor; cbn [s' q_head q_tail q_ver q_data q_pub q_con q_skipped]; auto.
      + intros. rewrite C1 in H. injection H as <- <-. auto.
      + intros x. unfold pc'. destruct (S j =? W)%nat; discriminate.
      + intros x y i. unfold pc'. destruct (Nat.eqb_spec (S j) W); [discriminate|].
        intros E; injection E as <- <- <-. rewrite upd_eq. repeat split; auto. lia.
      + intros x y. unfold pc'. destruct (Nat.eqb_spec (S j) W) as [e0|]; [|discriminate].
        intros E; injection E as <- <-. rewrite upd_eq. split; auto. rewrite e0 in Hnew.
        rewrite !firstn_all2 in Hnew; auto; rewrite ?set_word_length, ?i_dlen0; lia.
      + intros x y. unfold pc'. destruct (S j =? W)%nat; discriminate.
      + intros i. unfold upd. destruct (i =? slot p); auto. rewrite set_word_length. auto.
      + intros n Hn H. rewrite upd_neq; [auto|]. intros E. rewrite E, Hv in H. discriminate.
      + intros n H1 H2 H3. rewrite C2 in H3. apply i_window0; auto. right. destruct H3; [discriminate|auto].
      + apply (con_keep (q_sent tr) (q_sent tr) s s'); auto. cbn [s' q_head]. lia.
    - (* stamp *)
      cbn [fst snd]. rewrite app_nil_r.
      set (s' := QSys _ _ _ _ _ _ _).
      destruct (i_stamp _ _ _ I m p Epc) as (Hv & Hd).
      assert (Hk : forall n P, n < q_head s -> q_holds s n P -> q_holds s' n P).
      { intros n P Hn. apply (hold_keep s s' n p P); auto. destruct (i_claim _ _ _ I m p) as (-> & _); auto. rewrite Epc; auto. }
      destruct I. destruct (i_claim0 m p) as (Ep & Hm); [rewrite Epc; auto|].
      constructor; cbn [s' q_head q_tail q_ver q_data q_pub q_con q_skipped q_claim q_busy]; auto; try discriminate.
      + intros i. unfold upd. destruct (i =? slot p); [cbn; lia|auto].
      + intros x y E. injection E as <- <-. auto.
      + intros x y E. injection E as <- <-. rewrite upd_eq. auto.
      + intros n Hn. unfold upd. destruct (N.eqb_spec (slot n) (slot p)) as [E|E]; [|auto].
        intros E'. injection E' as ->. lia.
      + intros n H1 H2 H3. destruct H3 as [|H3]; [discriminate|].
        rewrite upd_neq by (rewrite Ep; apply slot_head_neq; auto). apply i_window0; auto.
      + apply (con_keep (q_sent tr) (q_sent tr) s s'); auto. cbn [s' q_head]. lia.
    - (* head *)
      cbn [fst snd]. 
      set (s' := QSys _ _ _ _ _ _ _).
      destruct (i_head _ _ _ I m p Epc) as (Hv & Hd).
      destruct I. destruct (i_claim0 m p) as (Ep & Hm); [rewrite Epc; auto|].
      assert (Hlen : length (q_sent tr) = N.to_nat p) by lia.
      constructor; cbn [s' q_head q_tail q_ver q_data q_pub q_con q_skipped q_claim q_busy]; rewrite ?q_sent_app, ?q_received_app; cbn [q_sent q_received]; rewrite ?app_nil_r; auto; try discriminate.
      + rewrite app_length. cbn [length]. lia.
      + intros i. specialize (i_rle0 i). lia.
      + intros n Hn H. destruct (N.eq_dec n p) as [->|].
        * rewrite Hd. rewrite <- Hlen. apply nth_error_snoc_last.
        * apply nth_error_app_old. apply i_done0; auto. lia.
      + intros n H1 H2 _. destruct (N.eq_dec n p) as [->|]; auto. apply i_window0; try lia. 
      + apply (con_keep (q_sent tr) (q_sent tr ++ [m]) s s'); auto; cbn [s' q_head q_con]; [lia|].
        intros. apply nth_error_app_old. auto.
      + change (q_next s') with (q_next s). lia.
      + destruct i_acc0 as (ms & ex & A & B & C). exists ms, ex. split; [|auto]. rewrite seg_extend; auto. left. lia.
  Qed.

  Lemma q_done_true n v : (negb (st_writing v) && (st_num v =? n)) = true -> v = Stamp false n.
  Proof. destruct v as [w x]. cbn. destruct w; cbn; [discriminate|]. intros H. apply N.eqb_eq in H. congruence. Qed.

  Lemma con_qinv e tr s : qinv e tr s ->
    (e -> In QNone (snd (q_step k W s AConsume)) -> q_tail s = q_head s) ->
    qinv e (tr ++ snd (q_step k W s AConsume)) (fst (q_step k W s AConsume)).
  Proof.
    intros I Hex. cbn [q_step] in *. unfold q_con_step in *.
    assert (Fail : forall a n, q_con s = KVer a n \/ (exists acc, q_con s = KCheck a n acc) ->
      (e -> In QNone (snd (let '(pc, ev) := q_retry a n in (QSys (q_head s) (q_tail s) (q_ver s) (q_data s) (q_pub s) pc (q_skipped s), ev))) -> q_tail s = q_head s) ->
      qinv e (tr ++ snd (let '(pc, ev) := q_retry a n in (QSys (q_head s) (q_tail s) (q_ver s) (q_data s) (q_pub s) pc (q_skipped s), ev)))
           (fst (let '(pc, ev) := q_retry a n in (QSys (q_head s) (q_tail s) (q_ver s) (q_data s) (q_pub s) pc (q_skipped s), ev)))).
    { clear Hex. intros a n Hc Hex. assert (Hn : q_next s = n) by (unfold q_next; destruct Hc as [->|(acc & ->)]; auto).
      unfold q_retry in *. destruct a as [|a]; cbn [fst snd] in *.
      - destruct I. constructor; cbn [q_head q_tail q_ver q_data q_pub q_con q_skipped]; rewrite ?q_sent_app, ?q_received_app; cbn [q_sent q_received]; rewrite ?app_nil_r; auto.
        + exact Logic.I.
        + unfold q_next at 1 2. cbn [q_con q_tail]. lia.
        + destruct i_acc0 as (ms & ex & A & B & C). exists ms, (n - q_tail s + ex). split; auto.
          unfold q_next. cbn [q_con q_tail]. rewrite Hn in B. split; [lia|]. intros He. rewrite C by auto.
          specialize (Hex He (or_introl eq_refl)). lia.
      - destruct I. rewrite app_nil_r. constructor; cbn [q_head q_tail q_ver q_data q_pub q_con q_skipped]; auto.
        + exact Logic.I.
        + unfold q_next at 1 2. cbn [q_con q_tail]. lia.
        + destruct i_acc0 as (ms & ex & A & B & C). exists ms, ex. split; auto.
          unfold q_next. cbn [q_con q_tail]. rewrite Hn in B. split; auto. }
    destruct (q_con s) as [|a n|a n|a n acc|a n acc|n acc] eqn:Epc.
    - cbn [fst snd]. rewrite app_nil_r.
      destruct I. constructor; cbn [q_head q_tail q_ver q_data q_pub q_con q_skipped]; auto.
      + exact Logic.I.
      + unfold q_next in *. rewrite Epc in *. cbn [q_con q_tail]. lia.
      + unfold q_next in *. rewrite Epc in *. cbn [q_con q_tail] in *. auto.
    - assert (Hn : q_next s = n) by (unfold q_next; rewrite Epc; auto).
      assert (Hle : n <= q_head s) by (destruct (i_tail _ _ _ I); lia).
      destruct (wsub (q_head s) n =? 0) eqn:E0.
      + cbn [fst snd]. apply wsub_zero in E0; auto.
        destruct I. constructor; cbn [q_head q_tail q_ver q_data q_pub q_con q_skipped]; rewrite ?q_sent_app, ?q_received_app; cbn [q_sent q_received]; rewrite ?app_nil_r; auto.
        * exact Logic.I.
        * unfold q_next at 1 2. cbn [q_con q_tail]. lia.
        * destruct i_acc0 as (ms & ex & A & B & C). exists ms, (n - q_tail s + ex). split; auto.
          unfold q_next. cbn [q_con q_tail]. rewrite Hn in B. split; [lia|]. intros He. rewrite C by auto.
          specialize (Hex He (or_introl eq_refl)). lia.
      + apply wsub_nonzero in E0; auto. rewrite (wsub_ge (q_head s) n) by auto.
        destruct (N.ltb_spec cap (q_head s - n)) as [Hlap|Hlap].
        * pose proof (cap_pos k). cbn [fst snd]. rewrite !wsub_ge by (rewrite ?wsub_ge; lia). rewrite app_nil_r.
          destruct I. constructor; cbn [q_head q_tail q_ver q_data q_pub q_con q_skipped]; auto.
          -- unfold con_ok. cbn [q_con q_head]. lia.
          -- unfold q_next at 1 2. cbn [q_con q_tail]. lia.
          -- destruct i_acc0 as (ms & ex & A & B & C). exists ms, ex. split; auto.
             unfold q_next. cbn [q_con q_tail]. rewrite Hn in B. split; auto. lia.
        * cbn [fst snd]. rewrite app_nil_r.
          destruct I. constructor; cbn [q_head q_tail q_ver q_data q_pub q_con q_skipped]; auto.
          -- unfold q_next in *. rewrite Epc in *. cbn [q_con q_tail]. auto.
          -- unfold q_next in *. rewrite Epc in *. cbn [q_con q_tail]. auto.
    - destruct (negb _ && _) eqn:Ed; [|apply Fail; auto].
      apply q_done_true in Ed. cbn [fst snd]. rewrite app_nil_r.
      destruct I. unfold con_ok in i_con0. rewrite Epc in i_con0.
      constructor; cbn [q_head q_tail q_ver q_data q_pub q_con q_skipped]; auto.
      + unfold con_ok. cbn [q_con q_head]. destruct (Nat.eqb_spec W 0) as [e0|].
        * split; auto. left. cbn [q_ver q_data]. split; auto. specialize (i_dlen0 (slot n)). rewrite e0 in i_dlen0.
          apply length_zero_iff_nil in i_dlen0. auto.
        * split; auto. split; [cbn; lia|]. left. cbn [q_ver q_data]. split; auto.
      + unfold q_next in *. rewrite Epc in *. cbn [q_con q_tail]. destruct (Nat.eqb W 0); auto.
      + unfold q_next in *. rewrite Epc in *. cbn [q_con q_tail]. destruct (Nat.eqb W 0); auto.
    - cbn [fst snd]. rewrite app_nil_r.
      destruct I. unfold con_ok in i_con0. rewrite Epc in i_con0. destruct i_con0 as (Hn & Hl & Hh).
      constructor; cbn [q_head q_tail q_ver q_data q_pub q_con q_skipped]; auto.
      + unfold con_ok. cbn [q_con q_head]. rewrite app_length. cbn [length].
        assert (Hx : q_holds s n (fun d => acc ++ [nth (length acc) (q_data s (slot n)) 0] = firstn (S (length acc)) d)).
        { destruct Hh as [(A & B)|A]; [left|right]; auto. split; auto.
          rewrite (firstn_snoc 0) by (rewrite i_dlen0; auto). congruence. }
        replace (length acc + 1)%nat with (S (length acc)) in * by lia.
        destruct (Nat.eqb_spec (S (length acc)) W) as [e0|].
        * split; auto. unfold q_holds in *. cbn [q_ver q_data].
          destruct Hx as [(A & B)|A]; [left|right]; auto. split; auto. rewrite B.
          apply firstn_all2. rewrite i_dlen0. lia.
        * rewrite app_length. cbn [length]. replace (length acc + 1)%nat with (S (length acc)) by lia.
          repeat split; auto. lia.
      + unfold q_next in *. rewrite Epc in *. cbn [q_con q_tail]. destruct (Nat.eqb _ W); auto.
      + unfold q_next in *. rewrite Epc in *. cbn [q_con q_tail]. destruct (Nat.eqb _ W); auto.
    - destruct (negb _ && _) eqn:Ed; [|apply Fail; eauto].
      apply q_done_true in Ed. cbn [fst snd]. rewrite app_nil_r.
      destruct I. unfold con_ok in i_con0. rewrite Epc in i_con0. destruct i_con0 as (Hn & Hh).
      constructor; cbn [q_head q_tail q_ver q_data q_pub q_con q_skipped]; auto.
      + unfold con_ok. cbn [q_con q_head]. split; auto. destruct Hh as [(A & ->)|A].
        * apply i_done0; auto.
        * rewrite Ed in A. cbn in A. lia.
      + unfold q_next in *. rewrite Epc in *. cbn [q_con q_tail]. auto.
      + unfold q_next in *. rewrite Epc in *. cbn [q_con q_tail]. auto.
    - cbn [fst snd].
      destruct I. unfold con_ok in i_con0. rewrite Epc in i_con0. destruct i_con0 as (Hn & Ha).
      assert (Hx : q_next s = n) by (unfold q_next; rewrite Epc; auto).
      constructor; cbn [q_head q_tail q_ver q_data q_pub q_con q_skipped]; rewrite ?q_sent_app, ?q_received_app; cbn [q_sent q_received]; rewrite ?app_nil_r; auto.
      + exact Logic.I.
      + unfold q_next. cbn [q_con q_tail]. lia.
      + destruct i_acc0 as (ms & ex & A & B & C). rewrite Hx in *. exists (ms + (n - q_tail s)), ex.
        split; [|unfold q_next; cbn [q_con q_tail]; split; [lia|auto]].
        rewrite (seg_app 0 n (n + 1)) by lia. rewrite (seg_one n _ acc) by auto. apply skips_take.
        rewrite (seg_app 0 (q_tail s) n) by lia.
        replace (n - q_tail s) with (N.of_nat (length (seg (q_tail s) n (q_sent tr)))) by (apply seg_length; lia).
        apply skips_skip. auto.
  Qed.

  Lemma q_run_app s a b : q_run k W s (a ++ b) =
    let '(s1, e1) := q_run k W s a in let '(s2, e2) := q_run k W s1 b in (s2, e1 ++ e2).
  Proof.
    revert s; induction a as [|x a IH]; intros s; cbn [app q_run].
    - destruct (q_run k W s b); auto.
    - destruct (q_step k W s x) as (s1, e1). rewrite IH. destruct (q_run k W s1 a) as (s2, e2).
      destruct (q_run k W s2 b) as (s3, e3). rewrite app_assoc. auto.
  Qed.
  Lemma q_trace_snoc sched a : q_trace k W (sched ++ [a]) = q_trace k W sched ++ snd (q_step k W (q_final k W sched) a).
  Proof.
    unfold q_trace, q_final. rewrite q_run_app. destruct (q_run k W (q_init W) sched) as (s1, e1). cbn [q_run fst snd].
    destruct (q_step k W s1 a) as (s2, e2). cbn. rewrite app_nil_r. auto.
  Qed.
  Lemma q_final_snoc sched a : q_final k W (sched ++ [a]) = fst (q_step k W (q_final k W sched) a).
  Proof.
    unfold q_trace, q_final. rewrite q_run_app. destruct (q_run k W (q_init W) sched) as (s1, e1). cbn [q_run fst snd].
    destruct (q_step k W s1 a) as (s2, e2). auto.
  Qed.

  Lemma qinv_reach (e : Prop) sched : (e -> none_means_empty k W sched) ->
    qinv e (q_trace k W sched) (q_final k W sched).
  Proof.
    induction sched as [|a sched IH] using rev_ind; intros He.
    - apply qinv_init.
    - rewrite q_trace_snoc, q_final_snoc.
      assert (I : qinv e (q_trace k W sched) (q_final k W sched)).
      { apply IH. intros h pre x suf E. apply (He h pre x (suf ++ [a])). rewrite E, <- app_assoc. auto. }
      destruct a as [arg|]; [apply pub_qinv; auto|]. apply con_qinv; auto.
      intros h Hin. apply (He h sched AConsume []); auto.
  Qed.

  (** ** Calls that do not overlap *)
  Definition set_con (s : qsys) (pc : qcpc) : qsys :=
    QSys (q_head s) (q_tail s) (q_ver s) (q_data s) (q_pub s) pc (q_skipped s).

  Lemma q_run_quiet s a s1 r s2 ev : q_step k W s a = (s1, []) -> q_run k W s1 r = (s2, ev) ->
    q_run k W s (a :: r) = (s2, ev).
  Proof. intros H1 H2. cbn [q_run]. rewrite H1, H2. reflexivity. Qed.

  Lemma read_loop i : forall s a n acc, (length acc + S i)%nat = W -> length (q_data s (slot n)) = W ->
    q_con s = KRead a n acc -> acc = firstn (length acc) (q_data s (slot n)) ->
    q_run k W s (repeat AConsume (S i)) = (set_con s (KCheck a n (q_data s (slot n))), []).
  Proof.
    induction i as [|i IH]; intros s a n acc Hl Hd Hc Ha.
    - cbn [repeat q_run q_step]; unfold q_con_step; rewrite Hc.
      assert (E : acc ++ [nth (length acc) (q_data s (slot n)) 0] = q_data s (slot n)).
      { rewrite Ha at 1. rewrite <- firstn_snoc by lia. apply firstn_all2. lia. }
      rewrite E, Hd, Nat.eqb_refl. reflexivity.
    - assert (E : acc ++ [nth (length acc) (q_data s (slot n)) 0] = firstn (S (length acc)) (q_data s (slot n))).
      { rewrite Ha at 1. rewrite <- firstn_snoc by lia. auto. }
      change (repeat AConsume (S (S i))) with (AConsume :: repeat AConsume (S i)).
      eapply (q_run_quiet _ _ (set_con s (KRead a n (acc ++ [nth (length acc) (q_data s (slot n)) 0])))).
      + cbn [q_step]; unfold q_con_step; rewrite Hc. rewrite app_length. cbn [length].
        destruct (Nat.eqb_spec (length acc + 1) W); [lia|]. reflexivity.
      + rewrite (IH (set_con s (KRead a n (acc ++ [nth (length acc) (q_data s (slot n)) 0]))) a n (acc ++ [nth (length acc) (q_data s (slot n)) 0]));
          cbn [set_con q_data]; rewrite ?app_length; cbn [length]; auto; try lia.
        rewrite E. f_equal. lia.
  Qed.

  Definition chan_of (tr : list qevent) (s : qsys) : chan :=
    Chan (skipn (N.to_nat (q_tail s)) (q_sent tr)) (q_skipped s).
  Definition answer (o : option msg) : qevent := match o with Some m => QRecv m | None => QNone end.

  Lemma skipn_nth_cons {A} (l : list A) n a : nth_error l n = Some a -> skipn n l = a :: skipn (S n) l.
  Proof. revert n; induction l; intros [|n] H; try discriminate; cbn in *; [congruence|auto]. Qed.

  Lemma consume_alone e tr s : qinv e tr s -> q_idle s ->
    exists n s', q_run k W s (repeat AConsume n) = (s', [answer (snd (ch_consume k (chan_of tr s)))]) /\
      q_idle s' /\ chan_of tr s' = fst (ch_consume k (chan_of tr s)) /\
      (snd (ch_consume k (chan_of tr s)) = None -> q_tail s = q_head s) /\ (1 <= n)%nat.
  Proof.
    intros I (Hp & Hc). pose proof (cap_pos k) as Hcap.
    assert (Ht : q_tail s <= q_head s).
    { destruct (i_tail _ _ _ I) as (A & B). lia. }
    assert (Hlen : length (q_sent tr) = N.to_nat (q_head s)) by (pose proof (i_len _ _ _ I); lia).
    assert (Hul : length (skipn (N.to_nat (q_tail s)) (q_sent tr)) = N.to_nat (q_head s - q_tail s)).
    { rewrite skipn_length. lia. }
    destruct (N.eq_dec (q_tail s) (q_head s)) as [Eq|Ne].
    - assert (Es : ch_consume k (chan_of tr s) = (chan_of tr s, None)).
      { unfold ch_consume. cbn [chan_of ch_unread]. rewrite Hul, Eq, N.sub_diag. cbn [N.to_nat Nat.sub skipn].
        rewrite skipn_all2 by lia. auto. }
      rewrite Es. cbn [snd fst answer]. exists 2%nat, (set_con s KIdle).
      cbn [repeat q_run q_step]. unfold q_con_step at 1. rewrite Hc. cbn [q_run q_step].
      unfold q_con_step. cbn [q_con q_head q_tail]. rewrite wsub_ge by lia.
      replace (q_head s - q_tail s) with 0 by lia. cbn [N.eqb].
      split; [reflexivity|]. split; [split; auto|]. split; [reflexivity|]. split; [auto|lia].
    - set (h := q_head s) in *. set (t := q_tail s) in *.
      set (nx := if cap <? h - t then h - cap else t).
      assert (Hnx : nx < h /\ h <= nx + cap /\ t <= nx).
      { unfold nx. destruct (N.ltb_spec cap (h - t)); lia. }
      assert (Hv : q_ver s (slot nx) = Stamp false nx).
      { apply (i_window _ _ _ I); try apply Hnx. rewrite Hp. auto. }
      assert (Hn : nth_error (q_sent tr) (N.to_nat nx) = Some (q_data s (slot nx))).
      { apply (i_done _ _ _ I); auto. apply Hnx. }
      set (d := q_data s (slot nx)) in *.
      assert (Hdl : length d = W) by apply (i_dlen _ _ _ I).
      set (sk := q_skipped s + (nx - t)).
      assert (Es : ch_consume k (chan_of tr s) = (Chan (skipn (N.to_nat (nx + 1)) (q_sent tr)) sk, Some d)).
      { unfold ch_consume. cbn [chan_of ch_unread ch_lost]. fold t. rewrite Hul.
        assert (Ed : (N.to_nat (h - t) - N.to_nat (2 ^ k))%nat = N.to_nat (nx - t)).
        { unfold nx. change (2 ^ k) with cap. destruct (N.ltb_spec cap (h - t)); lia. }
        rewrite Ed, skipn_skipn. replace (N.to_nat (nx - t) + N.to_nat t)%nat with (N.to_nat nx) by lia.
        rewrite (skipn_nth_cons _ _ _ Hn). rewrite N2Nat.id. unfold sk. repeat f_equal. lia. }
      rewrite Es. cbn [snd fst answer].
      (* load tail, load head *)
      set (s2 := QSys h t (q_ver s) (q_data s) (q_pub s) (KVer 15 nx) sk).
      assert (R2 : q_run k W s (repeat AConsume 2) = (s2, [])).
      { cbn [repeat q_run q_step]. unfold q_con_step at 1. rewrite Hc. cbn [q_run q_step].
        unfold q_con_step. cbn [q_con q_head q_tail q_ver q_data q_pub q_skipped]. fold h t.
        rewrite (wsub_ge h t) by lia.
        destruct (N.eqb_spec (h - t) 0); [lia|]. unfold s2, nx, sk, SEQLOCK_MAX_ATTEMPTS. cbn [Nat.sub].
        unfold nx. destruct (N.ltb_spec cap (h - t)).
        - rewrite (wsub_ge h cap) by lia. rewrite wsub_ge by lia. reflexivity.
        - rewrite N.sub_diag, N.add_0_r. reflexivity. }
      set (s3 := QSys h t (q_ver s) (q_data s) (q_pub s) (KCheck 15 nx d) sk).
      assert (R3 : q_run k W s2 (repeat AConsume (S W)) = (s3, [])).
      { cbn [repeat q_run q_step]. unfold q_con_step. cbn [s2 q_con q_head q_tail q_ver q_data q_pub q_skipped].
        rewrite Hv. cbn [st_writing st_num negb andb]. rewrite N.eqb_refl.
        destruct W as [|w] eqn:EW.
        - cbn [Nat.eqb repeat q_run]. unfold s3. destruct d; [reflexivity|discriminate].
        - cbn [Nat.eqb]. rewrite <- EW. rewrite <- EW in Hdl.
          set (s2' := QSys _ _ _ _ _ _ _).
          pose proof (read_loop w s2' 15 nx []) as RL. rewrite EW.
          change (length (q_data s2' (slot nx))) with (length d) in RL.
          rewrite EW in RL. rewrite RL; try reflexivity; try lia; try (rewrite <- EW; exact Hdl). }
      set (s4 := QSys h (nx + 1) (q_ver s) (q_data s) (q_pub s) KIdle sk).
      assert (R4 : q_run k W s3 (repeat AConsume 2) = (s4, [QRecv d])).
      { cbn [repeat q_run q_step]. unfold q_con_step at 1. cbn [s3 q_con q_head q_tail q_ver q_data q_pub q_skipped].
        rewrite Hv. cbn [st_writing st_num negb andb]. rewrite N.eqb_refl. reflexivity. }
      exists (2 + (S W + 2))%nat, s4. rewrite !repeat_app, q_run_app, R2, q_run_app, R3, R4.
      split; [reflexivity|]. split; [split; auto|]. split; [reflexivity|]. split; [discriminate|lia].
  Qed.

  Lemma write_loop i : forall s m p j, (j + S i)%nat = W -> q_pub s = QWrite m p j ->
    exists d, q_run k W s (repeat (APublish m) (S i)) =
      (QSys (q_head s) (q_tail s) (q_ver s) d (QStamp m p) (q_con s) (q_skipped s), []).
  Proof.
    induction i as [|i IH]; intros s m p j Hj Hp.
    - cbn [repeat q_run q_step]; unfold q_pub_step; rewrite Hp.
      destruct (Nat.eqb_spec (S j) W); [|lia]. eexists. reflexivity.
    - change (repeat (APublish m) (S (S i))) with (APublish m :: repeat (APublish m) (S i)).
      destruct (IH (QSys (q_head s) (q_tail s) (q_ver s)
              (upd (q_data s) (slot p) (set_word j (nth j m 0) (q_data s (slot p)))) (QWrite m p (S j)) (q_con s) (q_skipped s))
              m p (S j) ltac:(lia) eq_refl) as (d & H).
      exists d. eapply q_run_quiet; [|exact H].
      cbn [q_step]; unfold q_pub_step; rewrite Hp. destruct (Nat.eqb_spec (S j) W); [lia|]. reflexivity.
  Qed.

  Lemma publish_alone e tr s m : qinv e tr s -> q_idle s -> length m = W ->
    exists n s', q_run k W s (repeat (APublish m) n) = (s', [QCall m; QSent m]) /\
      q_idle s' /\ chan_of (tr ++ [QCall m; QSent m]) s' = ch_publish m (chan_of tr s).
  Proof.
    intros I (Hp & Hc) Hm.
    set (s2 := QSys (q_head s) (q_tail s) (upd (q_ver s) (slot (q_head s)) (Stamp true (q_head s))) (q_data s)
                    (q_start_write W m (q_head s)) (q_con s) (q_skipped s)).
    assert (R1 : q_run k W s (repeat (APublish m) 3) = (s2, [QCall m])).
    { cbn [repeat q_run q_step]. unfold q_pub_step at 1. rewrite Hp. rewrite (proj2 (Nat.eqb_eq _ _) Hm). reflexivity. }
    assert (R2 : exists d, q_run k W s2 (repeat (APublish m) W) =
      (QSys (q_head s) (q_tail s) (upd (q_ver s) (slot (q_head s)) (Stamp true (q_head s))) d
                    (QStamp m (q_head s)) (q_con s) (q_skipped s), [])).
    { destruct W as [|w] eqn:EW.
      - eexists. cbn [repeat q_run]. unfold s2, q_start_write. rewrite EW. reflexivity.
      - rewrite <- EW in *. destruct (write_loop w s2 m (q_head s) 0) as (d & H); [lia| |].
        + unfold s2, q_start_write. cbn [q_pub]. reflexivity.
        + exists d. rewrite EW at 2. rewrite H. reflexivity. }
    destruct R2 as (d & R2).
    exists (3 + (W + 2))%nat, (QSys (q_head s + 1) (q_tail s)
      (upd (upd (q_ver s) (slot (q_head s)) (Stamp true (q_head s))) (slot (q_head s)) (Stamp false (q_head s))) d QIdle (q_con s) (q_skipped s)).
    rewrite !repeat_app, q_run_app, R1, q_run_app, R2. split; [reflexivity|]. split; [split; auto|].
    unfold chan_of, ch_publish. cbn [q_tail q_skipped ch_unread ch_lost]. rewrite q_sent_app. cbn [q_sent].
    f_equal. rewrite skipn_app. f_equal.
    replace (N.to_nat (q_tail s) - length (q_sent tr))%nat with 0%nat; [reflexivity|].
    pose proof (i_len _ _ _ I). destruct (i_tail _ _ _ I). unfold q_next in *. rewrite Hc in *. lia.
  Qed.

  Lemma q_reach_app sched more : q_trace k W (sched ++ more) = q_trace k W sched ++ snd (q_run k W (q_final k W sched) more)
    /\ q_final k W (sched ++ more) = fst (q_run k W (q_final k W sched) more).
  Proof.
    unfold q_trace, q_final. rewrite q_run_app. destruct (q_run k W (q_init W) sched) as (s1, e1). cbn [fst snd].
    destruct (q_run k W s1 more) as (s2, e2). auto.
  Qed.

  Lemma chan_answer tr o s : chan_of (tr ++ [answer o]) s = chan_of tr s.
  Proof. unfold chan_of. rewrite q_sent_app. destruct o; cbn [answer q_sent]; rewrite app_nil_r; auto. Qed.

  (** ** Every call returns within a bounded number of its own steps *)
  Definition left (s : qsys) : nat :=
    match q_con s with
    | KIdle => 16 * (W + 4) + 1
    | KHead a _ => (S a) * (W + 4)
    | KVer a _ => a * (W + 4) + W + 3
    | KRead a _ acc => a * (W + 4) + (W - length acc) + 2
    | KCheck a _ _ => a * (W + 4) + 2
    | KTail _ _ => 1
    end.
  Definition answered (ev : list qevent) : Prop := exists e, In e ev /\ match e with QRecv _ | QNone => True | _ => False end.

  Lemma left_step e tr s : qinv e tr s ->
    answered (snd (q_step k W s AConsume)) \/ (left (fst (q_step k W s AConsume)) < left s)%nat.
  Proof.
    intros I. pose proof (i_con _ _ _ I) as C. unfold con_ok in C. cbn [q_step]. unfold q_con_step.
    destruct (q_con s) as [|a n|a n|a n acc|a n acc|n acc] eqn:Epc.
    - right. unfold left. cbn [fst q_con]. rewrite Epc. unfold SEQLOCK_MAX_ATTEMPTS. lia.
    - destruct (_ =? 0); [left; eexists; split; [left; reflexivity|exact Logic.I]|].
      right. unfold left. rewrite Epc. destruct (_ <? _); cbn [fst q_con]; lia.
    - destruct (_ && _); [|unfold q_retry; destruct a; [left; eexists; split; [left; reflexivity|exact Logic.I]|]];
        right; unfold left; rewrite Epc; cbn [fst q_con]; [|lia].
      destruct (Nat.eqb_spec W 0); cbn [length]; lia.
    - right. unfold left. rewrite Epc. cbn [fst q_con]. rewrite app_length. cbn [length].
      destruct (Nat.eqb_spec (length acc + 1) W); [lia|]. rewrite app_length. cbn [length]. lia.
    - destruct (_ && _); [|unfold q_retry; destruct a; [left; eexists; split; [left; reflexivity|exact Logic.I]|]];
        right; unfold left; rewrite Epc; cbn [fst q_con]; lia.
    - left. eexists. split; [left; reflexivity|exact Logic.I].
  Qed.
  Lemma left_pub s arg : left (fst (q_step k W s (APublish arg))) = left s.
  Proof.
    cbn [q_step]. unfold q_pub_step, left. destruct (q_pub s); try reflexivity. destruct (Nat.eqb _ W); reflexivity.
  Qed.

  Definition att_ok (s : qsys) : Prop :=
    match q_con s with
    | KHead a _ | KVer a _ | KRead a _ _ | KCheck a _ _ => (a < 16)%nat
    | _ => True
    end.
  Lemma att_reach sched : att_ok (q_final k W sched).
  Proof.
    induction sched as [|a sched IH] using rev_ind; [exact Logic.I|]. rewrite q_final_snoc.
    set (s := q_final k W sched) in *. clearbody s. unfold att_ok in *. destruct a as [arg|]; cbn [q_step].
    - assert (E : q_con (fst (q_pub_step k W arg s)) = q_con s).
      { unfold q_pub_step. destruct (q_pub s); auto. destruct (Nat.eqb _ W); auto. }
      rewrite E. auto.
    - unfold q_con_step. destruct (q_con s) as [|a n|a n|a n acc|a n acc|n acc]; cbn [fst q_con]; try exact Logic.I; [| | | |].
      + unfold SEQLOCK_MAX_ATTEMPTS. cbn. lia.
      + destruct (_ =? 0); [exact Logic.I|]. destruct (_ <? _); auto.
      + destruct (_ && _); [cbn [fst q_con]; destruct (Nat.eqb W 0); auto|].
        unfold q_retry. destruct a; cbn [fst q_con]; [exact Logic.I|lia].
      + destruct (Nat.eqb _ W); auto.
      + destruct (_ && _); [exact Logic.I|]. unfold q_retry. destruct a; cbn [fst q_con]; [exact Logic.I|lia].
  Qed.
  Lemma left_le sched : (left (q_final k W sched) <= 16 * (W + 4) + 1)%nat.
  Proof.
    pose proof (att_reach sched) as H. unfold att_ok, left in *.
    destruct (q_con (q_final k W sched)) as [|a n|a n|a n acc|a n acc|n acc]; nia.
  Qed.
  Lemma left_pos s : (0 < left s)%nat.
  Proof. unfold left. destruct (q_con s); nia. Qed.

  Definition own (a : qaction) : nat := match a with AConsume => 1 | _ => 0 end.
  Lemma returns_in more : forall sched,
    (left (q_final k W sched) <= list_sum (map own more))%nat -> (0 < left (q_final k W sched))%nat ->
    answered (snd (q_run k W (q_final k W sched) more)).
  Proof.
    induction more as [|a more IH]; intros sched Hl Hp; cbn [map list_sum fold_right] in Hl; [lia|].
    assert (I : qinv False (q_trace k W sched) (q_final k W sched)) by (apply qinv_reach; tauto).
    pose proof (IH (sched ++ [a])) as IH'. rewrite q_final_snoc in IH'.
    assert (Keep : answered (snd (q_step k W (q_final k W sched) a)) \/
                   answered (snd (q_run k W (fst (q_step k W (q_final k W sched) a)) more)) ->
                   answered (snd (q_run k W (q_final k W sched) (a :: more)))).
    { cbn [q_run]. destruct (q_step k W (q_final k W sched) a) as (s1, e1). cbn [fst snd].
      destruct (q_run k W s1 more) as (s2, e2). cbn [snd].
      intros [(e & H1 & H2)|(e & H1 & H2)]; exists e; split; auto; apply in_or_app; auto. }
    apply Keep. destruct a as [arg|].
    - right. apply IH'; rewrite left_pub; auto.
    - destruct (left_step _ _ _ I) as [|Hlt]; auto. right. cbn [own] in Hl.
      apply IH'; [unfold list_sum in *; lia|].
      assert (I2 : qinv False (q_trace k W (sched ++ [AConsume])) (q_final k W (sched ++ [AConsume]))) by (apply qinv_reach; tauto).
      rewrite q_final_snoc in I2. pose proof (i_con _ _ _ I2) as C. unfold con_ok in C.
      unfold left. destruct (q_con (fst _)); lia.
  Qed.

  (** ** Whole operations *)
  Lemma ops_run (E0 : Prop) ops : Forall (fun o => match o with OPublish m => length m = W | OConsume => True end) ops ->
    forall sched, q_idle (q_final k W sched) -> (E0 -> none_means_empty k W sched) ->
    exists more, q_idle (q_final k W (sched ++ more)) /\ (E0 -> none_means_empty k W (sched ++ more)) /\
      q_trace k W (sched ++ more) = q_trace k W sched ++ snd (ch_run k (chan_of (q_trace k W sched) (q_final k W sched)) ops) /\
      chan_of (q_trace k W (sched ++ more)) (q_final k W (sched ++ more)) =
      fst (ch_run k (chan_of (q_trace k W sched) (q_final k W sched)) ops).
  Proof.
    induction ops as [|o ops IH]; intros Hf sched Hi Hne.
    - exists []. rewrite !app_nil_r. cbn [ch_run fst snd]. rewrite ?app_nil_r. auto.
    - inversion Hf as [|x l Ho Hf']; subst. 
      assert (I : qinv False (q_trace k W sched) (q_final k W sched)) by (apply qinv_reach; tauto).
      assert (One : exists m1, q_idle (q_final k W (sched ++ m1)) /\ (E0 -> none_means_empty k W (sched ++ m1)) /\
        q_trace k W (sched ++ m1) = q_trace k W sched ++ snd (ch_op k (chan_of (q_trace k W sched) (q_final k W sched)) o) /\
        chan_of (q_trace k W (sched ++ m1)) (q_final k W (sched ++ m1)) =
        fst (ch_op k (chan_of (q_trace k W sched) (q_final k W sched)) o)).
      { destruct o as [m|].
        - destruct (publish_alone _ _ _ m I Hi Ho) as (n & s' & R & Hi' & Hc).
          exists (repeat (APublish m) n).
          destruct (q_reach_app sched (repeat (APublish m) n)) as (T & F). rewrite R in T, F. cbn [fst snd] in T, F.
          rewrite T, F. cbn [ch_op fst snd]. repeat split; auto; try apply Hi'.
          intros HE pre a suf E Hin. specialize (Hne HE).
          destruct (Nat.lt_ge_cases (length pre) (length sched)) as [L|L].
          + apply (Hne pre a (firstn (length sched - S (length pre)) suf)); auto.
            assert (E2 : firstn (length sched) (sched ++ repeat (APublish m) n) = firstn (length sched) (pre ++ a :: suf)) by congruence.
            rewrite firstn_app, Nat.sub_diag, firstn_all in E2. cbn [firstn] in E2. rewrite app_nil_r in E2.
            rewrite E2 at 1. rewrite firstn_app, firstn_all2 by lia. f_equal.
            replace (length sched - length pre)%nat with (S (length sched - S (length pre))) by lia. reflexivity.
          + assert (E2 : skipn (length sched) (sched ++ repeat (APublish m) n) = skipn (length sched) (pre ++ a :: suf)) by congruence.
            rewrite skipn_app, skipn_all, Nat.sub_diag in E2. cbn [app skipn] in E2.
            rewrite skipn_app in E2. assert (Ha : In a (repeat (APublish m) n)).
            { rewrite E2. apply in_or_app. right. replace (length sched - length pre)%nat with 0%nat by lia. left; auto. }
            apply repeat_spec in Ha. subst a. exfalso. revert Hin. cbn [q_step]. unfold q_pub_step.
            destruct (q_pub _); cbn [snd]; try (intros [Hx|[]]; discriminate); try (intros []).
            destruct (Nat.eqb _ W); cbn [snd]; [intros [Hx|[]]; discriminate|intros []].
        - destruct (consume_alone _ _ _ I Hi) as (n & s' & R & Hi' & Hc & Hnone & Hn1).
          exists (repeat AConsume n).
          destruct (q_reach_app sched (repeat AConsume n)) as (T & F). rewrite R in T, F. cbn [fst snd] in T, F.
          rewrite T, F, chan_answer. cbn [ch_op].
          destruct (ch_consume k (chan_of (q_trace k W sched) (q_final k W sched))) as (c', o') eqn:Eo. cbn [fst snd] in *.
          split; [auto|]. split; [|auto].
          intros HE pre a suf E Hin. specialize (Hne HE).
          destruct (Nat.lt_ge_cases (length pre) (length sched)) as [L|L].
          + apply (Hne pre a (firstn (length sched - S (length pre)) suf)); auto.
            assert (E2 : firstn (length sched) (sched ++ repeat AConsume n) = firstn (length sched) (pre ++ a :: suf)) by congruence.
            rewrite firstn_app, Nat.sub_diag, firstn_all in E2. cbn [firstn] in E2. rewrite app_nil_r in E2.
            rewrite E2 at 1. rewrite firstn_app, firstn_all2 by lia. f_equal.
            replace (length sched - length pre)%nat with (S (length sched - S (length pre))) by lia. reflexivity.
          + assert (Ep : exists i, pre = sched ++ repeat AConsume i /\ a :: suf = repeat AConsume (n - i) /\ (i <= n)%nat).
            { exists (length pre - length sched)%nat.
              assert (E1 : firstn (length pre) (sched ++ repeat AConsume n) = pre) by (rewrite E, firstn_app, firstn_all, Nat.sub_diag; cbn [firstn]; apply app_nil_r).
              assert (E2 : skipn (length pre) (sched ++ repeat AConsume n) = a :: suf) by (rewrite E, skipn_app, skipn_all, Nat.sub_diag; reflexivity).
              rewrite firstn_app, firstn_all2 in E1 by lia. rewrite skipn_app, skipn_all2 in E2 by lia. cbn [app] in E2.
              assert (Lp : (length pre - length sched <= n)%nat).
              { assert (Z : length (sched ++ repeat AConsume n) = length (pre ++ a :: suf)) by congruence.
                rewrite !app_length, repeat_length in Z. lia. }
              assert (Rs : repeat AConsume n = repeat AConsume (length pre - length sched) ++ repeat AConsume (n - (length pre - length sched))).
              { rewrite <- repeat_app. f_equal. lia. }
              rewrite Rs in E1, E2.
              rewrite firstn_app, firstn_all2 in E1 by (rewrite repeat_length; lia). rewrite repeat_length, Nat.sub_diag in E1. cbn [firstn] in E1.
              rewrite app_nil_r in E1.
              rewrite skipn_app, skipn_all2 in E2 by (rewrite repeat_length; lia). rewrite repeat_length, Nat.sub_diag in E2. cbn [skipn app] in E2.
              auto. }
            destruct Ep as (i & -> & E2 & Hi2).
            assert (Ha : a = AConsume).
            { apply (repeat_spec (n - i)). rewrite <- E2. left; auto. }
            subst a.
            (* the answer of the whole run is one event, so a None here is that answer *)
            destruct (q_reach_app sched (repeat AConsume i)) as (T1 & F1). rewrite F1 in *.
            assert (Rn : repeat AConsume n = repeat AConsume i ++ AConsume :: suf).
            { rewrite E2. rewrite <- repeat_app. f_equal. lia. }
            rewrite Rn, q_run_app in R.
            destruct (q_run k W (q_final k W sched) (repeat AConsume i)) as (si, ei) eqn:Ri. cbn [fst snd] in *.
            cbn [q_run] in R. destruct (q_step k W si AConsume) as (sj, ej) eqn:Rj. cbn [snd] in Hin.
            destruct (q_run k W sj suf) as (sk, ek). injection R as Es Ev.
            assert (Hall : In QNone [answer o']).
            { rewrite <- Ev. apply in_or_app. right. apply in_or_app. left. auto. }
            assert (o' = None) by (destruct o'; cbn in Hall; destruct Hall as [X|[]]; [discriminate|auto]). subst o'.
            assert (Keep : forall j s0 t0 e0, q_run k W s0 (repeat AConsume j) = (t0, e0) -> (forall m, ~ In (QRecv m) e0) ->
                     q_tail t0 = q_tail s0 /\ q_head t0 = q_head s0).
            { clear. induction j as [|j IH]; intros s0 t0 e0 H Hno; cbn [repeat q_run] in H.
              - injection H as <- <-. auto.
              - destruct (q_step k W s0 AConsume) as (s1, e1) eqn:E1.
                destruct (q_run k W s1 (repeat AConsume j)) as (s2, e2) eqn:E2. injection H as <- <-.
                destruct (IH _ _ _ E2) as (A & B). { intros m Hm. apply (Hno m). apply in_or_app; auto. }
                rewrite A, B. assert (C : q_tail s1 = q_tail s0 /\ q_head s1 = q_head s0); [|destruct C; auto].
                assert (Hno1 : forall m, ~ In (QRecv m) e1) by (intros m Hm; apply (Hno m); apply in_or_app; auto).
                revert E1. cbn [q_step]. unfold q_con_step.
                destruct (q_con s0) as [|a n|a n|a n acc|a n acc|n acc].
                + intros E; injection E as <- <-; auto.
                + destruct (_ =? 0); [intros E; injection E as <- <-; auto|]. destruct (_ <? _); intros E; injection E as <- <-; auto.
                + destruct (_ && _); [intros E; injection E as <- <-; auto|]. destruct (q_retry a n) as (pc, ev). intros E; injection E as <- <-; auto.
                + intros E; injection E as <- <-; auto.
                + destruct (_ && _); [intros E; injection E as <- <-; auto|]. destruct (q_retry a n) as (pc, ev). intros E; injection E as <- <-; auto.
                + intros E; injection E as <- <-. exfalso. apply (Hno1 acc). left; auto. }
            assert (Hq : q_tail si = q_tail (q_final k W sched) /\ q_head si = q_head (q_final k W sched)).
            { apply (Keep _ _ _ _ Ri). intros m Hm.
              assert (In (QRecv m) [answer None]) by (rewrite <- Ev; apply in_or_app; auto).
              cbn in H. destruct H as [X|[]]; discriminate. }
            destruct Hq as (-> & ->). auto. }
      destruct One as (m1 & Hi1 & Hne1 & HT1 & HC1).
      pose proof (IH Hf' (sched ++ m1) Hi1 Hne1) as IH'. rewrite HC1, HT1 in IH'.
      destruct IH' as (m2 & Hi2 & Hne2 & HT2 & HC2).
      exists (m1 ++ m2). rewrite app_assoc. split; auto. split; auto.
      cbn [ch_run]. rewrite HC2, HT2.
      destruct (ch_op k (chan_of (q_trace k W sched) (q_final k W sched)) o) as (c1, e1). cbn [fst snd].
      destruct (ch_run k c1 ops) as (c2, e2). cbn [fst snd]. rewrite app_assoc. auto.
  Qed.

  (** ** A publisher stalled in the middle of a write *)
  Lemma stalled_loop s n : q_head s <= n + cap -> n < q_head s -> st_writing (q_ver s (slot n)) = true ->
    forall a, q_con s = KVer a n ->
    q_run k W s (repeat AConsume (1 + 2 * a)) = (set_con s KIdle, [QNone]).
  Proof.
    intros Hh Hn Hw a. revert s Hh Hn Hw. induction a as [|a IH]; intros s Hh Hn Hw Hc.
    - cbn [Nat.mul Nat.add repeat q_run q_step]. unfold q_con_step. rewrite Hc, Hw. reflexivity.
    - replace (1 + 2 * S a)%nat with (S (S (1 + 2 * a))) by lia. 
      change (repeat AConsume (S (S (1 + 2 * a)))) with (AConsume :: AConsume :: repeat AConsume (1 + 2 * a)).
      eapply (q_run_quiet _ _ (set_con s (KHead a n))).
      { cbn [q_step]. unfold q_con_step. rewrite Hc, Hw. reflexivity. }
      eapply (q_run_quiet _ _ (set_con s (KVer a n))).
      { cbn [q_step]. unfold q_con_step. cbn [set_con q_con q_head]. rewrite wsub_ge by lia.
        destruct (N.eqb_spec (q_head s - n) 0); [lia|]. destruct (N.ltb_spec cap (q_head s - n)); [lia|]. reflexivity. }
      rewrite (IH (set_con s (KVer a n))); auto.
  Qed.
  Lemma stalled_poll s : q_con s = KIdle -> cap < q_head s - q_tail s ->
    st_writing (q_ver s (slot (q_head s))) = true ->
    q_run k W s (repeat AConsume 33) =
    (QSys (q_head s) (q_tail s) (q_ver s) (q_data s) (q_pub s) KIdle (q_skipped s + (q_head s - cap - q_tail s)), [QNone]).
  Proof.
    intros Hc Hl Hw. pose proof (cap_pos k).
    change (repeat AConsume 33) with (AConsume :: AConsume :: repeat AConsume (1 + 2 * 15)).
    eapply (q_run_quiet _ _ (set_con s (KHead 15 (q_tail s)))).
    { cbn [q_step]. unfold q_con_step. rewrite Hc. reflexivity. }
    eapply (q_run_quiet _ _ (QSys (q_head s) (q_tail s) (q_ver s) (q_data s) (q_pub s) (KVer 15 (q_head s - cap)) (q_skipped s + (q_head s - cap - q_tail s)))).
    { cbn [q_step]. unfold q_con_step. cbn [set_con q_con q_head q_tail q_ver q_data q_pub q_skipped]. rewrite (wsub_ge (q_head s) (q_tail s)) by lia.
      destruct (N.eqb_spec (q_head s - q_tail s) 0); [lia|]. destruct (N.ltb_spec cap (q_head s - q_tail s)); [|lia].
      rewrite (wsub_ge (q_head s) cap) by lia. rewrite wsub_ge by lia. reflexivity. }
    rewrite (stalled_loop _ (q_head s - cap)); cbn [q_head q_ver q_con]; auto; try lia.
    rewrite <- (slot_add_cap k (q_head s - cap)). replace (q_head s - cap + cap) with (q_head s) by lia. auto.
  Qed.

  (** ** What was asked to be sent *)
  Definition q_pc_pending (pc : qppc) : list msg :=
    match pc with QIdle => [] | QPos m | QMark m _ | QWrite m _ _ | QStamp m _ | QHead m _ => [m] end.
  Lemma called_sent sched : q_called (q_trace k W sched) =
    q_sent (q_trace k W sched) ++ q_pc_pending (q_pub (q_final k W sched)).
  Proof.
    induction sched as [|a sched IH] using rev_ind; [reflexivity|].
    rewrite q_trace_snoc, q_final_snoc, q_sent_app.
    assert (Ca : forall a b, q_called (a ++ b) = q_called a ++ q_called b).
    { induction a0 as [|e l IHl]; intros b; auto. destruct e; cbn [q_called app]; rewrite ?IHl; auto. }
    rewrite Ca, IH. destruct a as [arg|]; cbn [q_step].
    - unfold q_pub_step. destruct (q_pub (q_final k W sched)) eqn:E; cbn [q_pc_pending].
      + destruct (Nat.eqb _ W); cbn [fst snd q_called q_sent q_pub q_pc_pending]; rewrite ?E; rewrite ?app_nil_r; auto.
      + cbn [fst snd q_called q_sent q_pub q_pc_pending]. rewrite !app_nil_r. auto.
      + cbn [fst snd q_called q_sent q_pub q_pc_pending]. rewrite !app_nil_r.
        unfold q_start_write. destruct (Nat.eqb W 0); auto.
      + cbn [fst snd q_called q_sent q_pub q_pc_pending]. rewrite !app_nil_r. destruct (Nat.eqb (S j) W); auto.
      + cbn [fst snd q_called q_sent q_pub q_pc_pending]. rewrite !app_nil_r. auto.
      + cbn [fst snd q_called q_sent q_pub q_pc_pending]. rewrite !app_nil_r. auto.
    - assert (K : q_pub (fst (q_con_step k W (q_final k W sched))) = q_pub (q_final k W sched) /\
                  q_called (snd (q_con_step k W (q_final k W sched))) = [] /\ q_sent (snd (q_con_step k W (q_final k W sched))) = []).
      { unfold q_con_step. destruct (q_con _) as [|b n|b n|b n acc|b n acc|n acc]; cbn [fst snd q_pub q_called q_sent]; auto.
        - destruct (_ =? 0); auto. destruct (_ <? _); auto.
        - destruct (_ && _); auto. unfold q_retry. destruct b; auto.
        - destruct (_ && _); auto. unfold q_retry. destruct b; auto. }
      destruct K as (-> & -> & ->). rewrite !app_nil_r. auto.
  Qed.

  (** ** Draining the ideal channel *)
  Lemma ch_drain_small u : forall l, (length u <= N.to_nat (2 ^ k))%nat ->
    q_received (snd (ch_run k (Chan u l) (repeat OConsume (length u)))) = u.
  Proof.
    induction u as [|m u IH]; intros l Hl; [reflexivity|].
    cbn [length repeat ch_run ch_op]. unfold ch_consume. cbn [ch_unread ch_lost]. cbn [length] in Hl.
    replace (length (m :: u) - N.to_nat (2 ^ k))%nat with 0%nat by (cbn [length]; lia). cbn [skipn].
    specialize (IH (l + N.of_nat 0) ltac:(lia)). destruct (ch_run k _ _) as (c2, e2). cbn [snd app q_received] in *. congruence.
  Qed.
  Lemma ch_drain u l : exists j,
    q_received (snd (ch_run k (Chan u l) (repeat OConsume j))) = skipn (length u - N.to_nat (2 ^ k)) u.
  Proof.
    destruct (skipn (length u - N.to_nat (2 ^ k)) u) as [|m r] eqn:E.
    - exists 0%nat. reflexivity.
    - exists (S (length r)). cbn [repeat ch_run ch_op]. unfold ch_consume. cbn [ch_unread ch_lost]. rewrite E.
      assert (Hr : (length (m :: r) <= N.to_nat (2 ^ k))%nat) by (rewrite <- E, skipn_length; lia). cbn [length] in Hr.
      pose proof (ch_drain_small r (l + N.of_nat (length u - N.to_nat (2 ^ k))) ltac:(lia)) as H.
      destruct (ch_run k _ _) as (c2, e2). cbn [snd app q_received] in *. congruence.
  Qed.

  (** ** The stalled publisher, from the start *)
  Lemma ch_publish_many ms : forall u l, ch_run k (Chan u l) (map OPublish ms) =
    (Chan (u ++ ms) l, flat_map (fun m => [QCall m; QSent m]) ms).
  Proof.
    induction ms as [|m ms IH]; intros u l; cbn [map ch_run ch_op ch_publish flat_map ch_unread ch_lost]; [rewrite app_nil_r; auto|].
    unfold ch_publish. cbn [ch_unread ch_lost]. rewrite IH. rewrite <- app_assoc. auto.
  Qed.
  Lemma flat_sent ms : q_sent (flat_map (fun m => [QCall m; QSent m]) ms) = ms /\
                       q_received (flat_map (fun m => [QCall m; QSent m]) ms) = [].
  Proof. induction ms as [|m ms (A & B)]; auto. cbn [flat_map app q_sent q_received]. rewrite A, B. auto. Qed.

  Lemma publish_many ms : Forall (fun m : msg => length m = W) ms -> ms <> [] -> exists sched,
    q_idle (q_final k W sched) /\ q_sent (q_trace k W sched) = ms /\ q_received (q_trace k W sched) = [] /\
    q_tail (q_final k W sched) = 0 /\ q_skipped (q_final k W sched) = 0.
  Proof.
    intros Hf Hne.
    destruct (ops_run False (map OPublish ms)) with (sched := @nil qaction) as (more & Hi & _ & HT & HC); auto.
    - induction Hf; cbn [map]; auto. constructor; auto. destruct l; [constructor|]. apply IHHf. discriminate.
    - split; reflexivity.
    - tauto.
    - cbn [app] in *. exists more. split; auto.
      change (chan_of (q_trace k W []) (q_final k W [])) with (Chan [] 0) in HT, HC.
      rewrite ch_publish_many in HT, HC. cbn [fst snd app] in HT, HC.
      change (q_trace k W []) with (@nil qevent) in HT. cbn [app] in HT.
      destruct (flat_sent ms) as (A & B). rewrite HT in *. rewrite A, B. repeat split; auto.
      + unfold chan_of in HC. injection HC as H1 H2. rewrite A in H1.
        assert (L : length (skipn (N.to_nat (q_tail (q_final k W more))) ms) = length ms) by congruence.
        rewrite skipn_length in L. destruct ms; [congruence|]. cbn [length] in L. lia.
      + unfold chan_of in HC. injection HC as H1 H2. auto.
  Qed.

  Lemma stalled_polls n : forall s, q_con s = KIdle -> cap < q_head s - q_tail s ->
    st_writing (q_ver s (slot (q_head s))) = true ->
    exists s', q_run k W s (repeat AConsume (33 * n)) = (s', repeat QNone n) /\
      q_skipped s' = q_skipped s + N.of_nat n * (q_head s - cap - q_tail s).
  Proof.
    induction n as [|n IH]; intros s Hc Hl Hw.
    - exists s. cbn [Nat.mul repeat q_run]. split; auto. lia.
    - replace (33 * S n)%nat with (33 + 33 * n)%nat by lia. rewrite repeat_app, q_run_app, stalled_poll by auto.
      match goal with |- context [q_run k W ?x _] => set (s1 := x) end.
      destruct (IH s1) as (s' & R & K); auto. exists s'. rewrite R. split; [reflexivity|].
      rewrite K. cbn [s1 q_skipped q_head q_tail]. lia.
  Qed.

  Lemma overcount ms (m : msg) n : Forall (fun m : msg => length m = W) ms -> N.of_nat (@length (list N) ms) = cap + 1 -> length m = W ->
    exists sched, q_sent (q_trace k W sched) = ms /\ q_received (q_trace k W sched) = [] /\
      q_skipped (q_final k W sched) = N.of_nat n.
  Proof.
    intros Hf Hl Hm. pose proof (cap_pos k) as Hcap.
    destruct (publish_many ms Hf) as (sched & (Hi1 & Hi2) & Hs & Hr & Ht & Hk); [destruct ms; [cbn in Hl; lia|discriminate]|].
    assert (I : qinv False (q_trace k W sched) (q_final k W sched)) by (apply qinv_reach; tauto).
    assert (Hh : q_head (q_final k W sched) = cap + 1) by (rewrite <- (i_len _ _ _ I), Hs; auto).
    set (s := q_final k W sched) in *.
    set (s2 := QSys (q_head s) (q_tail s) (upd (q_ver s) (slot (q_head s)) (Stamp true (q_head s))) (q_data s)
                    (q_start_write W m (q_head s)) (q_con s) (q_skipped s)).
    assert (R1 : q_run k W s (repeat (APublish m) 3) = (s2, [QCall m])).
    { cbn [repeat q_run q_step]. unfold q_pub_step at 1. rewrite Hi1. rewrite (proj2 (Nat.eqb_eq _ _) Hm). reflexivity. }
    destruct (stalled_polls n s2) as (s' & R2 & K2); auto.
    { cbn [s2 q_head q_tail]. lia. }
    { cbn [s2 q_ver q_head]. rewrite upd_eq. auto. }
    exists (sched ++ (repeat (APublish m) 3 ++ repeat AConsume (33 * n))).
    destruct (q_reach_app sched (repeat (APublish m) 3 ++ repeat AConsume (33 * n))) as (T & F). rewrite T, F.
    fold s. rewrite q_run_app, R1, R2. cbn [fst snd].
    assert (Nn : q_sent (repeat QNone n) = [] /\ q_received (repeat QNone n) = []).
    { clear. induction n as [|n (A & B)]; auto. }
    destruct Nn as (N1 & N2).
    rewrite q_sent_app, q_received_app. cbn [app q_sent q_received]. rewrite N1, N2, !app_nil_r.
    repeat split; auto. rewrite K2. cbn [s2 q_skipped q_head q_tail]. rewrite Hk, Hh, Ht. lia.
  Qed.
End Inv.
