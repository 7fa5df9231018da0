(** Work-sharing ring: claims are distinct, and an undisturbed read returns the claimed message. *)
From Coq Require Import Permutation.
From Verif.Base Require Import Prelude.
From Verif.Model Require Import RingMem Spmc.
From Verif.Spec Require Import SpmcSpec.
From Verif.Proofs Require Import RingMemProofs.
Local Open Scope N_scope.

Lemma s_sent_app a b : s_sent (a ++ b) = s_sent a ++ s_sent b.
Proof. induction a as [|e a IH]; auto. destruct e; cbn [s_sent app]; auto. rewrite IH; auto. Qed.
Lemma s_received_app a b : s_received (a ++ b) = s_received a ++ s_received b.
Proof. induction a as [|e a IH]; auto. destruct e; cbn [s_received app]; auto. rewrite IH; auto. Qed.
Lemma s_received_by_app c a b : s_received_by c (a ++ b) = s_received_by c a ++ s_received_by c b.
Proof. induction a as [|e a IH]; auto. destruct e; cbn [s_received_by app]; auto. destruct (Nat.eqb _ _); cbn [app]; congruence. Qed.

Lemma subseq_app {A} (r l l' : list A) : subseq r l -> subseq r (l ++ l').
Proof. induction 1; cbn [app]; constructor; auto. Qed.
Lemma subseq_snoc {A} (r l : list A) a : subseq r l -> subseq (r ++ [a]) (l ++ [a]).
Proof.
  induction 1 as [l| |]; cbn [app]; try (constructor; auto).
  induction l; cbn [app]; constructor; auto. constructor.
Qed.
Lemma subseq_pre {A} (r l : list A) n m : (n <= m)%nat -> subseq r (firstn n l) -> subseq r (firstn m l).
Proof.
  intros H S. replace m with (n + (m - n))%nat by lia.
  rewrite <- (firstn_skipn n l) at 1. destruct (Nat.le_gt_cases n (length l)).
  - rewrite firstn_app, firstn_firstn, firstn_length. replace (Nat.min n (length l)) with n by lia.
    replace (Nat.min (n + (m - n)) n) with n by lia. apply subseq_app. auto.
  - rewrite firstn_skipn, firstn_all2 by lia. rewrite firstn_all2 in S by lia. auto.
Qed.

Lemma Forall2_mono {A B} (R R' : A -> B -> Prop) l1 l2 : (forall a b, R a b -> R' a b) -> Forall2 R l1 l2 -> Forall2 R' l1 l2.
Proof. intros H. induction 1; constructor; auto. Qed.

Lemma NoDup_app_disjoint {A} (a b : list A) : NoDup a -> NoDup b -> (forall x, In x a -> ~ In x b) -> NoDup (a ++ b).
Proof.
  induction a as [|x a IH]; intros Ha Hb H; auto. inversion Ha; subst. cbn [app]. constructor.
  - rewrite in_app_iff. intros [K|K]; [contradiction|]. apply (H x); [left; auto|auto].
  - apply IH; auto. intros y Hy. apply H. right; auto.
Qed.
Lemma NoDup_app_snoc {A} (l : list A) a : NoDup l -> ~ In a l -> NoDup (l ++ [a]).
Proof. intros. apply NoDup_app_disjoint; auto; [repeat constructor; auto|]. intros x Hx [->|[]]. contradiction. Qed.

Section P.
  Variables (k : N) (W : nat).
  Notation s_step := (s_step k W).
  Notation s_final := (s_final k W).
  Notation s_trace := (s_trace k W).

  Lemma s_run_app s a b : s_run k W s (a ++ b) =
    let '(s1, e1) := s_run k W s a in let '(s2, e2) := s_run k W s1 b in (s2, e1 ++ e2).
  Proof.
    revert s; induction a as [|x a IH]; intros s; cbn [app s_run].
    - destruct (s_run k W s b); auto.
    - destruct (s_step s x) as (s1, e1). rewrite IH. destruct (s_run k W s1 a) as (s2, e2).
      destruct (s_run k W s2 b) as (s3, e3). rewrite app_assoc. auto.
  Qed.
  Lemma s_final_snoc sched a : s_final (sched ++ [a]) = fst (s_step (s_final sched) a).
  Proof. unfold Spmc.s_final. rewrite s_run_app. destruct (s_run k W (s_init W) sched) as (s1, e1). cbn [s_run fst]. destruct (s_step s1 a); auto. Qed.
  Lemma s_trace_snoc sched a : s_trace (sched ++ [a]) = s_trace sched ++ snd (s_step (s_final sched) a).
  Proof.
    unfold Spmc.s_trace, Spmc.s_final. rewrite s_run_app. destruct (s_run k W (s_init W) sched) as (s1, e1). cbn [s_run fst snd].
    destruct (s_step s1 a); cbn [snd]. rewrite app_nil_r. auto.
  Qed.

  (** ** The publisher's side, unconditional *)
  Definition busy (pc : spc) : N := if is_writing pc then 1 else 0.
  Definition pc_msg_ok (pc : spc) : Prop :=
    match pc with SIdle => True | SLoad m | SWrite m _ | SReady m | SHead m => length m = W end.
  Definition pc_room (s : ssys) : Prop :=
    is_writing (s_pc (x_pub s)) = true -> s_lhead (x_pub s) < s_ltail (x_pub s) + cap k.
  Definition pc_data (s : ssys) : Prop :=
    let h := s_lhead (x_pub s) in
    match s_pc (x_pub s) with
    | SWrite m j => (j < W)%nat /\ firstn j (sm_data (x_mem s) (slot k h)) = firstn j m
    | SReady m | SHead m => sm_data (x_mem s) (slot k h) = m
    | _ => True
    end.
  Record pinv (L : list msg) (s : ssys) : Prop := PInv {
    v_head : sm_head (x_mem s) = s_lhead (x_pub s);
    v_len : s_lhead (x_pub s) = N.of_nat (length L);
    v_tail : s_ltail (x_pub s) <= sm_tail (x_mem s) /\ sm_tail (x_mem s) <= s_lhead (x_pub s);
    v_msg : pc_msg_ok (s_pc (x_pub s));
    v_width : forall m, In m L -> length m = W;
    v_slots : forall i, length (sm_data (x_mem s) i) = W;
    v_room : pc_room s;
    v_pc : pc_data s;
    v_win : forall t m, nth_error L (N.to_nat t) = Some m -> N.of_nat (length L) + busy (s_pc (x_pub s)) <= t + cap k ->
              sm_data (x_mem s) (slot k t) = m
  }.
  Lemma pinv_init : pinv [] (s_init W).
  Proof.
    constructor; cbn [s_init x_mem x_pub s_lhead s_ltail s_pc smem0 sm_head sm_tail sm_data length]; try reflexivity; try lia; auto.
    - intros m [].
    - intros i. apply repeat_length.
    - intros X; discriminate.
    - intros t m H. destruct (N.to_nat t); discriminate.
  Qed.

  Lemma start_writing m : is_writing (s_start W m) = true.
  Proof. unfold s_start. destruct (Nat.eqb W 0); auto. Qed.
  Lemma list_full (l : list N) (m : msg) : length l = W -> length m = W -> firstn W l = firstn W m -> l = m.
  Proof. intros A B. rewrite (firstn_all2 l), (firstn_all2 m) by lia. auto. Qed.

  Lemma pinv_pub L s arg : pinv L s ->
    let '(mem, t, ev) := spub_step k W arg (x_mem s) (x_pub s) in
    pinv (L ++ s_sent ev) (SSys mem t (x_con s)) /\ s_received ev = [] /\ (forall c, s_received_by c ev = []) /\
    sm_tail mem = sm_tail (x_mem s) /\ sm_head (x_mem s) <= sm_head mem.
  Proof.
    intros [Vh Vl (Vt1 & Vt2) Vm Vw Vs Vr Vp Vn]. unfold spub_step, pc_room, pc_data in *. pose proof (cap_pos k) as Cp.
    destruct (s_pc (x_pub s)) as [|m|m j|m|m] eqn:Epc; cbn [is_writing busy] in *.
    - destruct (Nat.eqb_spec (length arg) W) as [Ha|Ha].
      + cbn [s_sent s_received s_received_by]. rewrite app_nil_r. split; [|cbn [set_data set_ready set_head sm_head sm_tail]; repeat split; auto; lia].
        destruct (N.leb_spec (cap k) (wsub (s_lhead (x_pub s)) (s_ltail (x_pub s)))) as [Hf|Hf].
        * constructor; unfold pc_room, pc_data; cbn [x_mem x_pub s_lhead s_ltail s_pc busy is_writing pc_msg_ok]; auto; try discriminate.
        * constructor; unfold pc_room, pc_data; cbn [x_mem x_pub s_lhead s_ltail s_pc]; auto.
          -- unfold s_start. destruct (Nat.eqb W 0); auto.
          -- intros _. rewrite wsub_ge in Hf by lia. lia.
          -- unfold s_start. destruct (Nat.eqb_spec W 0) as [E0|]; [|split; [lia|auto]].
             apply (f_equal (@length N)) in Ha || idtac. specialize (Vs (slot k (s_lhead (x_pub s)))).
             destruct (sm_data (x_mem s) (slot k (s_lhead (x_pub s)))), arg; cbn [length] in *; try lia; auto.
          -- intros t m Hm Hb. apply Vn; auto. unfold busy in *. rewrite start_writing in Hb. lia.
      + cbn [s_sent s_received s_received_by]. rewrite app_nil_r. split; [|cbn [set_data set_ready set_head sm_head sm_tail]; repeat split; auto; lia].
        constructor; unfold pc_room, pc_data; cbn [x_mem x_pub]; rewrite ?Epc; auto.
    - destruct (N.leb_spec (cap k) (wsub (s_lhead (x_pub s)) (sm_tail (x_mem s)))) as [Hf|Hf]; cbn [s_sent s_received s_received_by]; rewrite app_nil_r;
        (split; [|cbn [set_data set_ready set_head sm_head sm_tail]; repeat split; auto; lia]).
      + constructor; unfold pc_room, pc_data; cbn [x_mem x_pub s_lhead s_ltail s_pc busy is_writing pc_msg_ok]; auto; try discriminate. split; [lia|auto].
      + constructor; unfold pc_room, pc_data; cbn [x_mem x_pub s_lhead s_ltail s_pc]; auto.
        * split; [lia|auto].
        * unfold s_start. destruct (Nat.eqb W 0); auto.
        * intros _. rewrite wsub_ge in Hf by lia. lia.
        * cbn [pc_msg_ok] in Vm. unfold s_start. destruct (Nat.eqb_spec W 0) as [E0|]; [|split; [lia|auto]].
          specialize (Vs (slot k (s_lhead (x_pub s)))).
          destruct (sm_data (x_mem s) (slot k (s_lhead (x_pub s)))), m; cbn [length] in *; try lia; auto.
        * intros t m' Hm Hb. apply Vn; auto. unfold busy in *. rewrite start_writing in Hb. cbn [is_writing]. lia.
    - cbn [s_sent s_received s_received_by]. rewrite app_nil_r. split; [|cbn [set_data set_ready set_head sm_head sm_tail]; repeat split; auto; lia].
      destruct Vp as (Vp1 & Vp2). cbn [pc_msg_ok] in Vm.
      assert (Hw : firstn (S j) (set_word j (nth j m 0) (sm_data (x_mem s) (slot k (s_lhead (x_pub s))))) = firstn (S j) m).
      { rewrite set_word_firstn by (rewrite Vs; lia). rewrite Vp2. symmetry. apply firstn_snoc. lia. }
      constructor; unfold pc_room, pc_data; cbn [x_mem x_pub set_data sm_head sm_tail sm_data s_lhead s_ltail s_pc]; auto.
      + destruct (Nat.eqb (S j) W); auto.
      + intros i. unfold upd. destruct (i =? _); auto. rewrite set_word_length. auto.
      + rewrite upd_eq. destruct (Nat.eqb_spec (S j) W) as [E|E].
        * apply list_full; auto; [rewrite set_word_length; auto|]. rewrite <- E. auto.
        * split; [lia|auto].
      + intros t m' Hm Hb. assert (Hb' : N.of_nat (length L) + 1 <= t + cap k).
        { destruct (Nat.eqb (S j) W); cbn [busy is_writing] in Hb; auto. }
        rewrite upd_neq; [apply Vn; auto; unfold busy; rewrite Epc; auto|].
        pose proof (nth_error_Some_lt _ _ _ Hm) as Lt. intros E. symmetry in E.
        assert (Ht : t < s_lhead (x_pub s)) by lia.
        apply (slot_neq k (s_lhead (x_pub s)) t t (s_lhead (x_pub s) + 1)); auto; lia.
    - cbn [s_sent s_received s_received_by]. rewrite app_nil_r. split; [|cbn [set_data set_ready set_head sm_head sm_tail]; repeat split; auto; lia].
      constructor; unfold pc_room, pc_data; cbn [x_mem x_pub set_ready sm_head sm_tail sm_data s_lhead s_ltail s_pc busy is_writing pc_msg_ok]; auto.
    - cbn [s_sent s_received s_received_by]. split; [|repeat split; auto; cbn [set_head sm_head sm_tail]; lia].
      cbn [pc_msg_ok] in Vm. specialize (Vr eq_refl).
      assert (Hl : N.of_nat (length (L ++ [m])) = N.of_nat (length L) + 1) by (rewrite app_length; cbn [length]; lia).
      constructor; unfold pc_room, pc_data; cbn [x_mem x_pub set_head sm_head sm_tail sm_data s_lhead s_ltail s_pc pc_msg_ok]; auto.
      + rewrite Hl. lia.
      + split; [auto|lia].
      + intros m'. rewrite in_app_iff. intros [H|[<-|[]]]; auto.
      + discriminate.
      + intros t m' Hm. rewrite Hl. cbn [busy is_writing]. intros Hb.
        destruct (Nat.lt_ge_cases (N.to_nat t) (length L)) as [Lt|Ge].
        * rewrite nth_error_app1 in Hm by auto. apply Vn; auto. unfold busy. cbn [is_writing]. lia.
        * rewrite nth_error_app2 in Hm by auto. pose proof (nth_error_Some_lt _ _ _ Hm) as Lt. cbn [length] in Lt.
          assert (E : (N.to_nat t - length L = 0)%nat) by lia. rewrite E in Hm. injection Hm as <-.
          replace t with (s_lhead (x_pub s)) by lia. auto.
  Qed.

  (** ** The subscribers' side *)
  Definition reading (s : ssys) (c : nat) (t : N) : Prop := exists acc, c_pc (x_con s c) = CRead t acc.
  (** [e]: reads are not disturbed. *)
  Record cinv (e : Prop) (tr : list sevent) (s : ssys) (pos : list N) : Prop := CInv {
    u_head : forall c, c_head (x_con s c) <= sm_head (x_mem s);
    u_cas : forall c n t, c_pc (x_con s c) = CCas n t -> t < c_head (x_con s c);
    u_tl : forall c n t, c_pc (x_con s c) = CHead n t \/ c_pc (x_con s c) = CCas n t -> t <= sm_tail (x_mem s);
    u_lt : forall c t, reading s c t -> t < sm_tail (x_mem s) /\ ~ In t pos;
    u_uni : forall c d t, reading s c t -> reading s d t -> c = d;
    u_nd : NoDup pos /\ (forall t, In t pos -> t < sm_tail (x_mem s));
    u_all : forall t, t < sm_tail (x_mem s) -> In t pos \/ exists c, reading s c t;
    u_len : length pos = length (s_received tr);
    u_acc : e -> forall c t acc, c_pc (x_con s c) = CRead t acc -> (length acc < W)%nat /\
              exists m, nth_error (s_sent tr) (N.to_nat t) = Some m /\ acc = firstn (length acc) m;
    u_got : e -> Forall2 (fun t m => nth_error (s_sent tr) (N.to_nat t) = Some m) pos (s_received tr);
    u_ord : e -> forall c, exists lim, subseq (s_received_by c tr) (firstn lim (s_sent tr)) /\
              N.of_nat lim <= sm_tail (x_mem s) /\ (forall t, reading s c t -> N.of_nat lim <= t)
  }.
  Lemma cinv_init e : cinv e [] (s_init W) [].
  Proof.
    assert (R : forall c t, ~ reading (s_init W) c t) by (intros c t (acc & H); discriminate).
    constructor; cbn [s_init x_con x_mem c_pc c_head smem0 sm_head sm_tail]; try (intros; discriminate); auto.
    - intros c n t [H|H]; discriminate.
    - intros c t H; destruct (R _ _ H).
    - intros c d t H; destruct (R _ _ H).
    - split; [constructor|intros t []].
    - intros; lia.
    - constructor.
    - intros _ c. exists 0%nat. split; [constructor|]. split; [lia|]. intros t H; destruct (R _ _ H).
  Qed.

  Lemma Forall2_snoc {A B} (R : A -> B -> Prop) l1 l2 a b : Forall2 R l1 l2 -> R a b -> Forall2 R (l1 ++ [a]) (l2 ++ [b]).
  Proof. intros. apply Forall2_app; auto. Qed.

  (** A step of the publisher leaves the subscribers' facts alone. *)
  Lemma cinv_pub e tr s pos arg : cinv e tr s pos -> pinv (s_sent tr) s ->
    let '(mem, t, ev) := spub_step k W arg (x_mem s) (x_pub s) in
    cinv e (tr ++ ev) (SSys mem t (x_con s)) pos.
  Proof.
    intros U P. pose proof (pinv_pub (s_sent tr) s arg P) as H.
    destruct (spub_step k W arg (x_mem s) (x_pub s)) as ((mem, t), ev). destruct H as (_ & R1 & R2 & R3 & R4).
    destruct U as [A1 A2 A3 A4 A5 A6 A7 A8 A9 A10 A11].
    constructor; unfold reading in *; cbn [x_mem x_con]; rewrite ?R3, ?s_received_app, ?R1, ?app_nil_r; auto.
    - intros c. specialize (A1 c). lia.
    - intros He c t' acc H. destruct (A9 He c t' acc H) as (B1 & m & B2 & B3). split; auto. exists m. split; auto.
      rewrite s_sent_app. apply nth_error_app_old; auto.
    - intros He. specialize (A10 He). revert A10. apply Forall2_mono. intros x y. rewrite s_sent_app. apply nth_error_app_old.
    - intros He c. destruct (A11 He c) as (lim & B1 & B2 & B3). exists lim. rewrite s_received_by_app, R2, app_nil_r. split; auto.
      rewrite s_sent_app, firstn_app. apply subseq_app; auto.
  Qed.

  (** A step of subscriber [c] that neither claims nor reads. *)
  Lemma cinv_quiet e tr s pos c t' ev : cinv e tr s pos ->
    (forall t acc, c_pc (x_con s c) <> CRead t acc) -> (forall t acc, c_pc t' <> CRead t acc) ->
    c_head t' <= sm_head (x_mem s) ->
    (forall n t, c_pc t' = CCas n t -> t < c_head t') ->
    (forall n t, c_pc t' = CHead n t \/ c_pc t' = CCas n t -> t <= sm_tail (x_mem s)) ->
    s_sent ev = [] -> s_received ev = [] -> (forall d, s_received_by d ev = []) ->
    cinv e (tr ++ ev) (SSys (x_mem s) (x_pub s) (updn (x_con s) c t')) pos.
  Proof.
    intros [A1 A2 A3 A4 A5 A6 A7 A8 A9 A10 A11] N1 N2 H1 H2 H3 E1 E2 E3.
    assert (Rd : forall d t, reading (SSys (x_mem s) (x_pub s) (updn (x_con s) c t')) d t <-> reading s d t).
    { intros d t. unfold reading. cbn [x_con]. unfold updn. destruct (Nat.eqb_spec d c) as [->|]; [|tauto].
      split; intros (acc & H); [destruct (N2 _ _ H)|destruct (N1 _ _ H)]. }
    constructor; cbn [x_mem x_con]; rewrite ?s_sent_app, ?s_received_app, ?E1, ?E2, ?app_nil_r; auto.
    - intros d. unfold updn. destruct (Nat.eqb_spec d c); auto.
    - intros d n t. unfold updn. destruct (Nat.eqb_spec d c); eauto.
    - intros d n t. unfold updn. destruct (Nat.eqb_spec d c); eauto.
    - intros d t H. apply Rd in H. exact (A4 _ _ H).
    - intros d d' t H H'. apply Rd in H, H'. eauto.
    - intros t H. destruct (A7 t H) as [B|(d & B)]; auto. right. exists d. apply Rd. auto.
    - intros He d t acc. unfold updn. destruct (Nat.eqb_spec d c) as [->|]; [intros H; destruct (N2 _ _ H)|eauto].
    - intros He d. rewrite s_received_by_app, E3, app_nil_r. destruct (A11 He d) as (lim & B1 & B2 & B3). exists lim. split; auto. split; auto.
      intros t H. apply Rd in H. auto.
  Qed.

  Lemma drained_false h t : drained k h t = false -> h + cap k < 2 ^ 64 -> t + cap k < 2 ^ 64 -> t < h.
  Proof.
    unfold drained. intros H Hb Hb2. apply orb_false_iff in H. destruct H as (H1 & H2). apply N.eqb_neq in H1. apply N.ltb_ge in H2.
    unfold wsub in *. destruct (N.leb_spec t h); [lia|]. exfalso. change (2 ^ 64) with 18446744073709551616 in *. lia.
  Qed.

  Lemma pinv_claim L s t con : pinv L s -> sm_tail (x_mem s) <= t -> t <= s_lhead (x_pub s) -> pinv L (SSys (set_tail (x_mem s) t) (x_pub s) con).
  Proof.
    intros [V1 V2 (V3 & V3') V4 V5 V6 V7 V8 V9] H1 H2. constructor; auto. cbn [x_mem x_pub set_tail sm_tail]. lia.
  Qed.

  Lemma cinv_con e tr s pos c weak : cinv e tr s pos -> pinv (s_sent tr) s ->
    sm_head (x_mem s) + cap k < 2 ^ 64 ->
    (e -> forall d t acc, c_pc (x_con s d) = CRead t acc -> N.of_nat (length (s_sent tr)) + busy (s_pc (x_pub s)) <= t + cap k) ->
    let '(mem, t, ev) := scon_step k W c weak (x_mem s) (x_con s c) in
    s_sent ev = [] /\ pinv (s_sent tr) (SSys mem (x_pub s) (updn (x_con s) c t)) /\
    exists pos', cinv e (tr ++ ev) (SSys mem (x_pub s) (updn (x_con s) c t)) pos'.
  Proof.
    intros U P Hb Ht. pose proof U as [A1 A2 A3 A4 A5 A6 A7 A8 A9 A10 A11].
    pose proof (v_head _ _ P) as Vh. pose proof (v_len _ _ P) as Vl. pose proof (v_tail _ _ P) as (Vt1 & Vt2).
    assert (PS : forall t, pinv (s_sent tr) (SSys (x_mem s) (x_pub s) (updn (x_con s) c t))) by (intros t; destruct P; constructor; auto).
    assert (Tl : sm_tail (x_mem s) + cap k < 2 ^ 64) by lia.
    unfold scon_step. destruct (c_pc (x_con s c)) as [|n|n t|n t|t acc] eqn:Epc.
    - split; auto. split; auto. exists pos. apply cinv_quiet; auto; try (intros; congruence); cbn [c_pc c_head]; try (intros; discriminate); auto.
      intros n t [H|H]; discriminate.
    - destruct (drained k (c_head (x_con s c)) (sm_tail (x_mem s))) eqn:Ed; (split; [auto|]); (split; [auto|]); exists pos;
        (apply cinv_quiet; auto; try (intros; congruence); cbn [c_pc c_head]; try (intros; discriminate); auto).
      + intros n' t [H|H]; [|discriminate]. injection H as <- <-. lia.
      + intros n' t H. injection H as <- <-. apply (drained_false _ _ Ed); auto. specialize (A1 c). lia.
      + intros n' t [H|H]; [discriminate|]. injection H as <- <-. lia.
    - assert (Htl : t <= sm_tail (x_mem s)) by (apply (A3 c n t); auto).
      destruct (drained k (sm_head (x_mem s)) t) eqn:Ed; (split; [auto|]); (split; [auto|]); exists pos;
        (apply cinv_quiet; auto; try (intros; congruence); cbn [c_pc c_head]; try (intros; discriminate); try lia; auto).
      + intros n' t' [H|H]; discriminate.
      + intros n' t' H. injection H as <- <-. apply (drained_false _ _ Ed); lia.
      + intros n' t' [H|H]; [discriminate|]. injection H as <- <-. auto.
    - pose proof (A2 c n t Epc) as Hlt. pose proof (A1 c) as Hh.
      destruct (negb weak && (sm_tail (x_mem s) =? t)) eqn:Ec.
      + apply andb_true_iff in Ec. destruct Ec as (_ & Ec). apply N.eqb_eq in Ec.
        destruct (nth_error (s_sent tr) (N.to_nat t)) as [m|] eqn:Em.
        2: { apply nth_error_None in Em. lia. }
        assert (Rc : forall t', ~ reading s c t') by (intros t' (acc & H); congruence).
        destruct (Nat.eqb_spec W 0) as [E0|E0].
        * split; auto. split; [apply pinv_claim; auto; lia|]. exists (pos ++ [t]).
          assert (Rd : forall d t', reading (SSys (set_tail (x_mem s) (t + 1)) (x_pub s) (updn (x_con s) c (SCon CIdle (c_head (x_con s c))))) d t' <-> reading s d t').
          { intros d t'. unfold reading. cbn [x_con]. unfold updn. destruct (Nat.eqb_spec d c) as [->|]; [|tauto].
            split; intros (acc & H); [discriminate|congruence]. }
          constructor; cbn [x_mem x_con set_tail sm_head sm_tail]; rewrite ?s_sent_app, ?s_received_app; cbn [s_sent s_received]; rewrite ?app_nil_r.
          -- intros d. unfold updn. destruct (Nat.eqb_spec d c); auto.
          -- intros d n' t'. unfold updn. destruct (Nat.eqb_spec d c); [discriminate|eauto].
          -- intros d n' t' H. assert (t' <= sm_tail (x_mem s)); [|lia]. unfold updn in H. destruct (Nat.eqb_spec d c); [destruct H; discriminate|eauto].
          -- intros d t' H. apply Rd in H. destruct (A4 d t' H) as (B1 & B2). split; [lia|]. rewrite in_app_iff. intros [B|[B|[]]]; auto. lia.
          -- intros d d' t' H H'. apply Rd in H, H'. eauto.
          -- destruct A6 as (B1 & B2). split.
             ++ apply NoDup_app_snoc; auto. intros H. apply B2 in H. lia.
             ++ intros t'. rewrite in_app_iff. intros [B|[<-|[]]]; [apply B2 in B|]; lia.
          -- intros t' H. destruct (N.eq_dec t' t) as [->|]; [left; apply in_or_app; right; left; auto|].
             destruct (A7 t' ltac:(lia)) as [B|(d & B)]; [left; apply in_or_app; auto|right; exists d; apply Rd; auto].
          -- rewrite !app_length. cbn [length]. lia.
          -- intros He d t' acc. unfold updn. destruct (Nat.eqb_spec d c); [discriminate|eauto].
          -- intros He. apply Forall2_snoc; auto. rewrite Em. f_equal. pose proof (v_width _ _ P m (nth_error_In _ _ Em)) as Hw.
             rewrite E0 in Hw. destruct m; [auto|discriminate].
          -- intros He d. rewrite s_received_by_app. cbn [s_received_by]. destruct (A11 He d) as (lim & B1 & B2 & B3).
             destruct (Nat.eqb_spec c d) as [<-|].
             ++ exists (S (N.to_nat t)). split; [|split; [lia|intros t' H; apply Rd in H; destruct (Rc _ H)]].
                rewrite (firstn_succ_nth _ _ _ Em). replace (@nil N) with m; [apply subseq_snoc; apply (subseq_pre _ _ lim); auto; lia|].
                pose proof (v_width _ _ P m (nth_error_In _ _ Em)) as Hw. rewrite E0 in Hw. destruct m; [auto|discriminate].
             ++ rewrite app_nil_r. exists lim. split; auto. split; [lia|]. intros t' H. apply Rd in H. auto.
        * split; auto. split; [apply pinv_claim; auto; lia|]. exists pos.
          set (s' := SSys (set_tail (x_mem s) (t + 1)) (x_pub s) (updn (x_con s) c (SCon (CRead t []) (c_head (x_con s c))))).
          assert (Rd : forall d t', reading s' d t' <-> (d = c /\ t' = t) \/ reading s d t').
          { intros d t'. unfold reading, s'. cbn [x_con]. unfold updn. destruct (Nat.eqb_spec d c) as [->|].
            - split; [intros (acc & H); injection H as <- _; auto|]. intros [(_ & ->)|(acc & H)]; [eexists; reflexivity|congruence].
            - split; [auto|]. intros [(-> & _)|H]; [contradiction|auto]. }
          constructor; rewrite ?app_nil_r; auto.
          -- intros d. unfold s'. cbn [x_mem x_con set_tail sm_head]. unfold updn. destruct (Nat.eqb_spec d c); auto.
          -- intros d n' t'. unfold s'. cbn [x_con]. unfold updn. destruct (Nat.eqb_spec d c); [discriminate|eauto].
          -- intros d n' t' H. unfold s' in *. cbn [x_mem x_con set_tail sm_tail] in *. assert (t' <= sm_tail (x_mem s)); [|lia]. unfold updn in H. destruct (Nat.eqb_spec d c); [destruct H; discriminate|eauto].
          -- intros d t' H. apply Rd in H. change (sm_tail (x_mem s')) with (t + 1). destruct H as [(-> & ->)|H].
             ++ split; [lia|]. intros B. apply A6 in B. lia.
             ++ destruct (A4 d t' H). split; [lia|auto].
          -- intros d d' t' H H'. apply Rd in H, H'. destruct H as [(-> & ->)|H], H' as [(-> & H')|H']; auto.
             ++ apply A4 in H'. lia.
             ++ subst t'. apply A4 in H. lia.
             ++ eauto.
          -- change (sm_tail (x_mem s')) with (t + 1). destruct A6 as (B1 & B2). split; auto. intros t' B. apply B2 in B. lia.
          -- change (sm_tail (x_mem s')) with (t + 1). intros t' H. destruct (N.eq_dec t' t) as [->|]; [right; exists c; apply Rd; auto|].
             destruct (A7 t' ltac:(lia)) as [B|(d & B)]; [auto|right; exists d; apply Rd; auto].
          -- intros He d t' acc. unfold s'. cbn [x_con]. unfold updn. destruct (Nat.eqb_spec d c); [|eauto]. cbn [c_pc]. intros H; injection H as <- <-.
             cbn [length firstn]. split; [lia|]. exists m. auto.
          -- intros He d. change (sm_tail (x_mem s')) with (t + 1). destruct (A11 He d) as (lim & B1 & B2 & B3). exists lim. split; auto. split; [lia|].
             intros t' H. apply Rd in H. destruct H as [(-> & ->)|H]; [lia|auto].
      + unfold retry. destruct n as [|n']; (split; [auto|]); (split; [auto|]); exists pos;
          (apply cinv_quiet; auto; try (intros; congruence); cbn [c_pc c_head]; try (intros; discriminate); auto);
          intros n'' t' [H|H]; discriminate.
    - assert (Rc : reading s c t) by (exists acc; auto). destruct (A4 c t Rc) as (R1 & R2).
      set (acc' := acc ++ [nth (length acc) (sm_data (x_mem s) (slot k t)) 0]).
      assert (Hacc : e -> (length acc' <= W)%nat /\ exists m, nth_error (s_sent tr) (N.to_nat t) = Some m /\ acc' = firstn (length acc') m).
      { intros He. destruct (A9 He c t acc Epc) as (B1 & m & B2 & B3). unfold acc'. rewrite app_length. cbn [length]. split; [lia|]. exists m. split; auto.
        rewrite (v_win _ _ P t m B2) by (eapply Ht; eauto). rewrite Nat.add_1_r, (firstn_snoc 0) by (rewrite (v_width _ _ P m); [lia|eapply nth_error_In; eauto]).
        rewrite <- B3. auto. }
      destruct (Nat.eqb_spec (length acc') W) as [Ew|Ew]; (split; [auto|]); (split; [auto|]).
      + exists (pos ++ [t]). set (s' := SSys (x_mem s) (x_pub s) (updn (x_con s) c (SCon CIdle (c_head (x_con s c))))).
        assert (Rd : forall d t', reading s' d t' <-> d <> c /\ reading s d t').
        { intros d t'. unfold reading, s'. cbn [x_con]. unfold updn. destruct (Nat.eqb_spec d c) as [->|]; [|tauto].
          split; [intros (a & H); discriminate|intros (H & _); contradiction]. }
        assert (Hm : e -> nth_error (s_sent tr) (N.to_nat t) = Some acc').
        { intros He. destruct (Hacc He) as (_ & m & B2 & B3). rewrite B2. f_equal. rewrite B3, Ew. symmetry. apply firstn_all2.
          rewrite (v_width _ _ P m); [lia|eapply nth_error_In; eauto]. }
        constructor; rewrite ?s_sent_app, ?s_received_app; cbn [s_sent s_received]; rewrite ?app_nil_r; auto.
        -- intros d. unfold s'. cbn [x_mem x_con]. unfold updn. destruct (Nat.eqb_spec d c); apply A1.
        -- intros d n' t'. unfold s'. cbn [x_con]. unfold updn. destruct (Nat.eqb_spec d c); [discriminate|eauto].
        -- intros d n' t' H. unfold s' in *. cbn [x_mem x_con] in *. unfold updn in H. destruct (Nat.eqb_spec d c); [destruct H; discriminate|eauto].
        -- intros d t' H. apply Rd in H. destruct H as (H0 & H). destruct (A4 d t' H) as (B1 & B2). split; auto. rewrite in_app_iff. intros [B|[<-|[]]]; auto.
           apply H0. eauto.
        -- intros d d' t' H H'. apply Rd in H, H'. destruct H, H'. eauto.
        -- destruct A6 as (B1 & B2). split; [apply NoDup_app_snoc; auto|]. intros t'. rewrite in_app_iff. intros [B|[<-|[]]]; auto.
        -- intros t' H. destruct (A7 t' H) as [B|(d & B)]; [left; apply in_or_app; auto|].
           destruct (Nat.eq_dec d c) as [->|]; [|right; exists d; apply Rd; auto]. left. apply in_or_app. right. left.
           destruct B as (a & B). congruence.
        -- rewrite !app_length. cbn [length]. lia.
        -- intros He d t' a. unfold s'. cbn [x_con]. unfold updn. destruct (Nat.eqb_spec d c); [discriminate|eauto].
        -- intros He. apply Forall2_snoc; auto.
        -- intros He d. rewrite s_received_by_app. cbn [s_received_by]. destruct (A11 He d) as (lim & B1 & B2 & B3).
           destruct (Nat.eqb_spec c d) as [<-|].
           ++ exists (S (N.to_nat t)). split; [|split; [change (sm_tail (x_mem s')) with (sm_tail (x_mem s)); lia|intros t' H; apply Rd in H; tauto]].
              rewrite (firstn_succ_nth _ _ _ (Hm He)). apply subseq_snoc; apply (subseq_pre _ _ lim); auto. specialize (B3 t Rc). lia.
           ++ rewrite app_nil_r. exists lim. split; auto. split; auto. intros t' H. apply Rd in H. apply B3; tauto.
      + exists pos. set (s' := SSys (x_mem s) (x_pub s) (updn (x_con s) c (SCon (CRead t acc') (c_head (x_con s c))))).
        assert (Rd : forall d t', reading s' d t' <-> reading s d t').
        { intros d t'. unfold reading, s'. cbn [x_con]. unfold updn. destruct (Nat.eqb_spec d c) as [->|]; [|tauto].
          split; intros (a & H); [injection H as <- _; eauto|]. rewrite Epc in H. injection H as <- _. eexists; reflexivity. }
        constructor; rewrite ?app_nil_r; auto.
        -- intros d. unfold s'. cbn [x_mem x_con]. unfold updn. destruct (Nat.eqb_spec d c); apply A1.
        -- intros d n' t'. unfold s'. cbn [x_con]. unfold updn. destruct (Nat.eqb_spec d c); [discriminate|eauto].
        -- intros d n' t' H. unfold s' in *. cbn [x_mem x_con] in *. unfold updn in H. destruct (Nat.eqb_spec d c); [destruct H; discriminate|eauto].
        -- intros d t' H. apply Rd in H. exact (A4 _ _ H).
        -- intros d d' t' H H'. apply Rd in H, H'. eauto.
        -- intros t' H. destruct (A7 t' H) as [B|(d & B)]; auto. right. exists d. apply Rd. auto.
        -- intros He d t' a. unfold s'. cbn [x_con]. unfold updn. destruct (Nat.eqb_spec d c); [|eauto]. cbn [c_pc]. intros H; injection H as <- <-.
           destruct (Hacc He) as (B1 & m & B2 & B3). split; [lia|eauto].
        -- intros He d. destruct (A11 He d) as (lim & B1 & B2 & B3). exists lim. split; auto. split; auto. intros t' H. apply Rd in H. auto.
  Qed.

  Lemma spmc_reach (e : Prop) sched : N.of_nat (length (s_sent (s_trace sched))) + cap k < 2 ^ 64 ->
    (e -> not_overtaken k W sched) ->
    pinv (s_sent (s_trace sched)) (s_final sched) /\ exists pos, cinv e (s_trace sched) (s_final sched) pos.
  Proof.
    induction sched as [|a sched IH] using rev_ind; intros Hb He.
    - split; [apply pinv_init|]. exists []. apply cinv_init.
    - rewrite s_trace_snoc, s_sent_app, app_length in Hb.
      destruct IH as (P & pos & U); [lia| |].
      { intros H pre post E. apply (He H pre (post ++ [a])). rewrite E, app_assoc. auto. }
      assert (Hn : e -> forall d t acc, c_pc (x_con (s_final sched) d) = CRead t acc ->
        N.of_nat (length (s_sent (s_trace sched))) + busy (s_pc (x_pub (s_final sched))) <= t + cap k).
      { intros H d t acc E. apply (He H sched [a] eq_refl d t acc E). }
      rewrite s_trace_snoc, s_final_snoc. set (s := s_final sched) in *. set (tr := s_trace sched) in *.
      destruct a as [arg|c w]; cbn [Spmc.s_step].
      + pose proof (pinv_pub _ _ arg P) as H1. pose proof (cinv_pub e tr s pos arg U P) as H2.
        destruct (spub_step k W arg (x_mem s) (x_pub s)) as ((mem, t), ev). cbn [fst snd].
        rewrite s_sent_app. split; [apply H1|eauto].
      + assert (Hh : sm_head (x_mem s) + cap k < 2 ^ 64) by (rewrite (v_head _ _ P), (v_len _ _ P); lia).
        pose proof (cinv_con e tr s pos c w U P Hh Hn) as H1.
        destruct (scon_step k W c w (x_mem s) (x_con s c)) as ((mem, t), ev). cbn [fst snd].
        destruct H1 as (E1 & P1 & U1). rewrite s_sent_app, E1, app_nil_r. auto.
  Qed.
End P.

Lemma pinv_occupancy k W sched : N.of_nat (length (s_sent (s_trace k W sched))) + cap k < 2 ^ 64 ->
  s_lhead (x_pub (s_final k W sched)) <= s_ltail (x_pub (s_final k W sched)) + cap k.
Proof.
  induction sched as [|a sched IH] using rev_ind; intros Hb; [cbn; lia|].
  rewrite s_trace_snoc, s_sent_app, app_length in Hb.
  destruct (spmc_reach k W False sched ltac:(lia) ltac:(tauto)) as (P & _).
  specialize (IH ltac:(lia)). rewrite s_final_snoc. pose proof (v_room _ _ _ _ P) as Vr. pose proof (v_tail _ _ _ _ P) as (T1 & _).
  unfold pc_room in Vr. set (s := s_final k W sched) in *. destruct a as [arg|c w]; cbn [s_step].
  - unfold spub_step. destruct (s_pc (x_pub s)) eqn:E; cbn [is_writing] in Vr.
    + destruct (Nat.eqb (length arg) W); cbn [fst x_pub s_lhead s_ltail]; auto.
    + destruct (cap k <=? _); cbn [fst x_pub s_lhead s_ltail]; lia.
    + cbn [fst x_pub s_lhead s_ltail]; lia.
    + cbn [fst x_pub s_lhead s_ltail]; lia.
    + cbn [fst x_pub s_lhead s_ltail]. specialize (Vr eq_refl). lia.
  - destruct (scon_step k W c w (x_mem s) (x_con s c)) as ((mem, t), ev). cbn [fst x_pub]. auto.
Qed.

(** Distinct positions below [length l] that spell [r]: [r] is a part of [l], each entry used once. *)
Lemma positions_perm {A} (l r : list A) (pos : list nat) : NoDup pos -> Forall2 (fun t m => nth_error l t = Some m) pos r ->
  exists others, Permutation l (r ++ others) /\ (length r = length l -> others = []).
Proof.
  intros Hd Hf.
  set (rest := filter (fun i => negb (existsb (Nat.eqb i) pos)) (seq 0 (length l))).
  assert (Lt : forall i, In i pos -> (i < length l)%nat).
  { induction Hf; intros i []; [subst|eauto]. eapply nth_error_Some_lt; eauto. inversion Hd; eauto. }
  assert (Ex : forall i, existsb (Nat.eqb i) pos = true <-> In i pos).
  { intros i. rewrite existsb_exists. split; [intros (x & H & E); apply Nat.eqb_eq in E; subst; auto|]. intros H. exists i. split; auto. apply Nat.eqb_refl. }
  assert (P : Permutation (seq 0 (length l)) (pos ++ rest)).
  { apply NoDup_Permutation; [apply seq_NoDup| |].
    - apply NoDup_app_disjoint; auto; [apply NoDup_filter, seq_NoDup|]. intros i Hi Hr. apply filter_In in Hr. destruct Hr as (_ & Hr).
      apply Ex in Hi. rewrite Hi in Hr. discriminate.
    - intros i. rewrite in_app_iff. unfold rest. rewrite filter_In, in_seq. split.
      + intros Hi. destruct (existsb (Nat.eqb i) pos) eqn:E; [left; apply Ex; auto|right; split; [lia|auto]].
      + intros [Hi|((_ & Hi) & _)]; [apply Lt in Hi|]; lia. }
  destruct l as [|d l'].
  { exists []. destruct pos; [|destruct (Nat.nlt_0_r _ (Lt n (or_introl eq_refl)))]. inversion Hf; subst. split; auto. }
  set (l := d :: l') in *. clearbody l.
  assert (Ml : forall n, n = length l -> l = map (fun i => nth i l d) (seq 0 n)).
  { intros n ->. apply nth_ext with (d := d) (d' := nth 0 l d).
    - rewrite map_length, seq_length. auto.
    - intros i Hi. pose proof (map_nth (fun i => nth i l d) (seq 0 (length l)) 0%nat i) as E. cbv beta in E. rewrite E.
      rewrite seq_nth by auto. auto. }
  assert (Mr : r = map (fun i => nth i l d) pos).
  { clear -Hf. induction Hf; cbn [map]; auto. f_equal; auto. symmetry. apply nth_error_nth. auto. }
  exists (map (fun i => nth i l d) rest). split.
  - rewrite (Ml _ eq_refl) at 1. rewrite Mr, <- map_app. apply Permutation_map. auto.
  - intros E. apply Permutation_length in P. rewrite app_length, seq_length in P.
    rewrite Mr, map_length in E. assert (length rest = 0%nat) by lia. destruct rest; [auto|discriminate].
Qed.

Lemma scon_no_send k W c w mem t : s_sent (snd (scon_step k W c w mem t)) = [].
Proof.
  unfold scon_step, retry. destruct (c_pc t) as [|n|n tl|n tl|tl acc]; auto.
  - destruct (drained _ _ _); auto.
  - destruct (drained _ _ _); auto.
  - destruct (_ && _); [destruct (Nat.eqb W 0); auto|destruct n; auto].
  - destruct (Nat.eqb _ _); auto.
Qed.

(** A run too short to go round the ring overtakes nobody. *)
Definition pub_steps (sched : list saction) : N :=
  N.of_nat (length (filter (fun a => match a with DPub _ => true | DCon _ _ => false end) sched)).
Lemma pub_steps_app a b : pub_steps (a ++ b) = pub_steps a + pub_steps b.
Proof. unfold pub_steps. rewrite filter_app, app_length. lia. Qed.
Lemma sent_le_steps k W sched :
  N.of_nat (length (s_sent (s_trace k W sched))) + busy (s_pc (x_pub (s_final k W sched))) <= pub_steps sched.
Proof.
  induction sched as [|a sched IH] using rev_ind; [cbn; lia|].
  rewrite s_trace_snoc, s_final_snoc, s_sent_app, app_length, pub_steps_app. set (s := s_final k W sched) in *.
  destruct a as [arg|c w]; cbn [s_step].
  - change (pub_steps [DPub arg]) with 1. unfold spub_step, busy in *. destruct (s_pc (x_pub s)) eqn:E; cbn [is_writing] in IH.
    + destruct (Nat.eqb (length arg) W); cbn [fst snd x_pub s_pc s_sent length]; [|rewrite E; cbn [is_writing]; lia].
      destruct (is_writing _); lia.
    + destruct (cap k <=? _); cbn [fst snd x_pub s_pc s_sent length]; destruct (is_writing _); lia.
    + cbn [fst snd x_pub s_pc s_sent length]; destruct (is_writing _); lia.
    + cbn [fst snd x_pub s_pc s_sent length is_writing]; lia.
    + cbn [fst snd x_pub s_pc s_sent length is_writing]; lia.
  - change (pub_steps [DCon c w]) with 0. pose proof (scon_no_send k W c w (x_mem s) (x_con s c)) as H.
    destruct (scon_step k W c w (x_mem s) (x_con s c)) as ((mem, t), ev). cbn [fst snd x_pub] in *. rewrite H. cbn [length]. lia.
Qed.
Lemma few_steps_not_overtaken k W sched : pub_steps sched <= cap k -> not_overtaken k W sched.
Proof.
  intros H pre post E s c t acc _. pose proof (sent_le_steps k W pre) as L. fold s in L. rewrite E, pub_steps_app in H. unfold busy in L. lia.
Qed.
