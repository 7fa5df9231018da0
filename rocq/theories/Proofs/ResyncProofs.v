(** Read positions only move forward. *)
From Verif.Base Require Import Prelude.
From Verif.Model Require Import Topology Resync.
From Verif.Spec Require Import ResyncSpec.
Local Open Scope N_scope.

Lemma updr_eq {B} (f : nat -> B) i b : updr f i b i = b.
Proof. unfold updr. rewrite Nat.eqb_refl. auto. Qed.

Section P.
  Variable cap : N.

  (** [n]: steps so far. *)
  Definition rinv (n : N) (s : rsys) : Prop :=
    r_tail (rs_hdr s) <= r_head (rs_hdr s) /\
    forall c, let l := rs_loc s c in
      l_tail l <= r_head (rs_hdr s) /\ l_head l <= r_head (rs_hdr s) /\
      l_cnt l <= n + 3 /\
      (l_in l = true -> 3 <= l_cnt l /\ is_cross_process (r_mode (rs_hdr s)) = true) /\
      (l_in l = false -> got c s = []) /\
      (forall q, In q (got c s) -> q < l_tail l) /\ increasing (got c s).

  Lemma got_snoc c s h l c' p : got c (RSys h l (rs_got s ++ [(c', p)])) = if Nat.eqb c' c then got c s ++ [p] else got c s.
  Proof. unfold got. cbn [rs_got]. rewrite filter_app, map_app. cbn [filter fst]. destruct (Nat.eqb c' c); cbn [map snd]; auto. rewrite app_nil_r; auto. Qed.
  Lemma got_same c s h l : got c (RSys h l (rs_got s)) = got c s.
  Proof. auto. Qed.

  Lemma rinv_init : rinv 0 r_init.
  Proof. split; [cbn; lia|]. intros c. cbn. repeat split; try lia; try discriminate; auto; try contradiction. constructor. Qed.

  (** What synchronisation does to a handle and the header, whatever the mode. *)
  Lemma sync_facts skip h l : r_tail h <= r_head h -> l_tail l <= r_head h ->
    let '(h', l') := sync_local skip h l in
    r_head h' = r_head h /\ r_mode h' = r_mode h /\ r_tail h' <= r_head h /\ l_tail l' <= r_head h /\ l_head l' = r_head h /\
    l_cnt l' = l_cnt l /\ l_in l' = l_in l /\ (is_cross_process (r_mode h) = true -> l_tail l <= l_tail l').
  Proof.
    intros H1 H2. destruct h as [hh ht hm]. cbn [r_head r_tail r_mode] in *.
    destruct hm, skip; unfold sync_local; cbn [r_mode is_cross_process andb negb r_head r_tail l_tail l_in l_head l_cnt];
      repeat split; auto; try lia; discriminate.
  Qed.

  Lemma bump_cnt l : l_cnt l + 1 < 2^32 -> l_cnt (bump l) = l_cnt l + 1.
  Proof. intros H. cbn [bump l_cnt]. apply N.mod_small. auto. Qed.

  Lemma rinv_step n s o : n + 4 < 2^32 -> rinv n s -> rinv (n + 1) (r_step cap s o).
  Proof.
    change (2^32) with 4294967296. intros Hn (HT & HL).
    assert (same : rinv (n + 1) s).
    { split; auto. intros c. destruct (HL c) as (A & B & C & D). repeat split; try tauto; lia || apply D; auto. }
    destruct o as [m|m|c m|c p|c|c|c|c|c]; cbn [r_step].
    - split; cbn [rs_hdr r_tail r_head rs_loc]; [lia|]. intros c. destruct (HL c) as (A & B & C & D). rewrite got_same. cbn [rs_hdr r_head r_mode rs_loc].
      split; [lia|]. split; [lia|]. split; [lia|]. exact D.
    - destruct (is_cross_process m) eqn:E; auto. split; cbn [rs_hdr r_tail r_head rs_loc]; [lia|]. intros c. destruct (HL c) as (A & B & C & D & F).
      rewrite got_same. cbn [rs_hdr r_head r_mode rs_loc]. split; [lia|]. split; [lia|]. split; [lia|]. split; auto. intros K. split; auto. apply D; auto.
    - destruct (l_in (rs_loc s c)) eqn:EI; auto.
      destruct (HL c) as (A & B & C & D & F & G & I).
      pose proof (sync_facts false (rs_hdr s) (rs_loc s c) HT A) as S1.
      destruct (sync_local false (rs_hdr s) (rs_loc s c)) as [h1 l1]. destruct S1 as (S1 & S2 & S3 & S4 & S5 & S6 & S7 & S8).
      assert (S9 : let '(h2, l2) := late_join cap h1 l1 in r_head h2 = r_head (rs_hdr s) /\ r_mode h2 = r_mode (rs_hdr s) /\
        r_tail h2 <= r_head (rs_hdr s) /\ l_tail l2 <= r_head (rs_hdr s) /\ l_head l2 = r_head (rs_hdr s)).
      { unfold late_join. destruct (N.ltb_spec cap (l_head l1 - l_tail l1)); cbn [r_head r_mode r_tail l_tail l_head]; repeat split; auto; lia. }
      destruct (late_join cap h1 l1) as [h2 l2]. destruct S9 as (T1 & T2 & T3 & T4 & T5).
      set (st := if is_cross_process (r_mode h2) then (h2, l2) else _).
      assert (S10 : let '(h3, l3) := st in r_head h3 = r_head (rs_hdr s) /\ (is_cross_process (r_mode (rs_hdr s)) = true -> True) /\ is_cross_process (r_mode h3) = true /\
        r_tail h3 <= r_head (rs_hdr s) /\ l_tail l3 <= r_head (rs_hdr s) /\ l_head l3 = r_head (rs_hdr s)).
      { unfold st. destruct (is_cross_process (r_mode h2)) eqn:X2; [repeat split; auto|].
        destruct (is_cross_process m) eqn:X3.
        - pose proof (sync_facts true (RHdr (r_head h2) (r_tail h2) m) l2) as U. cbn [r_head r_tail r_mode] in U.
          specialize (U ltac:(lia) ltac:(lia)). destruct (sync_local true _ l2) as [h3 l3]. destruct U as (U1 & U2 & U3 & U4 & U5 & _).
          rewrite U2. repeat split; auto; lia.
        - pose proof (sync_facts true (RHdr (r_head h2) (r_tail h2) MSpscShm) l2) as U. cbn [r_head r_tail r_mode] in U.
          specialize (U ltac:(lia) ltac:(lia)). destruct (sync_local true _ l2) as [h3 l3]. destruct U as (U1 & U2 & U3 & U4 & U5 & _).
          rewrite U2. repeat split; auto; lia. }
      destruct st as [h3 l3]. destruct S10 as (V1 & _ & V2 & V3 & V4 & V5).
      split; cbn [rs_hdr r_tail r_head rs_loc]; [lia|]. intros c'. rewrite got_same. cbn [rs_hdr rs_loc]. unfold updr.
      destruct (Nat.eqb_spec c' c) as [->|]; cbn [l_tail l_head l_cnt l_in].
      + split; [lia|]. split; [lia|]. split; [lia|]. split; [intros; split; auto; lia|]. split; [discriminate|].
        rewrite (F EI) in *. split; auto. intros ? [].
      + destruct (HL c') as (A' & B' & C' & D' & F' & G' & I'). split; [lia|]. split; [lia|]. split; [lia|].
        split; [intros K; split; auto; apply D'; auto|]. auto.
    - destruct (HL c) as (A & B & C & D & F & G & I).
      destruct (l_in (rs_loc s c)) eqn:EI; [|exact same]. cbn [andb].
      destruct (N.leb_spec (l_tail (rs_loc s c)) p); [|exact same]. destruct (N.ltb_spec p (r_head (rs_hdr s))); [|exact same]. cbn [andb].
      destruct (_ || _)%bool; [|exact same].
      split; cbn [rs_hdr]; auto. intros c'. rewrite got_snoc. cbn [rs_hdr rs_loc]. unfold updr. rewrite (Nat.eqb_sym c c').
      destruct (Nat.eqb_spec c' c) as [->|].
      + rewrite bump_cnt by (cbn [set_ltail l_cnt]; lia). cbn [bump set_ltail l_tail l_head l_in l_cnt]. rewrite EI.
        split; [lia|]. split; [lia|]. split; [lia|]. split; [intros; split; [pose proof (D eq_refl); lia|apply D; auto]|]. split; [discriminate|].
        split.
        * intros q Hq. apply in_app_iff in Hq as [Hq|[<-|[]]]; [apply G in Hq|]; lia.
        * constructor; auto. intros q Hq. apply G in Hq. lia.
      + destruct (HL c') as (A' & B' & C' & D'). split; auto. split; auto. split; [lia|]. auto.
    - destruct (HL c) as (A & B & C & D).
      split; cbn [rs_hdr]; auto. intros c'. rewrite got_same. cbn [rs_hdr rs_loc]. unfold updr.
      destruct (Nat.eqb_spec c' c) as [->|].
      + rewrite bump_cnt by lia. cbn [bump l_tail l_head l_in]. split; auto. split; auto. split; [lia|]. destruct D as (D & E). split; auto.
        intros K. apply D in K as (K1 & K2). split; auto; lia.
      + destruct (HL c') as (A' & B' & C' & D'). split; auto. split; auto. split; [lia|]. auto.
    - destruct (l_in (rs_loc s c)); auto. destruct (HL c) as (A & _).
      split; cbn [rs_hdr r_tail r_head]; auto. intros c'. rewrite got_same. cbn [rs_hdr rs_loc r_head r_mode]. apply same.
    - destruct (_ && _)%bool; auto. destruct (HL c) as (A & _).
      split; cbn [rs_hdr r_tail r_head]; auto. intros c'. rewrite got_same. cbn [rs_hdr rs_loc r_head r_mode]. apply same.
    - destruct (HL c) as (A & B & C & D & F & G & I).
      pose proof (sync_facts true (rs_hdr s) (rs_loc s c) HT A) as S1.
      destruct (sync_local true (rs_hdr s) (rs_loc s c)) as [h1 l1]. destruct S1 as (S1 & S2 & S3 & S4 & S5 & S6 & S7 & S8).
      split; cbn [rs_hdr]; [lia|]. intros c'. rewrite got_same. cbn [rs_hdr rs_loc]. rewrite S1, S2. unfold updr.
      destruct (Nat.eqb_spec c' c) as [->|]; [|apply same].
      rewrite S5, S6, S7. split; auto. split; [lia|]. split; [lia|]. split; auto. split; auto. split; auto.
      intros q Hq. destruct (l_in (rs_loc s c)) eqn:EI; [|rewrite (F eq_refl) in Hq; destruct Hq].
      apply G in Hq. pose proof (S8 (proj2 (D eq_refl))). lia.
    - destruct (HL c) as (A & B & C & D & F & G & I).
      split; cbn [rs_hdr]; auto. intros c'. rewrite got_same. cbn [rs_hdr rs_loc]. unfold updr.
      destruct (Nat.eqb_spec c' c) as [->|]; [|apply same]. cbn [l_tail l_head l_in l_cnt]. unfold resynced_tail.
      destruct (N.ltb_spec 0 (l_cnt (rs_loc s c))) as [P|P].
      + split; [lia|]. split; [lia|]. split; [lia|]. split; auto. split; auto. split; auto. intros q Hq. apply G in Hq. lia.
      + split; [lia|]. split; [lia|]. split; [lia|]. split; auto. split; auto. split; auto. intros q Hq.
        destruct (l_in (rs_loc s c)) eqn:EI; [pose proof (D eq_refl); lia|]. rewrite (F eq_refl) in Hq. destruct Hq.
  Qed.

  Lemma rinv_run ops : N.of_nat (length ops) + 4 < 2^32 -> rinv (N.of_nat (length ops)) (r_run cap ops).
  Proof.
    induction ops as [|o ops IH] using rev_ind; intros H.
    - apply rinv_init.
    - rewrite app_length in *. cbn [length] in *. unfold r_run. rewrite fold_left_app. cbn [fold_left].
      replace (N.of_nat (length ops + 1)) with (N.of_nat (length ops) + 1) in * by lia. apply rinv_step; [|apply IH]; lia.
  Qed.
End P.

Lemma forward cap n s o c : n + 4 < 2^32 -> rinv n s -> l_in (rs_loc s c) = true -> l_tail (rs_loc s c) <= l_tail (rs_loc (r_step cap s o) c).
Proof.
  intros Hn (HT & HL) EI. destruct (HL c) as (A & B & C & D & F & G & I). destruct (D EI) as (D1 & D2).
  destruct o as [m|m|c' m|c' p|c'|c'|c'|c'|c']; cbn [r_step rs_loc]; try lia.
  - destruct (is_cross_process m); cbn [rs_loc]; lia.
  - destruct (l_in (rs_loc s c')) eqn:E'; [lia|]. destruct (sync_local false _ _) as [h1 l1]. destruct (late_join cap h1 l1) as [h2 l2].
    match goal with |- context [let '(h3, l3) := ?x in _] => destruct x as [h3 l3] end. cbn [rs_loc]. unfold updr.
    destruct (Nat.eqb_spec c c') as [->|]; [congruence|lia].
  - destruct (_ && _ && _ && _)%bool eqn:E; [|lia]. cbn [rs_loc]. unfold updr. destruct (Nat.eqb_spec c c') as [->|]; [|lia].
    cbn [bump set_ltail l_tail]. bool_prop. lia.
  - unfold updr. destruct (Nat.eqb_spec c c') as [->|]; cbn [bump l_tail]; lia.
  - destruct (l_in (rs_loc s c')); cbn [rs_loc]; lia.
  - destruct (_ && _)%bool; cbn [rs_loc]; lia.
  - destruct (HL c') as (A' & _). pose proof (sync_facts true (rs_hdr s) (rs_loc s c') HT A') as S1.
    destruct (sync_local true _ _) as [h1 l1]. cbn [rs_loc]. unfold updr. destruct (Nat.eqb_spec c c') as [->|]; [|lia]. apply S1; auto.
  - unfold updr. destruct (Nat.eqb_spec c c') as [->|]; [|lia]. cbn [l_tail]. unfold resynced_tail.
    destruct (N.ltb_spec 0 (l_cnt (rs_loc s c'))); lia.
Qed.

(** ** Witnesses *)

(** Subscriber [c] reads the next [n] messages. *)
Fixpoint reads (c : nat) (from : N) (n : nat) : list rop :=
  match n with O => [] | S n => XRecv c from :: reads c (from + 1) n end.
Lemma reads_run cap c n : forall s from, l_in (rs_loc s c) = true -> l_tail (rs_loc s c) = from -> from + N.of_nat n <= r_head (rs_hdr s) ->
  l_cnt (rs_loc s c) + N.of_nat n < 2^32 ->
  let s' := fold_left (r_step cap) (reads c from n) s in
  rs_hdr s' = rs_hdr s /\ l_in (rs_loc s' c) = true /\ l_tail (rs_loc s' c) = from + N.of_nat n /\ l_cnt (rs_loc s' c) = l_cnt (rs_loc s c) + N.of_nat n /\
  l_mode (rs_loc s' c) = l_mode (rs_loc s c) /\ (forall d, d <> c -> rs_loc s' d = rs_loc s d) /\
  (forall d, d <> c -> got d s' = got d s) /\ (forall q, In q (got c s) \/ from <= q < from + N.of_nat n -> In q (got c s')).
Proof.
  change (2^32) with 4294967296.
  induction n as [|n IH]; intros s from H1 H2 H3 H4; cbn [reads fold_left].
  - repeat split; auto; try lia. intros q [Hq|Hq]; auto; lia.
  - set (s1 := r_step cap s (XRecv c from)).
    assert (E : s1 = RSys (rs_hdr s) (updr (rs_loc s) c (bump (set_ltail (rs_loc s c) (from + 1)))) (rs_got s ++ [(c, from)])).
    { unfold s1. cbn [r_step]. rewrite H1, H2, N.leb_refl, N.eqb_refl. cbn [andb orb]. destruct (N.ltb_spec from (r_head (rs_hdr s))); [|lia]. auto. }
    assert (C : l_cnt (rs_loc s1 c) = l_cnt (rs_loc s c) + 1).
    { rewrite E. cbn [rs_loc]. rewrite updr_eq. rewrite bump_cnt; cbn [set_ltail l_cnt]; change (2^32) with 4294967296; lia. }
    destruct (IH s1 (from + 1)) as (I1 & I2 & I3 & I4 & I5 & I6 & I7 & I8).
    + rewrite E. cbn [rs_loc]. rewrite updr_eq. auto.
    + rewrite E. cbn [rs_loc]. rewrite updr_eq. auto.
    + rewrite E. cbn [rs_hdr]. lia.
    + lia.
    + cbv zeta. rewrite I1, I3, I4, I5, C. split; [rewrite E; auto|]. split; auto. split; [lia|]. split; [lia|].
      split; [rewrite E; cbn [rs_loc]; rewrite updr_eq; auto|]. split.
      * intros d Hd. rewrite I6 by auto. rewrite E. cbn [rs_loc]. unfold updr. destruct (Nat.eqb_spec d c); [contradiction|auto].
      * split.
        -- intros d Hd. rewrite I7 by auto. rewrite E, got_snoc. destruct (Nat.eqb_spec c d); [congruence|auto].
        -- intros q Hq. apply I8. rewrite E, got_snoc, Nat.eqb_refl.
           destruct (N.eq_dec q from) as [->|]; [left; apply in_app_iff; right; left; auto|].
           destruct Hq as [Hq|Hq]; [left; apply in_app_iff; auto|right; lia].
Qed.

Lemma idles_run cap c n : forall s, l_cnt (rs_loc s c) < 2^32 -> let s' := fold_left (r_step cap) (repeat (XIdle c) n) s in
  rs_hdr s' = rs_hdr s /\ rs_got s' = rs_got s /\
  rs_loc s' c = RLoc (l_in (rs_loc s c)) (l_mode (rs_loc s c)) (l_head (rs_loc s c)) (l_tail (rs_loc s c)) ((l_cnt (rs_loc s c) + N.of_nat n) mod 2^32) /\
  (forall d, d <> c -> rs_loc s' d = rs_loc s d).
Proof.
  induction n as [|n IH]; intros s Hc; cbn [repeat fold_left].
  - cbv zeta. split; auto. split; auto. rewrite N.add_0_r, N.mod_small by auto. split; auto. destruct (rs_loc s c); auto.
  - set (s1 := r_step cap s (XIdle c)). destruct (IH s1) as (I1 & I2 & I3 & I4).
    + unfold s1. cbn [r_step rs_loc]. rewrite updr_eq. cbn [bump l_cnt]. apply N.mod_lt. discriminate.
    + cbv zeta. rewrite I1, I2, I3. split; auto. split; auto. split.
      * unfold s1. cbn [r_step rs_loc]. rewrite updr_eq. cbn [bump l_in l_mode l_head l_tail l_cnt]. f_equal.
        rewrite N.add_mod_idemp_l by discriminate. f_equal. lia.
      * intros d Hd. rewrite I4 by auto. unfold s1. cbn [r_step rs_loc]. unfold updr. destruct (Nat.eqb_spec d c); [contradiction|auto].
Qed.
