From Verif.Base Require Import Prelude Bytes Str.
From Verif.Model Require Import Mac.
From Verif.Spec Require Import MacSpec.
Local Open Scope N_scope.

(** ** Words *)
Definition word (x : N) : Prop := x < 2 ^ 32.
Lemma w32_word x : word (w32 x).
Proof. unfold word, w32. apply N.mod_lt. discriminate. Qed.
Lemma wadd_word a b : word (wadd a b).
Proof. apply w32_word. Qed.
Lemma wadd_l x y : wadd (w32 x) y = w32 (x + y).
Proof. unfold wadd, w32. apply N.add_mod_idemp_l. discriminate. Qed.
Lemma wadd_r x y : wadd x (w32 y) = w32 (x + y).
Proof. unfold wadd, w32. apply N.add_mod_idemp_r. discriminate. Qed.

Lemma lor_disjoint a b n : a < 2 ^ n -> N.lor a (b * 2 ^ n) = a + b * 2 ^ n.
Proof.
  intros Ha. assert (Hl : N.land a (b * 2 ^ n) = 0).
  { apply N.bits_inj. intros i. rewrite N.land_spec, N.bits_0. rewrite <- N.shiftl_mul_pow2.
    destruct (N.ltb_spec i n).
    - rewrite N.shiftl_spec_low by auto. apply andb_false_r.
    - destruct (N.eq_dec a 0) as [->|H0]; [rewrite N.bits_0; auto|].
      rewrite N.bits_above_log2; auto. apply N.lt_le_trans with n; auto. apply N.log2_lt_pow2; lia. }
  rewrite <- N.lxor_lor by auto. rewrite <- N.add_nocarry_lxor by auto. auto.
Qed.
Lemma rotr_ROTR x n : word x -> n <= 32 -> rotr x n = ROTR n x.
Proof.
  intros Hx Hn. unfold rotr, ROTR. rewrite N.shiftr_div_pow2.
  assert (E : w32 (N.shiftl x (32 - n)) = (x mod 2 ^ n) * 2 ^ (32 - n)).
  { unfold w32. rewrite N.shiftl_mul_pow2.
    replace (2 ^ 32) with (2 ^ n * 2 ^ (32 - n)) by (rewrite <- N.pow_add_r; f_equal; lia).
    rewrite N.mul_mod_distr_r; auto; apply N.pow_nonzero; lia. }
  rewrite E. apply lor_disjoint. unfold word in Hx.
  apply N.div_lt_upper_bound; [apply N.pow_nonzero; lia|]. rewrite <- N.pow_add_r. replace (n + (32 - n)) with 32 by lia. auto.
Qed.
Lemma shr_SHR x n : shr x n = SHR n x.
Proof. apply N.shiftr_div_pow2. Qed.
Lemma not32_compl x : word x -> not32 x = compl32 x.
Proof.
  intros Hx. unfold not32, compl32. change (2 ^ 32 - 1) with (N.ones 32).
  destruct (N.eq_dec x 0) as [->|H0]; [reflexivity|].
  apply (N.lnot_sub_low x 32). apply N.log2_lt_pow2; auto. lia.
Qed.

(** ** Big-endian *)
Lemma le_dec_app a b : le_dec (a ++ b) = le_dec a + 256 ^ N.of_nat (length a) * le_dec b.
Proof.
  induction a as [|x a IH]; cbn [app le_dec length].
  - change (256 ^ N.of_nat 0) with 1. lia.
  - rewrite IH, pow256_succ. lia.
Qed.
Lemma slice_4 i block : (i + 4 <= length block)%nat ->
  slice i 4 block = [nth i block 0; nth (i + 1) block 0; nth (i + 2) block 0; nth (i + 3) block 0].
Proof.
  intros H. unfold slice. assert (Hs : exists a b c d r, skipn i block = a :: b :: c :: d :: r).
  { pose proof (skipn_length i block). destruct (skipn i block) as [|a [|b [|c [|d r]]]]; cbn [length] in *; try lia. eauto 8. }
  destruct Hs as (a & b & c & d & r & E). rewrite E.
  assert (Hn : forall k, nth (i + k) block 0 = nth k (skipn i block) 0).
  { intros k. rewrite <- (firstn_skipn i block) at 1. rewrite app_nth2; rewrite firstn_length; [f_equal; lia|lia]. }
  pose proof (Hn 0%nat) as H0. rewrite Nat.add_0_r in H0. rewrite H0, !Hn, E. reflexivity.
Qed.
Lemma be_word block t : length block = 64%nat -> (t < 16)%nat -> be_dec (slice (t * 4) 4 block) = word_at block t.
Proof.
  intros Hb Ht. rewrite slice_4 by lia. unfold be_dec, word_at. cbn [rev app le_dec].
  rewrite (Nat.mul_comm t 4). change (2 ^ 24) with 16777216. change (2 ^ 16) with 65536. change (2 ^ 8) with 256. lia.
Qed.
Lemma word_at_word block t : bytes_ok block -> word (word_at block t).
Proof.
  intros Hb. assert (Hn : forall i, nth i block 0 < 256).
  { intros i. destruct (Nat.ltb_spec i (length block)).
    - apply (proj1 (Forall_forall _ _) Hb). apply nth_In; auto.
    - rewrite nth_overflow by auto. lia. }
  unfold word, word_at. pose proof (Hn (4 * t)%nat). pose proof (Hn (4 * t + 1)%nat). pose proof (Hn (4 * t + 2)%nat). pose proof (Hn (4 * t + 3)%nat).
  change (2 ^ 24) with 16777216. change (2 ^ 16) with 65536. change (2 ^ 8) with 256. change (2 ^ 32) with 4294967296. lia.
Qed.

(** ** Schedule *)
Definition sched_upto (block : bytes) (n : nat) : list N :=
  fold_left (fun w i => w ++ [next_word w i]) (seq 16 n) (first_words block).
Lemma sched_S block n : sched_upto block (S n) = sched_upto block n ++ [next_word (sched_upto block n) (16 + n)].
Proof. unfold sched_upto. rewrite seq_S, fold_left_app. reflexivity. Qed.
Lemma sched_length block n : length (sched_upto block n) = (16 + n)%nat.
Proof.
  induction n as [|n IH].
  - reflexivity.
  - rewrite sched_S, app_length, IH. cbn [length]. lia.
Qed.
Lemma nth_first_words block t : length block = 64%nat -> (t < 16)%nat -> nth t (first_words block) 0 = word_at block t.
Proof.
  intros Hb Ht. unfold first_words. rewrite (nth_indep _ 0 (be_dec (slice (0 * 4) 4 block))) by (rewrite map_length, seq_length; auto).
  rewrite (map_nth (fun i => be_dec (slice (i * 4) 4 block))). rewrite seq_nth by auto. apply be_word; auto.
Qed.
Lemma xor3_assoc a b c : N.lxor (N.lxor a b) c = xor3 a b c.
Proof. unfold xor3. apply N.lxor_assoc. Qed.
Lemma next_word_eq w i : (forall t, (t < i)%nat -> word (nth t w 0)) -> (16 <= i)%nat ->
  next_word w i = add32 (add32 (sigma1 (nth (i - 2) w 0)) (nth (i - 7) w 0)) (add32 (sigma0 (nth (i - 15) w 0)) (nth (i - 16) w 0)).
Proof.
  intros Hw Hi. unfold next_word. rewrite !xor3_assoc.
  rewrite !rotr_ROTR by (try (apply Hw; lia); lia). rewrite !shr_SHR.
  fold (sigma0 (nth (i - 15) w 0)). fold (sigma1 (nth (i - 2) w 0)).
  change (wadd (nth (i - 16) w 0)) with (fun y => w32 (nth (i - 16) w 0 + y)). cbv beta.
  rewrite !wadd_l. unfold add32. fold (w32 (sigma1 (nth (i - 2) w 0) + nth (i - 7) w 0)). fold (w32 (sigma0 (nth (i - 15) w 0) + nth (i - 16) w 0)).
  fold (w32 (w32 (sigma1 (nth (i - 2) w 0) + nth (i - 7) w 0) + w32 (sigma0 (nth (i - 15) w 0) + nth (i - 16) w 0))).
  change (w32 (w32 (sigma1 (nth (i - 2) w 0) + nth (i - 7) w 0) + w32 (sigma0 (nth (i - 15) w 0) + nth (i - 16) w 0)))
    with (wadd (w32 (sigma1 (nth (i - 2) w 0) + nth (i - 7) w 0)) (w32 (sigma0 (nth (i - 15) w 0) + nth (i - 16) w 0))).
  rewrite wadd_l.
  change (w32 (sigma1 (nth (i - 2) w 0) + nth (i - 7) w 0 + w32 (sigma0 (nth (i - 15) w 0) + nth (i - 16) w 0)))
    with (wadd (sigma1 (nth (i - 2) w 0) + nth (i - 7) w 0) (w32 (sigma0 (nth (i - 15) w 0) + nth (i - 16) w 0))).
  rewrite wadd_r. f_equal. lia.
Qed.
Lemma sched_spec block : length block = 64%nat -> bytes_ok block -> forall n,
  let w := sched_upto block n in
  (forall t, (t < 16 + n)%nat -> word (nth t w 0)) /\
  (forall t, (t < 16)%nat -> nth t w 0 = word_at block t) /\
  (forall t, (16 <= t < 16 + n)%nat -> nth t w 0 =
     add32 (add32 (sigma1 (nth (t - 2) w 0)) (nth (t - 7) w 0)) (add32 (sigma0 (nth (t - 15) w 0)) (nth (t - 16) w 0))).
Proof.
  intros Hb Hok n. induction n as [|n IH]; cbn zeta.
  - unfold sched_upto; cbn [seq fold_left]. split; [|split].
    + intros t Ht. rewrite nth_first_words by (auto; lia). apply word_at_word; auto.
    + intros t Ht. apply nth_first_words; auto.
    + intros t Ht. lia.
  - cbn zeta in IH. destruct IH as (I1 & I2 & I3). rewrite sched_S.
    set (w := sched_upto block n) in *. assert (Hl : length w = (16 + n)%nat) by apply sched_length.
    assert (Hnew : nth (16 + n) (w ++ [next_word w (16 + n)]) 0 = next_word w (16 + n)).
    { rewrite app_nth2 by lia. rewrite Hl, Nat.sub_diag. reflexivity. }
    assert (Hold : forall t, (t < 16 + n)%nat -> nth t (w ++ [next_word w (16 + n)]) 0 = nth t w 0) by (intros; apply app_nth1; lia).
    split; [|split].
    + intros t Ht. destruct (Nat.eq_dec t (16 + n)) as [->|Hne].
      * rewrite Hnew. apply wadd_word.
      * rewrite Hold by lia. apply I1; lia.
    + intros t Ht. rewrite Hold by lia. auto.
    + intros t Ht. destruct (Nat.eq_dec t (16 + n)) as [->|Hne].
      * rewrite Hnew. rewrite !Hold by lia. apply next_word_eq; auto. lia.
      * rewrite !Hold by lia. apply I3. lia.
Qed.

(** Schedules are unique below 64. *)
Lemma schedule_unique block W W' : is_schedule block W -> is_schedule block W' -> forall t, (t < 64)%nat -> W t = W' t.
Proof.
  intros [A1 A2] [B1 B2] t. induction t as [t IH] using lt_wf_ind. intros Ht.
  destruct (Nat.ltb_spec t 16); [rewrite A1, B1 by auto; auto|].
  rewrite A2, B2 by lia. rewrite (IH (t - 2)%nat), (IH (t - 7)%nat), (IH (t - 15)%nat), (IH (t - 16)%nat) by lia. reflexivity.
Qed.
Lemma schedule_exists block : length block = 64%nat -> bytes_ok block -> is_schedule block (fun t => nth t (schedule block) 0).
Proof.
  intros Hb Hok. pose proof (sched_spec block Hb Hok 48) as I. cbv zeta in I.
  assert (E : schedule block = sched_upto block 48) by (unfold schedule, sched_upto; reflexivity). rewrite <- E in I. clear E.
  generalize dependent (schedule block). intros w I. destruct I as (_ & I2 & I3). split; [exact I2|].
  intros t Ht. apply I3. lia.
Qed.

(** ** Rounds *)
Definition tup (v : Vars) : Words8 := (va v, vb v, vc v, vd v, ve v, vf v, vg v, vh v).
Definition vword (v : Vars) : Prop :=
  word (va v) /\ word (vb v) /\ word (vc v) /\ word (vd v) /\ word (ve v) /\ word (vf v) /\ word (vg v) /\ word (vh v).
Definition K_fn (t : nat) : N := nth t K256 0.
Lemma round_step w W v i : vword v -> W i = nth i w 0 ->
  tup (round w v i) = step K_fn W i (tup v) /\ vword (round w v i).
Proof.
  intros (Ha & Hb & Hc & Hd & He & Hf & Hg & Hh) HW. split.
  - unfold tup, round, step. cbn [va vb vc vd ve vf vg vh].
    rewrite !xor3_assoc. rewrite !rotr_ROTR by (auto; lia). rewrite not32_compl by auto. rewrite HW. fold (K_fn i).
    fold (Sigma0 (va v)). fold (Sigma1 (ve v)). fold (Maj (va v) (vb v) (vc v)). fold (Ch (ve v) (vf v) (vg v)).
    assert (Et : forall x1 x2 x3 x4 x5, wadd (wadd (wadd (wadd x1 x2) x3) x4) x5 = (x1 + x2 + x3 + x4 + x5) mod 2 ^ 32).
    { intros. change (wadd x1 x2) with (w32 (x1 + x2)). rewrite !wadd_l. reflexivity. }
    rewrite (Et (vh v) (Sigma1 (ve v))). reflexivity.
  - unfold round, vword; cbn [va vb vc vd ve vf vg vh]. repeat split; auto; apply wadd_word.
Qed.
Lemma rounds_steps w W : (forall t, (t < 64)%nat -> W t = nth t w 0) -> forall n v, (n <= 64)%nat -> vword v ->
  tup (fold_left (round w) (seq 0 n) v) = steps K_fn W n (tup v) /\ vword (fold_left (round w) (seq 0 n) v).
Proof.
  intros HW n. induction n as [|n IH]; intros v Hn Hv.
  - cbn. auto.
  - rewrite seq_S, fold_left_app. cbn [fold_left Nat.add]. destruct (IH v ltac:(lia) Hv) as [E Hv'].
    destruct (round_step w W _ n Hv' (HW n ltac:(lia))) as [E2 Hv2]. split; auto. rewrite E2, E. reflexivity.
Qed.
Definition htup (h : list N) : Words8 := tup (vars_of h).
Definition hok (h : list N) : Prop := length h = 8%nat /\ Forall word h.
Lemma hok_vword h : hok h -> vword (vars_of h).
Proof.
  intros [Hl Hf]. rewrite Forall_forall in Hf. unfold vword, vars_of; cbn [va vb vc vd ve vf vg vh].
  repeat split; apply Hf, nth_In; lia.
Qed.
Lemma compress_spec h block W : hok h -> length block = 64%nat -> bytes_ok block -> is_schedule block W ->
  htup (compress h block) = add8 (htup h) (steps K_fn W 64 (htup h)) /\ hok (compress h block).
Proof.
  intros Hh Hb Hok HW. pose proof (schedule_unique _ _ _ HW (schedule_exists block Hb Hok)) as HWe.
  destruct (rounds_steps (schedule block) W HWe 64 (vars_of h) (le_n _) (hok_vword h Hh)) as [E _].
  split.
  - unfold htup. rewrite <- E. reflexivity.
  - split; [reflexivity|]. unfold compress. repeat constructor; apply wadd_word.
Qed.

(** ** Streaming *)
Lemma absorb_more : forall f h D f', (length D <= f)%nat -> (length D <= f')%nat -> absorb f h D = absorb f' h D.
Proof.
  induction f as [|f IH]; intros h D f' H1 H2.
  - destruct D; [|cbn in H1; lia]. destruct f'; reflexivity.
  - destruct f' as [|f'].
    + destruct D; [reflexivity|cbn in H2; lia].
    + cbn [absorb]. destruct (Nat.leb_spec SHA256_BLOCK (length D)); auto. unfold SHA256_BLOCK in *.
      apply IH; rewrite skipn_length; lia.
Qed.
Lemma absorb_short h D f : (length D < 64)%nat -> absorb f h D = (h, D).
Proof. destruct f; cbn [absorb]; auto. intros. destruct (Nat.leb_spec SHA256_BLOCK (length D)); auto. unfold SHA256_BLOCK in *; lia. Qed.
Definition absorb' (h : list N) (D : bytes) := absorb (length D) h D.
Lemma absorb'_long h D : (64 <= length D)%nat -> absorb' h D = absorb' (compress h (firstn 64 D)) (skipn 64 D).
Proof.
  intros H. unfold absorb' at 1. destruct (length D) as [|n] eqn:E; [lia|]. cbn [absorb].
  rewrite (proj2 (Nat.leb_le _ _)) by (rewrite E; unfold SHA256_BLOCK; lia).
  apply absorb_more; rewrite skipn_length; unfold SHA256_BLOCK; lia.
Qed.
Lemma absorb'_short h D : (length D < 64)%nat -> absorb' h D = (h, D).
Proof. apply absorb_short. Qed.
Lemma absorb'_rest : forall n h D, (length D <= n)%nat -> (length (snd (absorb' h D)) < 64)%nat.
Proof.
  induction n as [n IH] using lt_wf_ind. intros h D Hn. destruct (Nat.ltb_spec (length D) 64).
  - rewrite absorb'_short by auto. auto.
  - rewrite absorb'_long by auto. apply (IH (n - 64)%nat); rewrite ?skipn_length; lia.
Qed.
Lemma absorb'_app : forall n h D E, (length D <= n)%nat ->
  absorb' h (D ++ E) = let '(h1, r) := absorb' h D in absorb' h1 (r ++ E).
Proof.
  induction n as [n IH] using lt_wf_ind. intros h D E Hn. destruct (Nat.ltb_spec (length D) 64).
  - rewrite (absorb'_short h D) by auto. reflexivity.
  - rewrite (absorb'_long h D) by auto. rewrite absorb'_long by (rewrite app_length; lia).
    rewrite firstn_app, skipn_app. replace (64 - length D)%nat with 0%nat by lia. rewrite firstn_O, app_nil_r. change (skipn 0 E) with E.
    apply (IH (n - 64)%nat); rewrite ?skipn_length; lia.
Qed.
(** The state [s] has absorbed exactly [D]. *)
Definition holds (s : Sha) (D : bytes) : Prop :=
  (s_h s, s_buf s) = absorb' H256 D /\ s_total s = N.of_nat (length D) mod 2 ^ 64.
Lemma holds_new : holds sha_new [].
Proof. split; reflexivity. Qed.
Lemma update_absorb s data : (length (s_buf s) < 64)%nat ->
  (s_h (sha_update s data), s_buf (sha_update s data)) = absorb' (s_h s) (s_buf s ++ data) /\
  s_total (sha_update s data) = (s_total s + N.of_nat (length data)) mod 2 ^ 64.
Proof.
  intros Hb. unfold sha_update. destruct s as [h buf tot]. cbn [s_h s_buf s_total] in *.
  destruct (Nat.ltb_spec 0 (length buf)).
  - set (take := Nat.min _ _).
    destruct (Nat.eqb_spec (length (buf ++ firstn take data)) SHA256_BLOCK) as [E|E].
    + rewrite app_length, firstn_length in E. unfold SHA256_BLOCK in *.
      assert (Ht : take = (64 - length buf)%nat) by (unfold take in *; lia).
      rewrite (absorb'_long h (buf ++ data)) by (rewrite app_length; unfold take in *; lia).
      rewrite firstn_app, skipn_app, (firstn_all2 buf), (skipn_all2 buf) by lia. rewrite <- Ht. cbn [app].
      change (absorb (length (skipn take data))) with (fun h d => absorb (length (skipn take data)) h d). cbv beta.
      fold (absorb' (compress h (buf ++ firstn take data)) (skipn take data)).
      destruct (absorb' (compress h (buf ++ firstn take data)) (skipn take data)) as [h1 [|x r]]; auto.
    + rewrite app_length, firstn_length in E. unfold SHA256_BLOCK in *.
      assert (Ht : take = length data) by (unfold take in *; lia).
      rewrite Ht. rewrite firstn_all, skipn_all. cbn [absorb length]. cbn [s_h s_buf s_total].
      rewrite absorb'_short; auto. rewrite app_length. unfold take in *. lia.
  - destruct buf; [|cbn in *; lia]. cbn [app]. fold (absorb' h data).
    destruct (absorb' h data) as [h1 [|x r]]; auto.
Qed.
Lemma holds_buf s D : holds s D -> (length (s_buf s) < 64)%nat.
Proof. intros [H _]. pose proof (absorb'_rest (length D) H256 D (le_n _)) as Hr. rewrite <- H in Hr. exact Hr. Qed.
Lemma holds_update s D E : holds s D -> holds (sha_update s E) (D ++ E).
Proof.
  intros H. pose proof (holds_buf _ _ H) as Hb. destruct H as [H Ht]. destruct (update_absorb s E Hb) as [H1 H2]. split.
  - rewrite H1. rewrite (absorb'_app (length D) H256 D) by lia. rewrite <- H. reflexivity.
  - rewrite H2, Ht. rewrite N.add_mod_idemp_l by discriminate. rewrite app_length. f_equal. lia.
Qed.
(** Chunking is invisible. *)
Lemma holds_inj s s' D : holds s D -> holds s' D -> s = s'.
Proof. intros [A1 A2] [B1 B2]. rewrite <- B1 in A1. rewrite <- B2 in A2. destruct s as [h b t], s' as [h' b' t']. cbn in A1, A2. congruence. Qed.

Lemma absorb'_mod : forall n h D, (length D <= n)%nat -> length (snd (absorb' h D)) = Nat.modulo (length D) 64.
Proof.
  induction n as [n IH] using lt_wf_ind. intros h D Hn. destruct (Nat.ltb_spec (length D) 64).
  - rewrite absorb'_short by auto. cbn [snd]. rewrite Nat.mod_small; auto.
  - rewrite absorb'_long by auto. rewrite (IH (n - 64)%nat); rewrite ?skipn_length; try lia.
Qed.
Lemma holds_mod s D : holds s D -> length (s_buf s) = Nat.modulo (length D) 64.
Proof. intros [H _]. rewrite <- (absorb'_mod (length D) H256 D) by lia. rewrite <- H. reflexivity. Qed.

Definition dist (b : nat) : nat := Nat.modulo (120 - b) 64.
Lemma pad_zeros_spec : forall f s D, holds s D -> (dist (length (s_buf s)) < f)%nat ->
  holds (pad_zeros f s) (D ++ repeat 0 (dist (length (s_buf s)))) /\ length (s_buf (pad_zeros f s)) = 56%nat.
Proof.
  induction f as [|f IH]; intros s D H Hf; [lia|]. cbn [pad_zeros]. unfold SHA256_BLOCK.
  pose proof (holds_buf _ _ H) as Hb.
  destruct (Nat.eqb_spec (length (s_buf s)) (64 - 8)) as [E|E].
  - rewrite E. change (dist (64 - 8)) with 0%nat. cbn [repeat]. rewrite app_nil_r. auto.
  - pose proof (holds_update _ _ [0] H) as H1.
    assert (Hl : length (s_buf (sha_update s [0])) = Nat.modulo (S (length (s_buf s))) 64).
    { rewrite (holds_mod _ _ H1), (holds_mod _ _ H), app_length. cbn [length].
      rewrite <- (Nat.add_1_r (length D mod 64)), Nat.add_mod_idemp_l by lia. reflexivity. }
    assert (Hd : dist (length (s_buf s)) = S (dist (length (s_buf (sha_update s [0]))))).
    { rewrite Hl. unfold dist. clear - Hb E. lia. }
    destruct (IH _ _ H1 ltac:(lia)) as [H2 H3]. split; auto.
    rewrite Hd. cbn [repeat]. rewrite <- app_assoc in H2. exact H2.
Qed.

(** ** From blocks to the relation *)
Lemma absorb_blocks : forall n h p h', (length p <= n)%nat -> hok h -> bytes_ok p -> absorb' h p = (h', []) ->
  blocks_hash K_fn (htup h) p (htup h') /\ hok h'.
Proof.
  induction n as [n IH] using lt_wf_ind. intros h p h' Hn Hh Hp E. destruct (Nat.ltb_spec (length p) 64).
  - rewrite absorb'_short in E by auto. injection E as <- ->. split; auto. constructor.
  - rewrite absorb'_long in E by auto.
    assert (Hf : length (firstn 64 p) = 64%nat) by (rewrite firstn_length; lia).
    assert (Hok : bytes_ok (firstn 64 p)) by (apply bytes_ok_firstn; auto).
    pose proof (schedule_exists _ Hf Hok) as HW. destruct (compress_spec h _ _ Hh Hf Hok HW) as [Ec Hc].
    destruct (IH (n - 64)%nat ltac:(lia) _ (skipn 64 p) h' ltac:(rewrite skipn_length; lia) Hc ltac:(apply bytes_ok_skipn; auto) E) as [Hr Hh'].
    split; auto. rewrite <- (firstn_skipn 64 p). econstructor; eauto. rewrite <- Ec. exact Hr.
Qed.
Lemma be_enc_8 n : be_enc 8 n = be8 n.
Proof. reflexivity. Qed.
Lemma H256_ok : hok H256.
Proof. split; [reflexivity|]. unfold H256. repeat constructor. Qed.

Lemma finalize_blocks s m : holds s m -> bytes_ok m -> N.of_nat (length m) < 2 ^ 61 ->
  exists p h, padded m p /\ blocks_hash K_fn (htup H256) p (htup h) /\ hok h /\ sha_finalize s = flat_map (be_enc 4) h.
Proof.
  intros Hm Hok Hlen. unfold sha_finalize.
  pose proof (holds_update _ _ [128] Hm) as H1.
  set (s1 := sha_update s [128]) in *.
  assert (Hd : (dist (length (s_buf s1)) < 64)%nat) by (unfold dist; apply Nat.mod_upper_bound; lia).
  destruct (pad_zeros_spec 64 s1 _ H1 Hd) as [H2 H3]. set (s2 := pad_zeros 64 s1) in *.
  set (z := dist (length (s_buf s1))) in *.
  set (lenb := be8 (8 * N.of_nat (length m))).
  assert (Hbl : (s_total s * 8) mod 2 ^ 64 = 8 * N.of_nat (length m)).
  { destruct Hm as [_ ->]. change (2 ^ 61) with 2305843009213693952 in Hlen. change (2 ^ 64) with 18446744073709551616.
    rewrite (N.mod_small (N.of_nat (length m))) by lia. rewrite N.mod_small; lia. }
  rewrite Hbl, be_enc_8. fold lenb.
  set (D := ((m ++ [128]) ++ repeat 0 z)) in *.
  assert (Hlb : length lenb = 8%nat) by reflexivity.
  exists (D ++ lenb), (compress (s_h s2) (s_buf s2 ++ lenb)).
  assert (Hpad : padded m (D ++ lenb)).
  { exists z. split; auto. split; [unfold D; rewrite <- !app_assoc; reflexivity|].
    rewrite app_length, Hlb. pose proof (holds_mod _ _ H2) as Hmod. rewrite H3 in Hmod. lia. }
  assert (Habs : absorb' H256 (D ++ lenb) = (compress (s_h s2) (s_buf s2 ++ lenb), [])).
  { rewrite (absorb'_app (length D) H256 D) by lia. destruct H2 as [<- _].
    rewrite absorb'_long by (rewrite app_length; lia).
    rewrite firstn_all2, skipn_all2 by (rewrite app_length; lia). rewrite absorb'_short by (cbn; lia). reflexivity. }
  assert (Hpok : bytes_ok (D ++ lenb)).
  { unfold D. rewrite !bytes_ok_app. repeat split; auto.
    - constructor; [reflexivity|constructor].
    - apply Forall_forall. intros x Hx. apply repeat_spec in Hx. subst. reflexivity.
    - unfold lenb, be8. apply Forall_rev, le_enc_ok. }
  destruct (absorb_blocks (length (D ++ lenb)) H256 _ _ (le_n _) H256_ok Hpok Habs) as [Hbh Hho].
  auto.
Qed.
Lemma digest_htup h : hok h -> flat_map (be_enc 4) h = digest_of (htup h).
Proof.
  intros [Hl _]. destruct h as [|a [|b [|c [|d [|e [|f [|g [|k [|? ?]]]]]]]]]; try discriminate. reflexivity.
Qed.

(** ** The constants *)
Definition root_check (e p k : N) : bool :=
  let c := if e =? 3 then (if p <? 8 then 1 else if p <? 27 then 2 else if p <? 64 then 3 else if p <? 125 then 4 else if p <? 216 then 5 else 6)
           else N.sqrt p in
  (k <? 2 ^ 32) && ((c * 2 ^ 32 + k) ^ e <=? p * 2 ^ (32 * e)) && (p * 2 ^ (32 * e) <? (c * 2 ^ 32 + k + 1) ^ e).
Lemma root_check_ok e p k : root_check e p k = true -> root_bits e p k.
Proof.
  unfold root_check, root_bits. intros H. apply andb_prop in H as [H H3]. apply andb_prop in H as [H1 H2].
  apply N.ltb_lt in H1, H3. apply N.leb_le in H2. eexists. split; [exact H1|]. split; [exact H2|exact H3].
Qed.
Lemma all_check : forallb (fun t => root_check 3 (nth t primes64 0) (nth t K256 0)) (seq 0 64) = true.
Proof. vm_compute. reflexivity. Qed.
Lemma K_roots t : (t < 64)%nat -> root_bits 3 (nth t primes64 0) (K_fn t).
Proof.
  intros Ht. apply root_check_ok. pose proof all_check as H. rewrite forallb_forall in H.
  apply (H t). apply in_seq. lia.
Qed.
Lemma H_roots : Forall2 (root_bits 2) [2; 3; 5; 7; 11; 13; 17; 19] H256.
Proof. unfold H256. repeat constructor; apply root_check_ok; vm_compute; reflexivity. Qed.
Lemma root_unique e p k k' : 0 < e -> root_bits e p k -> root_bits e p k' -> k = k'.
Proof.
  intros He (c & Hk & H1 & H2) (c' & Hk' & H1' & H2').
  assert (A : c * 2 ^ 32 + k < c' * 2 ^ 32 + k' + 1).
  { apply (N.pow_lt_mono_l_iff _ _ e); [lia|]. lia. }
  assert (B : c' * 2 ^ 32 + k' < c * 2 ^ 32 + k + 1).
  { apply (N.pow_lt_mono_l_iff _ _ e); [lia|]. lia. }
  change (2 ^ 32) with 4294967296 in *. lia.
Qed.

(** ** The relation is functional *)
Lemma padded_unique m p p' : padded m p -> padded m p' -> p = p'.
Proof.
  intros (z & Hz & E & Hm) (z' & Hz' & E' & Hm'). assert (z = z'); [|subst; auto].
  rewrite E in Hm. rewrite E' in Hm'. rewrite !app_length, repeat_length in *.
  assert (length (be8 (8 * N.of_nat (length m))) = 8%nat) by reflexivity. cbn [length] in *. lia.
Qed.
Lemma steps_ext K K' W W' n s : (forall t, (t < n)%nat -> K t = K' t) -> (forall t, (t < n)%nat -> W t = W' t) ->
  steps K W n s = steps K' W' n s.
Proof.
  intros HK HW. induction n as [|n IH]; cbn [steps]; auto.
  rewrite IH by (intros; auto). unfold step. rewrite HK, HW by lia. reflexivity.
Qed.
Lemma bh_inv K s p s2 : blocks_hash K s p s2 ->
  (p = [] /\ s2 = s) \/
  exists block rest W, p = block ++ rest /\ length block = 64%nat /\ is_schedule block W /\
    blocks_hash K (add8 s (steps K W 64 s)) rest s2.
Proof. intros H; destruct H as [s|s block rest W s' Hl HW H]; [left; auto|right]. exists block, rest, W. auto. Qed.
Lemma blocks_unique K K' s p s1 : (forall t, (t < 64)%nat -> K t = K' t) ->
  blocks_hash K s p s1 -> forall s2, blocks_hash K' s p s2 -> s1 = s2.
Proof.
  intros HK H. induction H as [s|s block rest W s1 Hl HW H IH]; intros s2 H2;
    apply bh_inv in H2 as [[E E2]|(block' & rest' & W' & E & Hl' & HW' & H')].
  - auto.
  - destruct block'; [discriminate Hl'|discriminate E].
  - destruct block; [discriminate Hl|discriminate E].
  - assert (block' = block /\ rest' = rest) as [-> ->].
    { assert (Hf : firstn 64 (block' ++ rest') = firstn 64 (block ++ rest)) by (rewrite E; auto).
      rewrite !firstn_app, Hl, Hl', Nat.sub_diag, !firstn_O, !app_nil_r, !firstn_all2 in Hf by lia.
      subst block'. apply app_inv_head in E. auto. }
    apply IH. erewrite steps_ext; [exact H'| |].
    + intros; apply HK; auto.
    + intros t Ht. apply (schedule_unique block); auto.
Qed.
Lemma F2_cons {A B} (R : A -> B -> Prop) x y l l' : Forall2 R (x :: l) (y :: l') -> R x y /\ Forall2 R l l'.
Proof. intros H; inversion H; auto. Qed.
Lemma SHA256_unique m d d' : SHA256 m d -> SHA256 m d' -> d = d'.
Proof.
  intros (K & s0 & s & p & HK & H0 & Hp & Hb & ->) (K' & s0' & s' & p' & HK' & H0' & Hp' & Hb' & ->).
  assert (p' = p) by (eapply padded_unique; eauto). subst p'.
  assert (EK : forall t, (t < 64)%nat -> K t = K' t).
  { intros t Ht. apply (root_unique 3 (nth t primes64 0)); auto. lia. }
  assert (s0 = s0').
  { destruct s0 as [[[[[[[a b] c] d] e] f] g] h]. destruct s0' as [[[[[[[a' b'] c'] d'] e'] f'] g'] h'].
    cbn beta iota in H0, H0'.
    repeat (match goal with H : Forall2 _ (_ :: _) (_ :: _) |- _ => apply F2_cons in H as [? ?] end).
    assert (R : forall p k k', root_bits 2 p k -> root_bits 2 p k' -> k = k') by (intros q k k' A B; apply (root_unique 2 q); auto; lia).
    rewrite (R 2 a a'), (R 3 b b'), (R 5 c c'), (R 7 d d'), (R 11 e e'), (R 13 f f'), (R 17 g g'), (R 19 h h') by assumption. reflexivity. }
  subst s0'. f_equal. eapply blocks_unique; [exact EK|exact Hb|exact Hb'].
Qed.
Lemma holds_SHA256 s m : holds s m -> bytes_ok m -> N.of_nat (length m) < 2 ^ 61 -> SHA256 m (sha_finalize s).
Proof.
  intros Hs Hm Hl. destruct (finalize_blocks s m Hs Hm Hl) as (p & h & Hp & Hb & Hh & E).
  exists K_fn, (htup H256), (htup h), p. split; [apply K_roots|]. split; [exact H_roots|]. split; auto. split; auto.
  rewrite E. apply digest_htup; auto.
Qed.
Lemma sha256_correct m : bytes_ok m -> N.of_nat (length m) < 2 ^ 61 -> SHA256 m (sha256 m).
Proof. intros. apply holds_SHA256; auto. apply (holds_update _ _ m holds_new). Qed.
Lemma updates_concat : forall chunks s D, holds s D -> holds (fold_left sha_update chunks s) (D ++ concat chunks).
Proof.
  induction chunks as [|c r IH]; intros s D H; cbn [fold_left concat]; [rewrite app_nil_r; auto|].
  rewrite app_assoc. apply IH. apply holds_update; auto.
Qed.

(** Digests are 32 bytes. *)
Lemma be_enc_ok k n : bytes_ok (be_enc k n).
Proof. apply Forall_rev, le_enc_ok. Qed.
Lemma digest_length s : length (digest_of s) = 32%nat /\ bytes_ok (digest_of s).
Proof.
  destruct s as [[[[[[[a b] c] d] e] f] g] h]. cbn [digest_of]. split; [reflexivity|].
  apply Forall_flat_map. rewrite Forall_forall. intros x _. apply Forall_rev, le_enc_ok.
Qed.
Lemma SHA256_length m d : SHA256 m d -> length d = 32%nat /\ bytes_ok d.
Proof. intros (K & s0 & s & p & _ & _ & _ & _ & ->). apply digest_length. Qed.
Lemma finalize_length s : length (sha_finalize s) = 32%nat /\ bytes_ok (sha_finalize s).
Proof.
  unfold sha_finalize. split.
  - reflexivity.
  - apply Forall_flat_map. rewrite Forall_forall. intros x _. apply be_enc_ok.
Qed.

(** ** HMAC *)
Lemma combine_repeat c (l : bytes) : map (fun p => N.lxor (fst p) (snd p)) (combine (repeat c (length l)) l) = map (N.lxor c) l.
Proof. induction l as [|x l IH]; cbn [length repeat combine map fst snd]; auto. f_equal; auto. Qed.
Lemma lxor_byte a b : a < 256 -> b < 256 -> N.lxor a b < 256.
Proof.
  intros Ha Hb. destruct (N.eq_dec (N.lxor a b) 0) as [->|H]; [lia|].
  change 256 with (2 ^ 8) in *. apply N.log2_lt_pow2; [lia|].
  eapply N.le_lt_trans; [apply N.log2_lxor|]. apply N.max_lub_lt.
  - destruct (N.eq_dec a 0) as [->|]; [reflexivity|]. apply N.log2_lt_pow2; lia.
  - destruct (N.eq_dec b 0) as [->|]; [reflexivity|]. apply N.log2_lt_pow2; lia.
Qed.
Lemma hmac_correct key msg : bytes_ok key -> bytes_ok msg -> N.of_nat (length key) < 2 ^ 61 -> N.of_nat (length msg) + 64 < 2 ^ 61 ->
  HMAC key msg (hmac_sha256 key msg).
Proof.
  intros Hk Hm Hlk Hlm. unfold hmac_sha256, SHA256_BLOCK.
  set (k := if (64 <? length key)%nat then sha256 key else key).
  assert (Hk1 : bytes_ok k /\ (length k <= 64)%nat).
  { unfold k. destruct (Nat.ltb_spec 64 (length key)); [|auto].
    destruct (SHA256_length _ _ (sha256_correct key Hk Hlk)) as [E ?]. rewrite E. split; auto. lia. }
  destruct Hk1 as [Hkok Hkl]. set (k0 := k ++ repeat 0 (64 - length k)).
  assert (Hk0 : length k0 = 64%nat) by (unfold k0; rewrite app_length, repeat_length; lia).
  assert (Hk0ok : bytes_ok k0).
  { unfold k0. apply bytes_ok_app. split; auto. apply Forall_forall. intros x Hx. apply repeat_spec in Hx. subst. reflexivity. }
  assert (Hx : forall c, c < 256 -> xor_bytes (repeat c 64) k0 = xor_byte_all c k0 /\ bytes_ok (xor_byte_all c k0) /\ length (xor_byte_all c k0) = 64%nat).
  { intros c Hc. unfold xor_bytes, xor_byte_all. rewrite <- Hk0 at 1. rewrite combine_repeat, map_length. split; auto. split; auto.
    apply Forall_map. eapply Forall_impl; [|exact Hk0ok]. intros b Hb. apply lxor_byte; auto. }
  destruct (Hx 0x36 ltac:(lia)) as (Ei & Hi & Hil). destruct (Hx 0x5c ltac:(lia)) as (Eo & Ho & Hol).
  rewrite Ei, Eo.
  set (inner := sha_finalize (sha_update (sha_update sha_new (xor_byte_all 0x36 k0)) msg)).
  exists k, k0, inner. split; [|split; [reflexivity|split]].
  - unfold k. destruct (64 <? length key)%nat; auto. apply sha256_correct; auto.
  - apply holds_SHA256.
    + apply holds_update. apply (holds_update _ _ _ holds_new).
    + apply bytes_ok_app; auto.
    + rewrite app_length, Hil. lia.
  - destruct (finalize_length (sha_update (sha_update sha_new (xor_byte_all 0x36 k0)) msg)) as [L1 L2]. fold inner in L1, L2.
    apply holds_SHA256.
    + apply holds_update. apply (holds_update _ _ _ holds_new).
    + apply bytes_ok_app; auto.
    + rewrite app_length, Hol, L1. reflexivity.
Qed.
Lemma HMAC_unique key msg t t' : HMAC key msg t -> HMAC key msg t' -> t = t'.
Proof.
  intros (k & k0 & i & H1 & -> & H2 & H3) (k' & k0' & i' & H1' & -> & H2' & H3').
  assert (k' = k).
  { destruct (64 <? length key)%nat; [eapply SHA256_unique; eauto|congruence]. }
  subst k'. assert (i' = i) by (eapply SHA256_unique; eauto). subst i'. eapply SHA256_unique; eauto.
Qed.

(** ** Constant-time comparison *)
Lemma ct_fold : forall l acc, fold_left (fun diff p => N.lor diff (N.lxor (fst p) (snd p))) l acc = 0 <->
  acc = 0 /\ Forall (fun p : N * N => fst p = snd p) l.
Proof.
  induction l as [|[x y] l IH]; intros acc; cbn [fold_left fst snd].
  - intuition.
  - rewrite IH, Forall_cons_iff, N.lor_eq_0_iff, N.lxor_eq_0_iff. cbn [fst snd]. tauto.
Qed.
Lemma ct_eq_iff a b : ct_eq a b = true <-> a = b.
Proof.
  unfold ct_eq. destruct (Nat.eqb_spec (length a) (length b)) as [E|E]; cbn [negb].
  - rewrite N.eqb_eq, ct_fold. revert b E; induction a as [|x a IH]; intros [|y b] E; try discriminate.
    + cbn. intuition.
    + cbn [combine]. rewrite Forall_cons_iff. cbn [fst snd]. injection E as E. specialize (IH b E). split.
      * intros (_ & -> & H). f_equal. apply IH. auto.
      * intros H. injection H as -> ->. split; auto. split; auto. apply IH; auto.
  - split; [discriminate|]. intros ->. contradiction.
Qed.

(** ** Hex *)
Lemma hex_val_iff c v : hex_val c = Some v <-> hex_digit_of v c.
Proof.
  unfold hex_val, hex_digit_of.
  destruct (N.leb_spec 48 c), (N.leb_spec c 57), (N.leb_spec 65 c), (N.leb_spec c 70), (N.leb_spec 97 c), (N.leb_spec c 102);
    cbn [andb]; (split; [intros H'; try discriminate H'; injection H' as <-; lia | intros H'; try (f_equal; lia); exfalso; lia]).
Qed.
Lemma hex_pairs_iff : forall n s l, length s = (2 * n)%nat ->
  (forallb is_hexdigit s = true /\ hex_pairs s = l) <-> hex_of l s.
Proof.
  induction n as [|n IH]; intros s l Hl.
  - destruct s; [|discriminate]. cbn. split.
    + intros [_ <-]. constructor.
    + intros H. inversion H; subst; auto.
  - destruct s as [|c1 [|c2 s]]; try (cbn in Hl; lia). cbn [length] in Hl. cbn [forallb hex_pairs]. unfold is_hexdigit at 1 2.
    split.
    + intros [H E]. destruct (hex_val c1) as [x|] eqn:E1; [|discriminate]. destruct (hex_val c2) as [y|] eqn:E2; [|discriminate].
      cbn [andb] in H. apply hex_val_iff in E1, E2.
      assert (x < 16 /\ y < 16) as [Hx Hy] by (unfold hex_digit_of in *; lia).
      subst l. constructor; [lia| | |apply IH; [lia|auto]].
      * replace ((16 * x + y) / 16) with x by lia. auto.
      * replace ((16 * x + y) mod 16) with y by lia. auto.
    + intros H. inversion H as [|b l' ? ? ? Hb H1 H2 H3]; subst. apply hex_val_iff in H1, H2. rewrite H1, H2. cbn [andb].
      apply IH in H3; [|lia]. destruct H3 as [H3 ->]. split; auto. f_equal. lia.
Qed.
Lemma parse_hex32_iff s l : parse_hex32 s = Some l <-> length l = 32%nat /\ hex_of l s.
Proof.
  unfold parse_hex32. destruct (Nat.eqb_spec (length s) 64) as [E|E]; cbn [negb orb].
  - pose proof (hex_pairs_iff 32 s) as Hp. destruct (forallb is_hexdigit s) eqn:Ef; cbn [negb].
    + assert (Hlen : forall n (t : bytes), length t = (2 * n)%nat -> length (hex_pairs t) = n).
      { clear. induction n; intros [|a [|b t]] H; cbn in H; try lia; auto. cbn [hex_pairs length]. f_equal. apply IHn. lia. }
      split.
      * intros H. injection H as <-. split; [apply Hlen; lia|]. apply Hp; auto.
      * intros [_ H]. apply Hp in H; auto. destruct H as [_ ->]. auto.
    + split; [discriminate|]. intros [_ H]. apply Hp in H; auto. destruct H as [H _]. discriminate.
  - split; [discriminate|]. intros [Hl H]. exfalso. apply E. clear E.
    assert (Hlen : forall l t, hex_of l t -> length t = (2 * length l)%nat) by (clear; induction 1; cbn [length]; lia).
    rewrite (Hlen _ _ H), Hl. reflexivity.
Qed.

(** ** PBKDF2 *)
Lemma hmac_length key msg : length (hmac_sha256 key msg) = 32%nat /\ bytes_ok (hmac_sha256 key msg).
Proof. unfold hmac_sha256. apply finalize_length. Qed.
Definition chain (P : bytes) (u1 : bytes) (i : nat) : bytes := Nat.iter (i - 1) (hmac_sha256 P) u1.
Lemma pbkdf2_fold P u1 n :
  Nat.iter n (fun uo : bytes * bytes => let u := hmac_sha256 P (fst uo) in (u, xor_bytes (snd uo) u)) (u1, u1) =
  (chain P u1 (S n), fold_left bytes_xor (map (chain P u1) (seq 2 n)) u1).
Proof.
  induction n as [|n IH]; [reflexivity|]. cbn [Nat.iter nat_rect]. 
  change (nat_rect _ _ _ n) with (Nat.iter n (fun uo : bytes * bytes => let u := hmac_sha256 P (fst uo) in (u, xor_bytes (snd uo) u)) (u1, u1)).
  rewrite IH. cbn [fst snd]. rewrite seq_S, map_app, fold_left_app. cbn [map fold_left].
  assert (E : hmac_sha256 P (chain P u1 (S n)) = chain P u1 (S (S n))).
  { unfold chain. cbn [Nat.sub]. rewrite Nat.sub_0_r. reflexivity. }
  rewrite E. reflexivity.
Qed.
Lemma pbkdf2_correct P S c : bytes_ok P -> bytes_ok S -> N.of_nat (length P) < 2 ^ 61 -> N.of_nat (length S) + 68 < 2 ^ 61 ->
  0 < c -> PBKDF2 P S (N.to_nat c) (pbkdf2 P S c).
Proof.
  intros HP HS HlP HlS Hc. unfold pbkdf2. set (u1 := hmac_sha256 P (S ++ be_enc 4 1)).
  rewrite <- (N2Nat.id (c - 1)). rewrite <- Nat2N.inj_iter. rewrite pbkdf2_fold. cbn [snd].
  exists (chain P u1). assert (Hb : forall i, bytes_ok (chain P u1 i) /\ length (chain P u1 i) = 32%nat).
  { intros i. unfold chain. destruct (i - 1)%nat; [split; apply hmac_length|]. cbn [Nat.iter nat_rect]. split; apply hmac_length. }
  split; [|split].
  - apply hmac_correct; auto.
    + apply bytes_ok_app; split; auto. repeat constructor.
    + rewrite app_length. cbn [length]. lia.
  - intros i Hi. replace (chain P u1 (i + 1)) with (hmac_sha256 P (chain P u1 i)).
    + destruct (Hb i) as [B1 B2]. apply hmac_correct; auto. rewrite B2. reflexivity.
    + unfold chain. replace (i + 1 - 1)%nat with (Datatypes.S (i - 1)) by lia. reflexivity.
  - f_equal. f_equal. f_equal. lia.
Qed.
