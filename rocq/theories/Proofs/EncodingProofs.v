From Verif.Base Require Import Prelude Bytes.
From Verif.Model Require Import Wire EncodingSwap.
From Verif.Spec Require Import EncodingSpec.
Open Scope nat_scope.

Lemma swap_chunks_length f : forall w p, f * w <= length p -> length (swap_chunks f w p) = length p.
Proof.
  induction f as [|f IH]; intros w p H; cbn [swap_chunks]; auto.
  rewrite app_length, rev_length, firstn_length, IH; rewrite skipn_length; lia.
Qed.
Lemma swap_chunks_inv f : forall w p, f * w <= length p -> swap_chunks f w (swap_chunks f w p) = p.
Proof.
  induction f as [|f IH]; intros w p H; cbn [swap_chunks]; auto.
  assert (Hl : length (rev (firstn w p)) = w) by (rewrite rev_length, firstn_length; lia).
  rewrite firstn_app, skipn_app, Hl, Nat.sub_diag. cbn [firstn skipn].
  rewrite firstn_all2, skipn_all2, app_nil_r by lia. cbn [app].
  rewrite IH by (rewrite skipn_length; lia). rewrite rev_involutive. apply firstn_skipn.
Qed.
Lemma div_mul_le n w : n / w * w <= n.
Proof. rewrite Nat.mul_comm. destruct w; [cbn; lia|]. apply Nat.mul_div_le. lia. Qed.
Lemma bsw_length p w : length (byte_swap_words p w) = length p.
Proof. unfold byte_swap_words. case_match; auto. apply swap_chunks_length, div_mul_le. Qed.
Lemma bsw_inv p w : byte_swap_words (byte_swap_words p w) w = p.
Proof.
  pose proof (bsw_length p w) as Hl. unfold byte_swap_words at 1. rewrite Hl. unfold byte_swap_words.
  destruct ((w <=? 1) || (length p =? 0)); auto. apply swap_chunks_inv, div_mul_le.
Qed.
(** byte [i] of the result *)
Lemma swap_chunks_nth f : forall w p i d, 0 < w -> f * w <= length p ->
  nth i (swap_chunks f w p) d = if i <? f * w then nth (i / w * w + (w - 1 - i mod w)) p d else nth i p d.
Proof.
  induction f as [|f IH]; intros w p i d Hw H; cbn [swap_chunks].
  - reflexivity.
  - assert (Hl : length (rev (firstn w p)) = w) by (rewrite rev_length, firstn_length; lia).
    destruct (Nat.ltb_spec i w).
    + rewrite app_nth1 by lia. rewrite rev_nth by (rewrite rev_length in Hl; lia).
      rewrite rev_length in Hl. rewrite Hl. rewrite (proj2 (Nat.ltb_lt i (S f * w))) by nia.
      rewrite Nat.div_small, Nat.mod_small by auto. cbn [Nat.mul Nat.add].
      rewrite <- (firstn_skipn w p) at 2. rewrite app_nth1 by lia. f_equal. lia.
    + rewrite app_nth2 by lia. rewrite Hl, IH by (auto; rewrite skipn_length; lia).
      assert (Hn : forall k, nth k (skipn w p) d = nth (w + k) p d).
      { intros k. rewrite <- (firstn_skipn w p) at 2. rewrite app_nth2 by (rewrite firstn_length; lia).
        f_equal. rewrite firstn_length. lia. }
      rewrite !Hn.
      assert (Ei : i = (i - w) + 1 * w) by lia.
      assert (Ed : i / w = (i - w) / w + 1) by (rewrite Ei at 1; apply Nat.div_add; lia).
      assert (Em : i mod w = (i - w) mod w) by (rewrite Ei at 1; apply Nat.mod_add; lia).
      rewrite Ed, Em.
      destruct (Nat.ltb_spec (i - w) (f * w)), (Nat.ltb_spec i (S f * w)); try lia; f_equal; nia.
Qed.
Lemma bsw_nth p w i d : 2 <= w -> i < length p / w * w ->
  nth i (byte_swap_words p w) d = nth (i / w * w + (w - 1 - i mod w)) p d.
Proof.
  intros Hw Hi. unfold byte_swap_words.
  assert (length p <> 0) by (intros E; rewrite E, Nat.div_small in Hi; lia).
  rewrite (proj2 (Nat.leb_gt w 1)), (proj2 (Nat.eqb_neq _ _)) by lia. cbn [orb].
  rewrite swap_chunks_nth by (try apply div_mul_le; lia). rewrite (proj2 (Nat.ltb_lt _ _)) by auto. reflexivity.
Qed.
Lemma bsw_tail p w : 2 <= w -> skipn (length p / w * w) (byte_swap_words p w) = skipn (length p / w * w) p.
Proof.
  intros Hw. unfold byte_swap_words. case_match; auto. clear E.
  generalize (div_mul_le (length p) w). generalize (length p / w). intros f. revert p.
  induction f as [|f IH]; intros p H; auto. cbn [swap_chunks].
  assert (Hl : length (rev (firstn w p)) = w) by (rewrite rev_length, firstn_length; lia).
  replace (S f * w) with (w + f * w) by lia.
  rewrite skipn_app, Hl. rewrite (skipn_all2 (rev (firstn w p))) by lia.
  replace (w + f * w - w) with (f * w) by lia. cbn [app].
  rewrite IH by (rewrite skipn_length; lia). rewrite skipn_skipn. f_equal. lia.
Qed.

Lemma be_enc_length w v : length (be_enc w v) = w.
Proof. unfold be_enc. rewrite rev_length. apply le_enc_length. Qed.
Lemma be_struct_length w vs : length (be_struct w vs) = length vs * w.
Proof. induction vs as [|v r IH]; cbn [be_struct flat_map length]; auto. rewrite app_length, be_enc_length. fold (be_struct w r). rewrite IH. lia. Qed.
Lemma swap_be_struct w vs : swap_chunks (length vs) w (be_struct w vs) = le_struct w vs.
Proof.
  induction vs as [|v r IH]; cbn [be_struct le_struct flat_map length swap_chunks]; auto.
  fold (be_struct w r). fold (le_struct w r).
  pose proof (be_enc_length w v) as Hl.
  rewrite firstn_app, skipn_app, Hl, Nat.sub_diag. cbn [firstn skipn].
  rewrite firstn_all2, skipn_all2, app_nil_r by lia. cbn [app]. rewrite IH.
  unfold be_enc at 1. rewrite rev_involutive. reflexivity.
Qed.
Lemma le_enc_1 v : be_enc 1 v = le_enc 1 v.
Proof. reflexivity. Qed.
Lemma bsw_struct w vs : 2 <= w -> byte_swap_words (be_struct w vs) w = le_struct w vs.
Proof.
  intros Hw. unfold byte_swap_words. rewrite be_struct_length, Nat.div_mul by lia.
  destruct (Nat.leb_spec w 1); [lia|]. cbn [orb].
  destruct (Nat.eqb_spec (length vs * w) 0).
  - destruct vs; cbn in *; auto. lia.
  - apply swap_be_struct.
Qed.
