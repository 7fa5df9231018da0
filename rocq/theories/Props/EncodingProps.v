(** C31: cross-endian payload conversion. *)
From Verif.Base Require Import Prelude Bytes.
From Verif.Model Require Import Wire EncodingSwap.
From Verif.Spec Require Import EncodingSpec.
From Verif.Proofs Require Import EncodingProofs.
Open Scope nat_scope.

(** Swapping twice gives the payload back, for every payload and word size, and the length never changes. *)
Theorem C31_involution : forall p w, byte_swap_words (byte_swap_words p w) w = p.
Proof. exact bsw_inv. Qed.
Print Assumptions C31_involution.
Theorem C31_length : forall p w, length (byte_swap_words p w) = length p.
Proof. exact bsw_length. Qed.
Print Assumptions C31_length.
(** Within each whole word the bytes are mirrored; a trailing incomplete word is left as it is. *)
Theorem C31_bytes : forall p w, 2 <= w ->
  (forall i d, i < length p / w * w -> nth i (byte_swap_words p w) d = nth (i / w * w + (w - 1 - i mod w)) p d)
  /\ skipn (length p / w * w) (byte_swap_words p w) = skipn (length p / w * w) p.
Proof. intros p w Hw. split; [intros; apply bsw_nth; auto|apply bsw_tail; auto]. Qed.
Print Assumptions C31_bytes.
(** A payload in the host's own order, or bincode-encoded, is handed on untouched. *)
Theorem C31_native : forall p e n, e <> PodBe -> snd (process_incoming_payload p e n) = p.
Proof. intros p [] n H; try reflexivity. contradiction. Qed.
Print Assumptions C31_native.
(** A big-endian payload made of 8-byte fields arrives with every field's value; so does one of an odd number
    of 4-byte fields, and one of an odd number of 2-byte fields. *)
Theorem C31_uniform : forall w vs,
  (w = 8 \/ (w = 4 /\ Nat.Odd (length vs)) \/ (w = 2 /\ Nat.Odd (length vs)) \/ (w = 1 /\ Nat.Odd (length vs))) ->
  let p := be_struct w vs in
  snd (process_incoming_payload p PodBe (length p)) = le_struct w vs.
Proof.
  intros w vs H p. subst p. unfold process_incoming_payload. cbn [check_encoding snd]. rewrite be_struct_length.
  destruct H as [->|[(-> & k & Hk)|[(-> & k & Hk)|(-> & k & Hk)]]].
  - unfold infer_word_size. rewrite Nat.mod_mul by lia. cbn [Nat.eqb]. apply bsw_struct; lia.
  - replace (infer_word_size (length vs * 4)) with 4; [apply bsw_struct; lia|].
    unfold infer_word_size. rewrite Hk.
    assert (E8 : ((2 * k + 1) * 4) mod 8 <> 0) by (intros E; apply Nat.mod_divide in E; [destruct E as [c E]; lia|lia]).
    rewrite (proj2 (Nat.eqb_neq _ _) E8), Nat.mod_mul by lia. reflexivity.
  - replace (infer_word_size (length vs * 2)) with 2; [apply bsw_struct; lia|].
    unfold infer_word_size. rewrite Hk.
    assert (E8 : ((2 * k + 1) * 2) mod 8 <> 0) by (intros E; apply Nat.mod_divide in E; [destruct E as [c E]; lia|lia]).
    assert (E4 : ((2 * k + 1) * 2) mod 4 <> 0) by (intros E; apply Nat.mod_divide in E; [destruct E as [c E]; lia|lia]).
    rewrite (proj2 (Nat.eqb_neq _ _) E8), (proj2 (Nat.eqb_neq _ _) E4), Nat.mod_mul by lia. reflexivity.
  - replace (infer_word_size (length vs * 1)) with 1.
    + unfold byte_swap_words. cbn [Nat.leb orb]. unfold be_struct, le_struct.
      reflexivity.
    + unfold infer_word_size. rewrite Hk.
      assert (E8 : ((2 * k + 1) * 1) mod 8 <> 0) by (intros E; apply Nat.mod_divide in E; [destruct E as [c E]; lia|lia]).
      assert (E4 : ((2 * k + 1) * 1) mod 4 <> 0) by (intros E; apply Nat.mod_divide in E; [destruct E as [c E]; lia|lia]).
      assert (E2 : ((2 * k + 1) * 1) mod 2 <> 0) by (intros E; apply Nat.mod_divide in E; [destruct E as [c E]; lia|lia]).
      rewrite (proj2 (Nat.eqb_neq _ _) E8), (proj2 (Nat.eqb_neq _ _) E4), (proj2 (Nat.eqb_neq _ _) E2). reflexivity.
Qed.
Print Assumptions C31_uniform.
(** Refuted otherwise: the word size is guessed from the payload length, so an even number of 4-byte fields
    (two f32, a quaternion of f32 ...) is swapped as 8-byte words, and the fields change places. *)
Theorem C31_narrow_fields_refuted : forall a b rest,
  (a < 2 ^ 32)%N -> (b < 2 ^ 32)%N -> a <> b -> Nat.Even (length rest) ->
  let p := be_struct 4 (a :: b :: rest) in
  snd (process_incoming_payload p PodBe (length p)) <> le_struct 4 (a :: b :: rest).
Proof.
  intros a b rest Ha Hb Hab (k & Hk) p. subst p. unfold process_incoming_payload. cbn [check_encoding snd].
  rewrite be_struct_length. cbn [length].
  replace (infer_word_size (S (S (length rest)) * 4)) with 8.
  2:{ unfold infer_word_size. replace (S (S (length rest)) * 4) with ((k + 1) * 8) by lia.
      rewrite Nat.mod_mul by lia. reflexivity. }
  intros E. apply (f_equal (firstn 4)) in E.
  assert (G : firstn 4 (byte_swap_words (be_struct 4 (a :: b :: rest)) 8) = le_enc 4 b).
  { unfold byte_swap_words. rewrite be_struct_length. cbn [length].
    replace (S (S (length rest)) * 4) with ((k + 1) * 8) by lia. rewrite Nat.div_mul by lia.
    replace (k + 1) with (S k) by lia. cbn [Nat.leb orb].
    rewrite (proj2 (Nat.eqb_neq _ _)) by lia. cbn [swap_chunks].
    unfold be_struct. cbn [flat_map]. unfold be_enc. reflexivity. }
  rewrite G in E. unfold le_struct in E. cbn [flat_map] in E. cbn [le_enc app firstn] in E.
  apply Hab. rewrite <- (le_dec_enc 4 a), <- (le_dec_enc 4 b) by (cbn; lia).
  f_equal. cbn [le_enc]. congruence.
Qed.
Print Assumptions C31_narrow_fields_refuted.
Example C31_ex : let p := be_struct 8 [1; 513; 2 ^ 40]%N in
  length p = 24 /\ byte_swap_words p 8 = le_struct 8 [1; 513; 2 ^ 40]%N
  /\ byte_swap_words [1; 2; 3; 4; 5]%N 2 = [2; 1; 4; 3; 5]%N.
Proof. vm_compute. auto. Qed.
