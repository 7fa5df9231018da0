(** Little-endian integers as byte lists (Rust's [to_le_bytes] / [from_le_bytes]).
    A byte is an [N] below 256; a byte string is a [list N]. *)
From Verif.Base Require Import Prelude.
Open Scope N_scope.

Definition bytes := list N.
Definition byte_ok (b : N) : Prop := b < 256.
Definition bytes_ok (l : bytes) : Prop := Forall byte_ok l.

(** [k] little-endian bytes of [n]; like a Rust [as uK] cast, high bits are dropped. *)
Fixpoint le_enc (k : nat) (n : N) : bytes :=
  match k with
  | O => []
  | S k' => n mod 256 :: le_enc k' (n / 256)
  end.

Fixpoint le_dec (l : bytes) : N :=
  match l with
  | [] => 0
  | b :: r => b + 256 * le_dec r
  end.

(** [buf[i .. i+k]] (total; short if the buffer is short). *)
Definition slice (i k : nat) (l : bytes) : bytes := firstn k (skipn i l).

Definition get_le (i k : nat) (l : bytes) : N := le_dec (slice i k l).

Lemma le_enc_length k n : length (le_enc k n) = k.
Proof. revert n; induction k; simpl; auto. Qed.

Lemma le_enc_ok k n : bytes_ok (le_enc k n).
Proof.
  revert n; induction k; intros; simpl; constructor; [|apply IHk].
  unfold byte_ok; apply N.mod_lt; lia.
Qed.

Lemma pow256_succ k : 256 ^ N.of_nat (S k) = 256 * 256 ^ N.of_nat k.
Proof. rewrite Nat2N.inj_succ, N.pow_succ_r'; reflexivity. Qed.

Lemma le_dec_enc_mod k n : le_dec (le_enc k n) = n mod 256 ^ N.of_nat k.
Proof.
  revert n; induction k; intros; simpl le_enc; simpl le_dec.
  - rewrite N.mod_1_r; reflexivity.
  - rewrite IHk, pow256_succ.
    rewrite N.mod_mul_r by (try lia; apply N.pow_nonzero; lia). lia.
Qed.

Lemma le_dec_enc k n : n < 256 ^ N.of_nat k -> le_dec (le_enc k n) = n.
Proof. intros; rewrite le_dec_enc_mod; apply N.mod_small; auto. Qed.

Lemma le_dec_bound l : bytes_ok l -> le_dec l < 256 ^ N.of_nat (length l).
Proof.
  induction 1; cbn [length le_dec]; [reflexivity|].
  rewrite pow256_succ. unfold byte_ok in H. nia.
Qed.

Lemma le_enc_dec l : bytes_ok l -> le_enc (length l) (le_dec l) = l.
Proof.
  induction 1; cbn [length le_enc le_dec]; [reflexivity|].
  unfold byte_ok in H. f_equal; [lia|].
  replace ((x + 256 * le_dec l) / 256) with (le_dec l) by lia; auto.
Qed.

Lemma slice_app_l i k a b : (i + k <= length a)%nat -> slice i k (a ++ b) = slice i k a.
Proof.
  intros; unfold slice. rewrite skipn_app, firstn_app.
  replace (i - length a)%nat with 0%nat by lia.
  rewrite skipn_length. replace (k - (length a - i))%nat with 0%nat by lia.
  rewrite firstn_O, app_nil_r; reflexivity.
Qed.

Lemma slice_app_r i k a b : (length a <= i)%nat -> slice i k (a ++ b) = slice (i - length a) k b.
Proof.
  intros; unfold slice. rewrite skipn_app, (skipn_all2 a) by lia. reflexivity.
Qed.

Lemma slice_all k l : length l = k -> slice 0 k l = l.
Proof. intros <-; unfold slice; simpl; apply firstn_all. Qed.

Lemma slice_length i k l : (i + k <= length l)%nat -> length (slice i k l) = k.
Proof. intros; unfold slice; rewrite firstn_length, skipn_length; lia. Qed.

Lemma bytes_ok_app a b : bytes_ok (a ++ b) <-> bytes_ok a /\ bytes_ok b.
Proof. apply Forall_app. Qed.

Lemma bytes_ok_firstn k l : bytes_ok l -> bytes_ok (firstn k l).
Proof. intros H; unfold bytes_ok in *. rewrite <- (firstn_skipn k l) in H. apply Forall_app in H; tauto. Qed.
Lemma bytes_ok_skipn k l : bytes_ok l -> bytes_ok (skipn k l).
Proof. intros H; unfold bytes_ok in *. rewrite <- (firstn_skipn k l) in H. apply Forall_app in H; tauto. Qed.
Lemma bytes_ok_slice i k l : bytes_ok l -> bytes_ok (slice i k l).
Proof. intros; apply bytes_ok_firstn, bytes_ok_skipn; auto. Qed.
