(** Arithmetic and small list facts for the ring models. *)
From Verif.Base Require Import Prelude.
From Verif.Model Require Import RingMem.
Local Open Scope N_scope.

Lemma cap_pos k : 0 < cap k.
Proof. unfold cap. apply N.neq_0_lt_0, N.pow_nonzero; lia. Qed.

Lemma slot_mod k s : slot k s = s mod cap k.
Proof. unfold slot, cap. apply N.land_ones. Qed.

Lemma slot_lt k s : slot k s < cap k.
Proof. rewrite slot_mod. apply N.mod_lt. pose proof (cap_pos k); lia. Qed.

Lemma slot_inj k a b : slot k a = slot k b -> a <= b -> b < a + cap k -> a = b.
Proof.
  rewrite !slot_mod. pose proof (cap_pos k) as Hc. set (c := cap k) in *. clearbody c.
  intros He H1 H2.
  pose proof (N.div_mod a c ltac:(lia)) as Ha. pose proof (N.div_mod b c ltac:(lia)) as Hb.
  rewrite He in Ha.
  assert (a / c <= b / c) by (apply N.div_le_mono; lia).
  assert (b / c = a / c \/ a / c + 1 <= b / c) as [E|E] by lia.
  - rewrite E in Hb. lia.
  - assert (c * (a / c + 1) <= c * (b / c)) by (apply N.mul_le_mono_l; auto). lia.
Qed.

Lemma slot_neq k a b lo hi : lo <= a < hi -> lo <= b < hi -> hi <= lo + cap k -> a <> b -> slot k a <> slot k b.
Proof.
  intros Ha Hb Hh Hn He. destruct (N.le_gt_cases a b).
  - apply Hn. apply (slot_inj k); auto; lia.
  - apply Hn. symmetry. apply (slot_inj k); auto; lia.
Qed.

Lemma slot_add_cap k a : slot k (a + cap k) = slot k a.
Proof.
  rewrite !slot_mod. pose proof (cap_pos k).
  rewrite <- (N.mul_1_l (cap k)) at 1. apply N.mod_add. lia.
Qed.

Lemma upd_eq {A} (f : N -> A) i a : upd f i a i = a.
Proof. unfold upd. rewrite N.eqb_refl; auto. Qed.
Lemma upd_neq {A} (f : N -> A) i j a : j <> i -> upd f i a j = f j.
Proof. unfold upd. intros. destruct (N.eqb_spec j i); congruence. Qed.
Lemma updn_eq {A} (f : nat -> A) i a : updn f i a i = a.
Proof. unfold updn. rewrite Nat.eqb_refl; auto. Qed.
Lemma updn_neq {A} (f : nat -> A) i j a : j <> i -> updn f i a j = f j.
Proof. unfold updn. intros. destruct (Nat.eqb_spec j i); congruence. Qed.

Lemma wsub_ge a b : b <= a -> wsub a b = a - b.
Proof. unfold wsub; intros. destruct (N.leb_spec b a); lia. Qed.
Lemma wsub_zero a b : b <= a -> (wsub a b =? 0) = true -> a = b.
Proof. intros. rewrite wsub_ge in H0 by auto. apply N.eqb_eq in H0. lia. Qed.
Lemma wsub_nonzero a b : b <= a -> (wsub a b =? 0) = false -> b < a.
Proof. intros. rewrite wsub_ge in H0 by auto. apply N.eqb_neq in H0. lia. Qed.

Lemma set_word_length j w l : length (set_word j w l) = length l.
Proof. revert j; induction l; intros [|j]; cbn; auto. Qed.
Lemma set_word_firstn j w l : (j < length l)%nat -> firstn (S j) (set_word j w l) = firstn j l ++ [w].
Proof.
  revert j; induction l as [|x l IH]; intros [|j] Hj; cbn [length] in Hj; try lia.
  - destruct l; reflexivity.
  - cbn [set_word]. change (firstn (S (S j)) (x :: set_word j w l)) with (x :: firstn (S j) (set_word j w l)).
    rewrite IH by lia. reflexivity.
Qed.
Lemma firstn_snoc {A} (d : A) j l : (j < length l)%nat -> firstn (S j) l = firstn j l ++ [nth j l d].
Proof.
  revert j; induction l as [|x l IH]; intros [|j] Hj; cbn [length] in Hj; try lia; [reflexivity|].
  change (firstn (S (S j)) (x :: l)) with (x :: firstn (S j) l). rewrite IH by lia. reflexivity.
Qed.

Lemma nth_error_firstn {A} (l : list A) n i : (i < n)%nat -> nth_error (firstn n l) i = nth_error l i.
Proof. revert n i; induction l; intros [|n] [|i] H; cbn; auto; try lia. apply IHl; lia. Qed.

Lemma firstn_succ_nth {A} (l : list A) n a : nth_error l n = Some a -> firstn (S n) l = firstn n l ++ [a].
Proof.
  revert n; induction l as [|x l IH]; intros [|n] H; try discriminate.
  - injection H as ->. reflexivity.
  - change (firstn (S (S n)) (x :: l)) with (x :: firstn (S n) l). rewrite IH; auto.
Qed.

Lemma nth_error_snoc_last {A} (l : list A) a : nth_error (l ++ [a]) (length l) = Some a.
Proof. rewrite nth_error_app2 by lia. rewrite Nat.sub_diag. reflexivity. Qed.

Lemma nth_error_app_old {A} (l l' : list A) i a : nth_error l i = Some a -> nth_error (l ++ l') i = Some a.
Proof. intros H. rewrite nth_error_app1; auto. apply nth_error_Some. congruence. Qed.

Lemma nth_error_Some_lt {A} (l : list A) i a : nth_error l i = Some a -> (i < length l)%nat.
Proof. intros H. apply nth_error_Some. congruence. Qed.
