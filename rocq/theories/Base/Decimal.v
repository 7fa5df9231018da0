(** Decimal text of a number, as Rust's [Display] for unsigned integers prints it. *)
From Verif.Base Require Import Prelude Bytes.
Local Open Scope N_scope.

Fixpoint dec_fuel (f : nat) (n : N) : bytes :=
  match f with
  | O => []
  | S f' => if n <? 10 then [48 + n] else dec_fuel f' (n / 10) ++ [48 + n mod 10]
  end.
Definition dec (n : N) : bytes := dec_fuel (S (N.size_nat n)) n.
Definition dec_val (l : bytes) : N := fold_left (fun a d => a * 10 + (d - 48)) l 0.

Lemma dec_fuel_val f : forall n, n < 2 ^ N.of_nat f -> dec_val (dec_fuel (S f) n) = n.
Proof.
  induction f as [|f IH]; intros n H.
  - assert (n = 0) as -> by (cbn in H; lia). reflexivity.
  - change (dec_fuel (S (S f)) n) with (if n <? 10 then [48 + n] else dec_fuel (S f) (n / 10) ++ [48 + n mod 10]).
    destruct (n <? 10) eqn:E.
    + unfold dec_val. cbn [fold_left]. lia.
    + unfold dec_val. rewrite fold_left_app. cbn [fold_left]. fold (dec_val (dec_fuel (S f) (n / 10))).
      rewrite IH.
      * pose proof (N.div_mod n 10). pose proof (N.mod_lt n 10). lia.
      * apply N.div_lt_upper_bound; [discriminate|]. rewrite Nat2N.inj_succ, N.pow_succ_r' in H. lia.
Qed.
Lemma size_bound n : n < 2 ^ N.of_nat (N.size_nat n).
Proof.
  rewrite <- (N2Nat.id (N.of_nat (N.size_nat n))), Nat2N.id.
  assert (E : N.of_nat (N.size_nat n) = N.size n).
  { destruct n as [|p]; [reflexivity|]. cbn. induction p; cbn in *; rewrite ?Nat2N.inj_succ, ?IHp; cbn; try lia. }
  rewrite E. apply N.size_gt.
Qed.
Lemma dec_val_dec n : dec_val (dec n) = n.
Proof. apply dec_fuel_val, size_bound. Qed.
Lemma dec_inj a b : dec a = dec b -> a = b.
Proof. intros H. rewrite <- (dec_val_dec a), <- (dec_val_dec b), H. reflexivity. Qed.
