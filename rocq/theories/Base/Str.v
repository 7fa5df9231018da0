(** String literals as byte strings (Rust [&str] is its UTF-8 bytes). *)
From Coq Require Import String Ascii.
From Verif.Base Require Import Prelude Bytes.

Definition bs (s : string) : bytes := List.map N_of_ascii (list_ascii_of_string s).

Fixpoint beqb (a b : bytes) : bool :=
  match a, b with
  | [], [] => true
  | x :: a', y :: b' => (x =? y)%N && beqb a' b'
  | _, _ => false
  end.
Lemma beqb_spec : forall a b, beqb a b = true <-> a = b.
Proof.
  induction a as [|x a IH]; intros [|y b]; cbn [beqb]; split; intros H; try discriminate; auto.
  - apply andb_prop in H as [H1 H2]. apply N.eqb_eq in H1. apply IH in H2. congruence.
  - injection H as -> ->. rewrite N.eqb_refl. apply IH; auto.
Qed.
