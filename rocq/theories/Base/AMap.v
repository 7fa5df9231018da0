(** Finite maps as association lists (the model of Rust's [HashMap]).
    Keys are compared with a boolean equality passed explicitly. *)
From Verif.Base Require Import Prelude.

Section AMap.
  Context {K V : Type} (eqb : K -> K -> bool).

  Fixpoint lookup (k : K) (m : list (K * V)) : option V :=
    match m with
    | [] => None
    | (k', v) :: r => if eqb k k' then Some v else lookup k r
    end.
  Definition remove (k : K) (m : list (K * V)) : list (K * V) :=
    filter (fun p => negb (eqb k (fst p))) m.
  Definition insert (k : K) (v : V) (m : list (K * V)) : list (K * V) :=
    (k, v) :: remove k m.
  Definition mem (k : K) (m : list (K * V)) : bool :=
    match lookup k m with Some _ => true | None => false end.
  Definition keys (m : list (K * V)) : list K := map fst m.

  Hypothesis eqb_spec : forall a b, eqb a b = true <-> a = b.

  Lemma eqb_refl' a : eqb a a = true.
  Proof. apply eqb_spec; auto. Qed.
  Lemma eqb_neq' a b : a <> b -> eqb a b = false.
  Proof. intros; destruct (eqb a b) eqn:E; auto. apply eqb_spec in E; contradiction. Qed.

  Lemma lookup_remove_eq k m : lookup k (remove k m) = None.
  Proof.
    unfold remove. induction m as [|[k' v] r IH]; simpl; auto.
    destruct (eqb k k') eqn:E; simpl; auto. rewrite E; auto.
  Qed.
  Lemma lookup_remove_neq k k' m : k <> k' -> lookup k (remove k' m) = lookup k m.
  Proof.
    intros Hn. unfold remove. induction m as [|[k2 v] r IH]; simpl; auto.
    destruct (eqb k' k2) eqn:E; simpl.
    - apply eqb_spec in E; subst. rewrite (eqb_neq' k k2) by auto. auto.
    - rewrite IH; reflexivity.
  Qed.
  Lemma lookup_insert_eq k v m : lookup k (insert k v m) = Some v.
  Proof. unfold insert; simpl. rewrite eqb_refl'; auto. Qed.
  Lemma lookup_insert_neq k k' v m : k <> k' -> lookup k (insert k' v m) = lookup k m.
  Proof. intros; unfold insert; simpl. rewrite eqb_neq' by auto. apply lookup_remove_neq; auto. Qed.

  Lemma lookup_In k v m : lookup k m = Some v -> In (k, v) m.
  Proof.
    induction m as [|[k' v'] r IH]; simpl; try discriminate.
    destruct (eqb k k') eqn:E; intros.
    - apply eqb_spec in E; inv H; auto.
    - auto.
  Qed.
  Lemma In_lookup k v m : NoDup (keys m) -> In (k, v) m -> lookup k m = Some v.
  Proof.
    induction m as [|[k' v'] r IH]; simpl; try tauto.
    intros Hnd [Heq|Hin]; inv Hnd.
    - inv Heq. rewrite eqb_refl'; auto.
    - rewrite eqb_neq'; auto. intros ->. apply H1. apply in_map_iff; exists (k', v); auto.
  Qed.
  Lemma keys_remove_In k k' m : In k (keys (remove k' m)) <-> k <> k' /\ In k (keys m).
  Proof.
    unfold keys, remove. rewrite !in_map_iff. split.
    - intros ([a b] & <- & H). apply filter_In in H; simpl in *. destruct H.
      apply negb_true_iff in H0. split; [|exists (a,b); auto].
      intros ->. rewrite eqb_refl' in H0; discriminate.
    - intros (Hn & [a b] & <- & H). exists (a, b); split; auto. apply filter_In; split; auto.
      simpl. rewrite eqb_neq'; auto.
  Qed.
  Lemma NoDup_remove_keys k m : NoDup (keys m) -> NoDup (keys (remove k m)).
  Proof.
    unfold keys, remove. induction m as [|[a b] r IH]; simpl; auto.
    intros Hnd; inv Hnd. destruct (eqb k a) eqn:E; simpl; auto.
    constructor; auto. intros Hin. apply H1. apply in_map_iff in Hin. destruct Hin as ([x y] & <- & Hin).
    apply filter_In in Hin. apply in_map_iff; exists (x, y); tauto.
  Qed.
  Lemma NoDup_insert_keys k v m : NoDup (keys m) -> NoDup (keys (insert k v m)).
  Proof.
    intros; unfold insert; simpl. constructor.
    - rewrite keys_remove_In. tauto.
    - apply NoDup_remove_keys; auto.
  Qed.
  Lemma lookup_None_keys k m : lookup k m = None <-> ~ In k (keys m).
  Proof.
    induction m as [|[a b] r IH]; simpl; [tauto|].
    destruct (eqb k a) eqn:E.
    - apply eqb_spec in E; subst. split; [discriminate|]. intros H; exfalso; auto.
    - rewrite IH. split; [|tauto]. intros H [->|]; auto. rewrite eqb_refl' in E; discriminate.
  Qed.
  Lemma remove_length k m : length (remove k m) <= length m.
  Proof. clear eqb_spec. unfold remove. induction m as [|p r IH]; simpl; auto. destruct (negb _); simpl; lia. Qed.
  Lemma remove_absent k m : lookup k m = None -> remove k m = m.
  Proof.
    unfold remove. induction m as [|[a b] r IH]; simpl; auto.
    destruct (eqb k a); simpl; [discriminate|]. intros; f_equal; auto.
  Qed.
  Lemma insert_length_absent k v m : lookup k m = None -> length (insert k v m) = S (length m).
  Proof. intros; unfold insert; simpl. rewrite remove_absent; auto. Qed.
  Lemma remove_present_length k m v :
    NoDup (keys m) -> lookup k m = Some v -> S (length (remove k m)) = length m.
  Proof.
    unfold remove. induction m as [|[a b] r IH]; simpl; try discriminate.
    intros Hnd; inv Hnd. destruct (eqb k a) eqn:E; simpl.
    - intros _. f_equal. apply eqb_spec in E; subst a. fold (remove k r).
      rewrite remove_absent; auto. apply lookup_None_keys; auto.
    - intros; f_equal; auto.
  Qed.
  Lemma insert_length_present k v v' m :
    NoDup (keys m) -> lookup k m = Some v' -> length (insert k v m) = length m.
  Proof. intros; unfold insert; simpl. eapply remove_present_length; eauto. Qed.
  Lemma insert_length_le k v m : length (insert k v m) <= S (length m).
  Proof. clear eqb_spec. unfold insert; simpl. apply le_n_S, remove_length. Qed.
  Lemma In_insert k v m p : In p (insert k v m) -> p = (k, v) \/ (In p m /\ fst p <> k).
  Proof.
    unfold insert, remove; simpl. intros [<-|H]; auto. right. apply filter_In in H; destruct H.
    split; auto. intros E; rewrite E in *; rewrite eqb_refl' in H0; discriminate.
  Qed.
  Lemma In_remove k m p : In p (remove k m) <-> In p m /\ fst p <> k.
  Proof.
    unfold remove; rewrite filter_In. split; intros [H H0]; split; auto.
    - intros E; rewrite E in *; rewrite eqb_refl' in H0; discriminate.
    - rewrite eqb_neq'; auto.
  Qed.
End AMap.

Lemma Neqb_spec' : forall a b : N, (a =? b)%N = true <-> a = b.
Proof. intros; apply N.eqb_eq. Qed.
Lemma nateqb_spec' : forall a b : nat, (a =? b)%nat = true <-> a = b.
Proof. intros; apply Nat.eqb_eq. Qed.
Definition pair_eqb (a b : N * N) : bool := ((fst a =? fst b) && (snd a =? snd b))%N.
Lemma pair_eqb_spec : forall a b, pair_eqb a b = true <-> a = b.
Proof.
  intros [a b] [c d]; unfold pair_eqb; simpl. rewrite andb_true_iff, !N.eqb_eq.
  split; [intros [-> ->]; auto | intros H; inv H; auto].
Qed.
