From Verif.Base Require Import Prelude.
From Coq Require Import Relations Permutation.
From Verif.Model Require Import DepGraph.
From Verif.Spec Require Import DepGraphSpec.

Lemma fupd_eq {A} (f : nat -> A) i x : fupd f i x i = x. Proof. unfold fupd. rewrite Nat.eqb_refl. auto. Qed.
Lemma fupd_neq {A} (f : nat -> A) i x j : j <> i -> fupd f i x j = f j.
Proof. unfold fupd. intros. rewrite (proj2 (Nat.eqb_neq _ _)); auto. Qed.

Notation cnt := (count_occ Nat.eq_dec).

Lemma cnt_app l1 l2 x : cnt (l1 ++ l2) x = cnt l1 x + cnt l2 x. Proof. apply count_occ_app. Qed.
Lemma cnt_perm l1 l2 x : Permutation l1 l2 -> cnt l1 x = cnt l2 x.
Proof. intros P. apply (Permutation_count_occ Nat.eq_dec). auto. Qed.
Lemma cnt_pos l x : 0 < cnt l x <-> In x l. Proof. symmetry. apply count_occ_In. Qed.
Lemma cnt_zero l x : cnt l x = 0 <-> ~ In x l. Proof. symmetry. apply count_occ_not_In. Qed.

(** ** Finite sets closed under predecessors contain a cycle *)
Lemma finite_cycle (n : nat) (r : nat -> nat -> Prop) (pred : nat -> nat) (S : nat -> Prop) x :
  (forall i, S i -> i < n /\ S (pred i) /\ r (pred i) i) -> S x -> exists i, S i /\ on_cycle r i.
Proof.
  intros H Sx. pose (it := fun k => Nat.iter k pred x).
  assert (IS : forall k, S (it k)) by (induction k as [|k IH]; [exact Sx|]; cbn; apply H; auto).
  assert (IR : forall k d, clos_trans nat r (it (k + Datatypes.S d)) (it k)).
  { intros k d. induction d as [|d IH].
    - rewrite Nat.add_1_r. apply t_step. cbn. apply H. apply IS.
    - apply t_trans with (it (k + Datatypes.S d)); auto. replace (k + Datatypes.S (Datatypes.S d)) with (Datatypes.S (k + Datatypes.S d)) by lia. apply t_step. cbn. apply H. apply IS. }
  assert (ND : ~ NoDup (map it (seq 0 (Datatypes.S n)))).
  { intros N. assert (L : length (map it (seq 0 (Datatypes.S n))) <= length (seq 0 n)).
    { apply NoDup_incl_length; auto. intros y Hy. apply in_map_iff in Hy as (k & <- & _). apply in_seq. destruct (H _ (IS k)). lia. }
    rewrite map_length, !seq_length in L. lia. }
  assert (D : exists a b, a < b /\ it a = it b).
  { clear - ND. revert ND. generalize (Datatypes.S n) as m. generalize 0 as s. intros s m. revert s. induction m as [|m IH]; intros s ND.
    - exfalso. apply ND. constructor.
    - cbn [seq map] in ND. destruct (in_dec Nat.eq_dec (it s) (map it (seq (Datatypes.S s) m))) as [I|I].
      + apply in_map_iff in I as (b & E & B). apply in_seq in B. exists s, b. split; [lia|auto].
      + apply (IH (Datatypes.S s)). intros N. apply ND. constructor; auto. }
  destruct D as (a & b & L & E). exists (it a). split; [apply IS|]. red. specialize (IR a (b - a - 1)).
  replace (a + Datatypes.S (b - a - 1)) with b in IR by lia. rewrite <- E in IR. auto.
Qed.

Lemma filter_length_le {A} (f : A -> bool) l : length (filter f l) <= length l.
Proof. induction l as [|x l IH]; cbn; auto. destruct (f x); cbn; lia. Qed.

(** ** Kahn *)
Section Kahn.
  Variables (e : nat -> list nat) (n : nat).
  Definition left_ (st : kahn) : list nat := filter (k_remaining st) (seq 0 n).
  Record kinv (st : kahn) : Prop := KInv {
    ki_deg : forall i, k_degree st i = cnt (flat_map e (left_ st)) i;
    ki_cnt : k_processed st + length (left_ st) = n }.

  Lemma lower_all_ok l : forall d, (forall y, cnt l y <= d y) -> exists g, lower_all d l = Some g /\ forall y, g y = d y - cnt l y.
  Proof.
    induction l as [|x r IH]; intros d H; cbn [lower_all].
    - exists d. split; auto. intros y. cbn. lia.
    - pose proof (H x) as Hx. cbn [count_occ] in Hx. destruct (Nat.eq_dec x x); [|congruence]. destruct (d x) as [|k] eqn:E; [lia|].
      destruct (IH (fupd d x k)) as (g & G1 & G2).
      { intros y. specialize (H y). cbn [count_occ] in H. destruct (Nat.eq_dec x y) as [<-|]; [rewrite fupd_eq; lia|rewrite fupd_neq; auto]. }
      exists g. split; auto. intros y. rewrite G2. cbn [count_occ]. destruct (Nat.eq_dec x y) as [<-|]; [rewrite fupd_eq; lia|rewrite fupd_neq; auto].
  Qed.

  Lemma filter_remove (f : nat -> bool) x l : NoDup l -> In x l -> f x = true ->
    Permutation (filter f l) (x :: filter (fupd f x false) l).
  Proof.
    induction l as [|y l IH]; intros N I F; [destruct I|]. inv N. cbn [filter]. destruct (Nat.eq_dec y x) as [->|Hn].
    - rewrite F, fupd_eq. constructor. erewrite filter_ext_in; [reflexivity|]. intros a Ha. rewrite fupd_neq; auto. intros ->; auto.
    - destruct I as [->|I]; [congruence|]. rewrite fupd_neq by auto. destruct (f y); auto. rewrite IH by auto. apply perm_swap.
  Qed.

  Lemma retire_ok step : forall st, kinv st -> NoDup step -> (forall x, In x step -> In x (left_ st)) ->
    exists st', retire e st step = Some st' /\ kinv st' /\ Permutation (left_ st) (step ++ left_ st').
  Proof.
    induction step as [|x r IH]; intros st [D C] N I; cbn [retire].
    - exists st. split; auto. split; [split; auto|]. auto.
    - inv N. assert (Ix : In x (left_ st)) by (apply I; left; auto). pose proof Ix as Ix'. apply filter_In in Ix' as [Ix1 Ix2].
      assert (P : Permutation (left_ st) (x :: filter (fupd (k_remaining st) x false) (seq 0 n))) by (apply filter_remove; auto; apply seq_NoDup).
      assert (Q : forall y, k_degree st y = cnt (e x) y + cnt (flat_map e (filter (fupd (k_remaining st) x false) (seq 0 n))) y).
      { intros y. rewrite D. rewrite (cnt_perm _ (flat_map e (x :: filter (fupd (k_remaining st) x false) (seq 0 n)))) by (apply Permutation_flat_map; auto).
        cbn [flat_map]. apply cnt_app. }
      destruct (lower_all_ok (e x) (k_degree st)) as (g & G1 & G2); [intros y; rewrite Q; lia|]. rewrite G1.
      destruct (IH (Kahn g (fupd (k_remaining st) x false) (S (k_processed st)))) as (st' & R1 & R2 & R3); auto.
      { split; cbn [k_degree k_processed]; unfold left_; cbn [k_remaining].
        - intros i. rewrite G2, Q. lia.
        - apply Permutation_length in P. cbn [length] in P. lia. }
      { intros y Hy. assert (In y (left_ st)) by (apply I; right; auto). apply (Permutation_in _ P) in H. destruct H as [->|H]; [contradiction|auto]. }
      exists st'. split; auto. split; auto. rewrite P. cbn [app]. constructor. exact R3.
  Qed.

  Lemma ready_spec st i : In i (ready_nodes n st) <-> In i (left_ st) /\ k_degree st i = 0.
  Proof. unfold ready_nodes, left_. rewrite !filter_In, andb_true_iff, Nat.eqb_eq. tauto. Qed.

  Lemma loop_ok fuel : forall st, kinv st -> length (left_ st) < fuel ->
    exists steps st', kahn_loop fuel e n st = Some (steps, st') /\ kinv st' /\ ready_nodes n st' = [] /\
      Permutation (left_ st) (concat steps ++ left_ st') /\
      (forall p i, In p (left_ st) -> In i (e p) -> In i (concat steps) -> exists a b, in_step steps a p /\ in_step steps b i /\ a < b) /\
      (forall a i, in_step steps (S a) i -> exists p, In p (left_ st) /\ In i (e p) /\ in_step steps a p).
  Proof.
    induction fuel as [|f IH]; intros st K L; [lia|]. cbn [kahn_loop]. destruct (ready_nodes n st) as [|x0 r0] eqn:E.
    - exists [], st. split; auto. split; auto. split; auto. split; [reflexivity|]. split; [intros p i _ _ []|].
      intros a i (l & A & _). destruct a; discriminate.
    - set (step := x0 :: r0) in *. assert (SP : forall i, In i step <-> In i (left_ st) /\ k_degree st i = 0) by (intros i; rewrite <- E; apply ready_spec).
      destruct (retire_ok step st K) as (st1 & R1 & R2 & R3).
      { rewrite <- E. unfold ready_nodes. apply NoDup_filter, seq_NoDup. }
      { intros x Hx. apply SP in Hx. tauto. }
      rewrite R1. assert (L1 : length (left_ st1) < f). { apply Permutation_length in R3. rewrite app_length in R3. cbn [step length] in R3. lia. }
      destruct (IH st1 R2 L1) as (steps & st' & E1 & E2 & E3 & E4 & E5 & E6). rewrite E1. exists (step :: steps), st'.
      assert (ND : NoDup (step ++ left_ st1)). { eapply Permutation_NoDup; [exact R3|]. apply NoDup_filter, seq_NoDup. }
      split; auto. split; auto. split; auto. split; [|split].
      + cbn [concat]. rewrite R3, E4, app_assoc. auto.
      + intros p i Hp He Hi. apply (Permutation_in _ R3) in Hp. cbn [concat] in Hi.
        assert (NS : ~ In i step). { intros X. apply SP in X as [X1 X2]. rewrite (ki_deg _ K) in X2. apply cnt_zero in X2. apply X2. apply in_flat_map. exists p. split; auto. apply (Permutation_in _ (Permutation_sym R3)). auto. }
        apply in_app_iff in Hi as [Hi|Hi]; [contradiction|]. apply in_app_iff in Hp as [Hp|Hp].
        * apply in_concat in Hi as (l & Hl & Hi). apply In_nth_error in Hl as (b & Hb). exists 0, (S b).
          split; [exists step; auto|]. split; [exists l; auto|lia].
        * destruct (E5 p i Hp He Hi) as (a & b & (la & A1 & A2) & (lb & B1 & B2) & Lt). exists (S a), (S b).
          split; [exists la; auto|]. split; [exists lb; auto|lia].
      + intros a i (l & A & Hi). cbn [nth_error] in A. destruct a as [|a].
        * (* first step after this one *)
          destruct steps as [|s1 rest]; [discriminate|]. cbn in A. inv A.
          assert (I1 : In i (left_ st1)). { apply (Permutation_in _ (Permutation_sym E4)). cbn [concat]. rewrite !in_app_iff; auto. }
          assert (I0 : In i (left_ st)). { apply (Permutation_in _ (Permutation_sym R3)). rewrite in_app_iff; auto. }
          assert (NS : ~ In i step). { clear - ND I1. intros X. apply in_split in X as (u & v & ->). rewrite <- app_assoc in ND. cbn in ND. apply NoDup_remove_2 in ND. apply ND. rewrite !in_app_iff. auto. }
          assert (D0 : k_degree st i <> 0). { intros X. apply NS, SP. auto. }
          assert (D1 : k_degree st1 i = 0).
          { (* i is in the first step of the loop from st1 *)
            destruct f as [|f']; [lia|]. cbn [kahn_loop] in E1. destruct (ready_nodes n st1) as [|y r] eqn:F; [inv E1|].
            destruct (retire e st1 (y :: r)); [|discriminate]. destruct (kahn_loop f' e n k) as [[? ?]|]; [|discriminate]. inv E1.
            assert (X : In i (ready_nodes n st1)) by (rewrite F; auto). apply ready_spec in X. tauto. }
          rewrite (ki_deg _ K) in D0. rewrite (ki_deg _ R2) in D1.
          assert (X : In i (flat_map e (left_ st))) by (apply cnt_pos; lia). apply in_flat_map in X as (p & P1 & P2).
          exists p. split; auto. split; auto. exists step. split; auto. apply (Permutation_in _ R3) in P1. apply in_app_iff in P1 as [P1|P1]; auto.
          exfalso. apply cnt_zero in D1. apply D1, in_flat_map. eauto.
        * destruct (E6 a i) as (p & P1 & P2 & (lp & P3 & P4)); [exists l; auto|]. exists p. split; [|split; auto; exists lp; auto].
          apply (Permutation_in _ (Permutation_sym R3)), in_app_iff; auto.
  Qed.

  Hypothesis range : forall p i, p < n -> In i (e p) -> i < n.

  Lemma kinit : kinv (Kahn (in_degrees e n) (fun _ => true) 0).
  Proof.
    assert (E : left_ (Kahn (in_degrees e n) (fun _ => true) 0) = seq 0 n).
    { unfold left_. cbn. generalize (seq 0 n). induction l as [|x l IH]; cbn; auto. rewrite IH. auto. }
    split; rewrite E; cbn; [reflexivity|apply seq_length].
  Qed.

  Lemma in_left st i : In i (left_ st) -> i < n. Proof. intros H. apply filter_In in H as [H _]. apply in_seq in H. lia. Qed.

  Lemma steps_acyclic steps (r : nat -> nat -> Prop) : NoDup (concat steps) ->
    (forall p i, r p i -> exists a b, in_step steps a p /\ in_step steps b i /\ a < b) -> acyclic r.
  Proof.
    intros N H. assert (U : forall i a b, in_step steps a i -> in_step steps b i -> a = b).
    { clear - N. induction steps as [|s l IH]; intros i a b (la & A1 & A2) (lb & B1 & B2); [destruct a; discriminate|].
      cbn [concat] in N. assert (N2 : NoDup (concat l)). { clear - N. induction s; auto. inv N. auto. }
      assert (X : forall k lk, nth_error l k = Some lk -> In i lk -> ~ In i s).
      { intros k lk K1 K2 Hs. apply in_split in Hs as (u & v & ->). rewrite <- app_assoc in N. cbn in N. apply NoDup_remove_2 in N. apply N. rewrite !in_app_iff. right; right. apply in_concat. exists lk. split; auto. eapply nth_error_In; eauto. }
      destruct a, b; cbn [nth_error] in *; auto.
      - inv A1. exfalso. eapply X; eauto.
      - inv B1. exfalso. eapply X; eauto.
      - f_equal. eapply IH; eauto; eexists; eauto. }
    assert (T : forall p i, clos_trans nat r p i -> exists a b, in_step steps a p /\ in_step steps b i /\ a < b).
    { intros p i C. induction C as [p i R|p q i _ (a & b & A & B & L) _ (a' & b' & A' & B' & L')]; auto.
      exists a, b'. split; auto. split; auto. pose proof (U _ _ _ B A'). lia. }
    intros i C. destruct (T _ _ C) as (a & b & A & B & L). pose proof (U _ _ _ A B). lia.
  Qed.

  Lemma sort_full :
    match parallel_sort e n with
    | GSteps steps =>
        Permutation (concat steps) (seq 0 n) /\
        (forall p i, edge e n p i -> exists a b, in_step steps a p /\ in_step steps b i /\ a < b) /\
        (forall a i, in_step steps (S a) i -> exists p, edge e n p i /\ in_step steps a p) /\
        acyclic (edge e n)
    | GCycle involved => (exists i, on_cycle (edge e n) i) /\ (forall i, on_cycle (edge e n) i -> In i involved)
    | GPanic => False
    end.
  Proof.
    unfold parallel_sort. destruct (loop_ok (S n) _ kinit) as (steps & st & E & K & RN & P & O & T).
    { unfold left_. apply Nat.lt_succ_r. etransitivity; [apply filter_length_le|]. rewrite seq_length. auto. }
    rewrite E. assert (L0 : left_ (Kahn (in_degrees e n) (fun _ => true) 0) = seq 0 n).
    { unfold left_. cbn. generalize (seq 0 n). induction l as [|x l IH]; cbn; auto. rewrite IH. auto. }
    rewrite L0 in *.
    assert (PRED : forall i, In i (left_ st) -> exists p, In p (left_ st) /\ In i (e p)).
    { intros i Hi. assert (D : k_degree st i <> 0). { intros X. assert (Y : In i (ready_nodes n st)) by (apply ready_spec; auto). rewrite RN in Y. destruct Y. }
      rewrite (ki_deg _ K) in D. assert (X : In i (flat_map e (left_ st))) by (apply cnt_pos; lia). apply in_flat_map in X. auto. }
    destruct (k_processed st <? n) eqn:F.
    - apply Nat.ltb_lt in F. pose proof (ki_cnt _ K) as C. fold (left_ st).
      split.
      + assert (NE : exists x, In x (left_ st)). { destruct (left_ st) as [|x l]; [cbn in C; lia|exists x; left; auto]. }
        destruct NE as (x & Hx).
        pose (pred := fun i => match find (fun p => existsb (Nat.eqb i) (e p)) (left_ st) with Some p => p | None => 0 end).
        destruct (finite_cycle n (edge e n) pred (fun i => In i (left_ st)) x) as (i & _ & Y); [|exact Hx|eauto].
        intros i Hi. split; [apply (in_left st); auto|]. unfold pred. destruct (find _ (left_ st)) as [p|] eqn:Fi.
        * apply find_some in Fi as [A B]. apply existsb_exists in B as (y & B1 & B2). apply Nat.eqb_eq in B2. subst y. split; auto. split; auto. apply (in_left st); auto.
        * exfalso. destruct (PRED i Hi) as (p & A & B). eapply find_none in Fi; [|exact A]. cbn in Fi. apply Bool.not_true_iff_false in Fi. apply Fi. apply existsb_exists. exists i. split; auto. apply Nat.eqb_refl.
      + (* nodes already sorted are on no cycle *)
        intros i Cy. assert (Hi : i < n). { assert (Z : forall a b, clos_trans nat (edge e n) a b -> b < n). { intros a b Z. induction Z as [a b [Q1 Q2]|]; eauto. } eauto. }
        destruct (in_dec Nat.eq_dec i (left_ st)) as [|NL]; auto. exfalso.
        assert (IC : In i (concat steps)). { assert (X : In i (seq 0 n)) by (apply in_seq; lia). apply (Permutation_in _ P) in X. apply in_app_iff in X as [X|X]; [auto|contradiction]. }
        assert (NC : NoDup (concat steps)). { assert (X : NoDup (concat steps ++ left_ st)) by (eapply Permutation_NoDup; [exact P|apply seq_NoDup]). clear - X. induction (concat steps); [constructor|]. inv X. constructor; auto. rewrite in_app_iff in H1. tauto. }
        assert (BACK : forall p j, edge e n p j -> In j (concat steps) -> In p (concat steps)).
        { intros p j [Q1 Q2] Hj. assert (X : In p (seq 0 n)) by (apply in_seq; lia). destruct (O p j X Q2 Hj) as (a & b & (la & A1 & A2) & _). apply in_concat. exists la. split; auto. eapply nth_error_In; eauto. }
        assert (AC : acyclic (fun p j => edge e n p j /\ In j (concat steps))).
        { apply steps_acyclic with steps; auto. intros p j [[Q1 Q2] Q3]. apply O; auto. apply in_seq. lia. }
        assert (G : forall u v, clos_trans nat (edge e n) u v -> In v (concat steps) -> clos_trans nat (fun p j => edge e n p j /\ In j (concat steps)) u v).
        { intros u v H. apply clos_trans_tn1 in H. induction H as [y R|y z R _ IH]; intros Iv; [apply t_step; auto|].
          apply t_trans with y; [apply IH; eapply BACK; eauto|apply t_step; auto]. }
        apply (AC i). red. apply G; auto.
    - apply Nat.ltb_ge in F. pose proof (ki_cnt _ K) as C. assert (L : left_ st = []) by (destruct (left_ st); auto; cbn in C; lia). rewrite L, app_nil_r in P.
      assert (NC : NoDup (concat steps)) by (eapply Permutation_NoDup; [exact P|apply seq_NoDup]).
      assert (ORD : forall p i, edge e n p i -> exists a b, in_step steps a p /\ in_step steps b i /\ a < b).
      { intros p i [Q1 Q2]. apply O; auto; [apply in_seq; lia|]. apply (Permutation_in _ P), in_seq. specialize (range p i Q1 Q2). lia. }
      split; [symmetry; auto|]. split; auto. split.
      + intros a i Hi. destruct (T a i Hi) as (p & P1 & P2 & P3). exists p. split; auto. split; auto. apply in_seq in P1. lia.
      + eapply steps_acyclic; eauto.
  Qed.
End Kahn.

Lemma sort_correct e n : (forall p i, p < n -> In i (e p) -> i < n) ->
    match parallel_sort e n with
    | GSteps steps =>
        Permutation (concat steps) (seq 0 n) /\
        (forall p i, edge e n p i -> exists a b, in_step steps a p /\ in_step steps b i /\ a < b) /\
        acyclic (edge e n)
    | GCycle involved => (exists i, on_cycle (edge e n) i) /\ (forall i, on_cycle (edge e n) i -> In i involved)
    | GPanic => False
    end.
Proof. intros H. pose proof (sort_full e n H) as S. destruct (parallel_sort e n); auto. tauto. Qed.

(** ** The edges *)
Lemma add_edge_in i e producer p j : In j (add_edge i e producer p) <-> In j (e p) \/ (p = producer /\ j = i /\ producer <> i).
Proof.
  unfold add_edge. destruct (Nat.eqb_spec producer i) as [->|Hn]; cbn [orb].
  - split; auto. intros [H|(_ & _ & H)]; [auto|congruence].
  - destruct (existsb (Nat.eqb i) (e producer)) eqn:X.
    + apply existsb_exists in X as (y & Y1 & Y2). apply Nat.eqb_eq in Y2. subst y. split; auto. intros [H|(-> & -> & _)]; auto.
    + destruct (Nat.eq_dec p producer) as [->|Hp].
      * rewrite fupd_eq, in_app_iff. cbn. intuition.
      * rewrite fupd_neq by auto. intuition.
Qed.
Lemma add_edges_in i l : forall e p j, In j (fold_left (add_edge i) l e p) <-> In j (e p) \/ (In p l /\ j = i /\ p <> i).
Proof.
  induction l as [|x l IH]; intros e p j; cbn [fold_left In]; [tauto|]. rewrite IH, add_edge_in.
  split; [intros [[A|(-> & A & B)]|(A & B & C)]; auto|intros [A|([->|A] & B & C)]; auto].
Qed.
Lemma topics_in nodes i l : forall e p j,
  In j (fold_left (fun e topic => fold_left (add_edge i) (producers_of nodes topic) e) l e p) <->
  In j (e p) \/ ((exists t, In t l /\ In p (producers_of nodes t)) /\ j = i /\ p <> i).
Proof.
  induction l as [|x l IH]; intros e p j; cbn [fold_left In].
  - split; auto. intros [H|((t & [] & _) & _)]; auto.
  - rewrite IH, add_edges_in. split.
    + intros [[A|(A & B & C)]|((t & T1 & T2) & B & C)]; [auto|right; split; eauto|right; split; eauto].
    + intros [A|((t & [->|T1] & T2) & B & C)]; auto. right. split; eauto.
Qed.
Lemma producers_in nodes t p : In p (producers_of nodes t) <-> p < length nodes /\ In t (g_pubs (nth_node nodes p)).
Proof.
  unfold producers_of. rewrite in_flat_map. split.
  - intros (i & H1 & H2). apply in_map_iff in H2 as (y & <- & H2). apply filter_In in H2 as [H2 H3]. apply Nat.eqb_eq in H3. subst. apply in_seq in H1. split; [lia|auto].
  - intros [H1 H2]. exists p. split; [apply in_seq; lia|]. apply in_map_iff. exists t. split; auto. apply filter_In. split; auto. apply Nat.eqb_refl.
Qed.
Lemma build_edges_in nodes p j : In j (build_edges nodes p) <-> depends nodes p j.
Proof.
  unfold build_edges, depends.
  assert (G : forall l e, In j (fold_left (fun e i => fold_left (fun e topic => fold_left (add_edge i) (producers_of nodes topic) e) (g_subs (nth_node nodes i)) e) l e p)
            <-> In j (e p) \/ (In j l /\ (exists t, In t (g_subs (nth_node nodes j)) /\ In p (producers_of nodes t)) /\ p <> j)).
  { induction l as [|x l IH]; intros e; cbn [fold_left In]; [tauto|]. rewrite IH, topics_in. split.
    - intros [[A|(A & -> & C)]|(A & B & C)]; auto 6.
    - intros [A|([->|A] & B & C)]; auto 6. }
  rewrite G. cbn [In]. split.
  - intros [[]|(A & (t & T1 & T2) & C)]. apply producers_in in T2 as [T2 T3]. apply in_seq in A. split; auto. split; auto. split; [lia|eauto].
  - intros (A & B & C & (t & T1 & T2)). right. split; [apply in_seq; lia|]. split; auto. exists t. rewrite producers_in. auto.
Qed.

Lemma build_correct nodes : has_metadata nodes = true ->
    match graph_build nodes with
    | GSteps steps =>
        Permutation (concat steps) (seq 0 (length nodes)) /\
        (forall p i, depends nodes p i -> exists a b, in_step steps a p /\ in_step steps b i /\ a < b) /\
        (forall a i, in_step steps (S a) i -> exists p, depends nodes p i /\ in_step steps a p) /\
        acyclic (depends nodes)
    | GCycle involved =>
        (exists i, on_cycle (depends nodes) i) /\ (forall i, on_cycle (depends nodes) i -> In i involved)
    | GPanic => False
    end.
Proof.
  intros M. unfold graph_build. rewrite M.
  assert (R : forall p i, p < length nodes -> In i (build_edges nodes p) -> i < length nodes) by (intros p i _ H; apply build_edges_in in H; unfold depends in H; tauto).
  assert (E : forall p i, edge (build_edges nodes) (length nodes) p i <-> depends nodes p i).
  { intros p i. unfold edge. rewrite build_edges_in. split; [tauto|]. intros H. split; auto. unfold depends in H. tauto. }
  assert (CT : forall i j, clos_trans nat (edge (build_edges nodes) (length nodes)) i j <-> clos_trans nat (depends nodes) i j).
  { intros i j. split; intros H; (induction H as [x y H|x y z _ IH1 _ IH2]; [apply t_step, E; auto|eapply t_trans; eauto]). }
  pose proof (sort_full _ _ R) as S. destruct (parallel_sort (build_edges nodes) (length nodes)); auto.
  - destruct S as (S1 & S2 & S3 & S4). split; auto. split; [intros; apply S2, E; auto|]. split.
    + intros a i Hi. destruct (S3 a i Hi) as (p & P1 & P2). exists p. split; auto. apply E; auto.
    + intros i C. apply (S4 i), CT, C.
  - destruct S as ((i & C) & S2). split; [exists i; apply CT; auto|]. intros j Cj. apply S2, CT, Cj.
Qed.

(** ** Tiers *)
Definition sorted (l : list nat) : Prop := forall a b x y, nth_error l a = Some x -> nth_error l b = Some y -> a < b -> x < y.
Lemma sorted_cons x l : sorted l -> (forall y, In y l -> x < y) -> sorted (x :: l).
Proof.
  intros S H a b u v A B L. destruct a, b; cbn [nth_error] in *; [lia| |lia|].
  - inv A. apply H. eapply nth_error_In; eauto.
  - eapply S; eauto. lia.
Qed.
Lemma sorted_tail x l : sorted (x :: l) -> sorted l /\ forall y, In y l -> x < y.
Proof.
  intros S. split.
  - intros a b u v A B L. apply (S (Datatypes.S a) (Datatypes.S b)); auto. lia.
  - intros y Hy. apply In_nth_error in Hy as (k & Hk). apply (S 0 (Datatypes.S k)); auto. lia.
Qed.
Lemma insert_in x l y : In y (insert_order x l) <-> y = x \/ In y l.
Proof.
  induction l as [|z l IH]; cbn [insert_order In]; [intuition|]. destruct (x <? z); cbn [In]; [intuition|]. destruct (Nat.eqb_spec x z) as [->|]; cbn [In].
  - intuition.
  - rewrite IH. intuition.
Qed.
Lemma insert_sorted x l : sorted l -> sorted (insert_order x l).
Proof.
  induction l as [|z l IH]; intros S; cbn [insert_order].
  - apply sorted_cons; auto. intros y [].
  - destruct (Nat.ltb_spec x z).
    + apply sorted_cons; auto. apply sorted_tail in S as [_ S]. intros y [->|Hy]; auto. specialize (S y Hy). lia.
    + destruct (Nat.eqb_spec x z); auto. apply sorted_tail in S as [S1 S2]. apply sorted_cons; auto. intros y Hy. apply insert_in in Hy as [->|Hy]; auto. lia.
Qed.
Lemma order_sorted nodes : sorted (order_values nodes).
Proof. unfold order_values. induction (map g_order nodes) as [|x l IH]; cbn [fold_right]; [intros [|a] b u v A; discriminate|apply insert_sorted; auto]. Qed.
Lemma order_in nodes o : In o (order_values nodes) <-> exists i, i < length nodes /\ g_order (nth_node nodes i) = o.
Proof.
  unfold order_values. assert (H : In o (fold_right insert_order [] (map g_order nodes)) <-> In o (map g_order nodes)).
  { induction (map g_order nodes) as [|x l IH]; cbn [fold_right In]; [tauto|]. rewrite insert_in, IH. intuition. }
  rewrite H, in_map_iff. unfold nth_node. split.
  - intros (x & E & I). apply In_nth with (d := GNode [] [] 0) in I as (i & I1 & I2). exists i. rewrite I2. auto.
  - intros (i & I & E). exists (nth i nodes (GNode [] [] 0)). split; auto. apply nth_In; auto.
Qed.

Lemma order_in_step nodes a i : in_step (order_steps nodes) a i <-> i < length nodes /\ nth_error (order_values nodes) a = Some (g_order (nth_node nodes i)).
Proof.
  unfold in_step, order_steps. split.
  - intros (l & A & B). rewrite nth_error_map in A. destruct (nth_error (order_values nodes) a) as [o|]; [|discriminate]. cbn in A. inv A.
    apply filter_In in B as [B1 B2]. apply in_seq in B1. apply Nat.eqb_eq in B2. subst. split; [lia|auto].
  - intros [A B]. rewrite nth_error_map, B. eexists. split; [reflexivity|]. apply filter_In. split; [apply in_seq; lia|apply Nat.eqb_refl].
Qed.

Lemma NoDup_map_filters (f : nat -> nat) l os : sorted os -> NoDup l -> NoDup (concat (map (fun o => filter (fun i => f i =? o) l) os)).
Proof.
  intros S N. induction os as [|o os IH]; cbn [map concat]; [constructor|]. apply sorted_tail in S as [S1 S2]. specialize (IH S1).
  assert (D : forall x, In x (filter (fun i => f i =? o) l) -> ~ In x (concat (map (fun o0 => filter (fun i => f i =? o0) l) os))).
  { intros x X Y. apply filter_In in X as [_ X]. apply Nat.eqb_eq in X. apply in_concat in Y as (m & M1 & M2). apply in_map_iff in M1 as (o' & <- & M1).
    apply filter_In in M2 as [_ M2]. apply Nat.eqb_eq in M2. specialize (S2 o' M1). lia. }
  assert (NF : NoDup (filter (fun i => f i =? o) l)) by (apply NoDup_filter; auto).
  revert D NF. generalize (filter (fun i => f i =? o) l) as m. induction m as [|x m IHm]; intros D NF; cbn [app]; auto. inv NF. constructor.
  - rewrite in_app_iff. intros [X|X]; [contradiction|]. apply (D x); [left; auto|auto].
  - apply IHm; auto. intros y Hy. apply D. right; auto.
Qed.

Lemma order_tiers nodes : has_metadata nodes = false ->
    exists steps, graph_build nodes = GSteps steps /\
      Permutation (concat steps) (seq 0 (length nodes)) /\
      (forall i j a b, in_step steps a i -> in_step steps b j -> (a < b <-> g_order (nth_node nodes i) < g_order (nth_node nodes j))).
Proof.
  intros M. exists (order_steps nodes). unfold graph_build. rewrite M. split; auto. split.
  - apply NoDup_Permutation; [apply NoDup_map_filters; [apply order_sorted|apply seq_NoDup]|apply seq_NoDup|].
    intros x. split; intros H.
    + apply in_concat in H as (l & L1 & L2). apply in_map_iff in L1 as (o & <- & L1). apply filter_In in L2. tauto.
    + apply in_seq in H. assert (O : In (g_order (nth_node nodes x)) (order_values nodes)) by (apply order_in; exists x; split; [lia|auto]).
      apply in_concat. exists (filter (fun i => g_order (nth_node nodes i) =? g_order (nth_node nodes x)) (seq 0 (length nodes))). split.
      * apply in_map_iff. exists (g_order (nth_node nodes x)). auto.
      * apply filter_In. split; [apply in_seq; lia|apply Nat.eqb_refl].
  - intros i j a b A B. apply order_in_step in A as [A1 A2]. apply order_in_step in B as [B1 B2]. pose proof (order_sorted nodes) as S. split; intros H.
    + eapply S; eauto.
    + destruct (Nat.lt_trichotomy a b) as [L|[->|L]]; auto; [rewrite A2 in B2; inv B2; lia|]. specialize (S _ _ _ _ B2 A2 L). lia.
Qed.

(** ** Parallel dispatch *)
Definition started (e : devent) : list nat := match e with EStart i => [i] | EEnd _ => [] end.
Definition ended (e : devent) : list nat := match e with EStart _ => [] | EEnd i => [i] end.
Notation starts log := (flat_map started log).
Notation ends log := (flat_map ended log).

Lemma starts_in log i : In i (starts log) <-> In (EStart i) log.
Proof.
  rewrite in_flat_map. split; [intros ([j|j] & A & B); cbn in B; [destruct B as [->|[]]; auto|destruct B]|intros H; exists (EStart i); cbn; auto].
Qed.
Lemma ends_in log i : In i (ends log) <-> In (EEnd i) log.
Proof.
  rewrite in_flat_map. split; [intros ([j|j] & A & B); cbn in B; [destruct B|destruct B as [->|[]]; auto]|intros H; exists (EEnd i); cbn; auto].
Qed.
Lemma log_nodup log : NoDup (starts log) -> NoDup (ends log) -> NoDup log.
Proof.
  induction log as [|x log IH]; intros A B; [constructor|]. destruct x as [i|i]; cbn [flat_map started ended app] in A, B.
  - inv A. constructor; auto. rewrite <- starts_in. auto.
  - inv B. constructor; auto. rewrite <- ends_in. auto.
Qed.

Lemma precedes_nth {A} (a b : A) log : precedes a b log <-> exists i j, i < j /\ nth_error log i = Some a /\ nth_error log j = Some b.
Proof.
  split.
  - intros (l1 & l2 & l3 & ->). exists (length l1), (length l1 + S (length l2)). split; [lia|]. split.
    + rewrite nth_error_app2, Nat.sub_diag by lia. auto.
    + rewrite nth_error_app2 by lia. replace (length l1 + S (length l2) - length l1) with (S (length l2)) by lia. cbn.
      rewrite nth_error_app2, Nat.sub_diag by lia. auto.
  - intros (i & j & L & A1 & B1). apply nth_error_split in A1 as (l1 & r & -> & <-). rewrite nth_error_app2 in B1 by lia.
    destruct (j - length l1) as [|k] eqn:E; [lia|]. cbn in B1. apply nth_error_split in B1 as (l2 & l3 & -> & _). exists l1, l2, l3. auto.
Qed.
Lemma precedes_trans {A} (a b c : A) log : NoDup log -> precedes a b log -> precedes b c log -> precedes a c log.
Proof.
  rewrite !precedes_nth. intros N (i & j & L & X & Y) (i' & j' & L' & X' & Y').
  assert (j = i'). { apply (proj1 (NoDup_nth_error log) N); [apply nth_error_Some|]; congruence. }
  subst. exists i, j'. split; [lia|auto].
Qed.
Lemma precedes_in_l {A} (a b : A) log : precedes a b log -> In a log.
Proof. intros (l1 & l2 & l3 & ->). rewrite in_app_iff. right; left; auto. Qed.
Lemma precedes_snoc {A} (a b x : A) log : precedes a b log -> precedes a b (log ++ [x]).
Proof. intros (l1 & l2 & l3 & ->). exists l1, l2, (l3 ++ [x]). rewrite <- app_assoc. cbn. rewrite <- app_assoc. auto. Qed.
Lemma precedes_last {A} (a b : A) log : In a log -> precedes a b (log ++ [b]).
Proof. intros H. apply in_split in H as (l1 & l2 & ->). exists l1, l2, []. rewrite <- app_assoc. auto. Qed.

Lemma preds_cycle (e : nat -> list nat) n (U : list nat) x : In x U -> (forall i, In i U -> i < n) ->
  (forall i, In i U -> exists p, In p U /\ In i (e p)) -> exists i, on_cycle (edge e n) i.
Proof.
  intros Hx R PRED. pose (pred := fun i => match find (fun p => existsb (Nat.eqb i) (e p)) U with Some p => p | None => 0 end).
  destruct (finite_cycle n (edge e n) pred (fun i => In i U) x) as (i & _ & Y); [|exact Hx|eauto].
  intros i Hi. split; [auto|]. unfold pred. destruct (find _ U) as [p|] eqn:Fi.
  - apply find_some in Fi as [A B]. apply existsb_exists in B as (y & B1 & B2). apply Nat.eqb_eq in B2. subst y. split; auto. split; auto.
  - exfalso. destruct (PRED i Hi) as (p & A & B). eapply find_none in Fi; [|exact A]. cbn in Fi. apply Bool.not_true_iff_false in Fi. apply Fi. apply existsb_exists. exists i. split; auto. apply Nat.eqb_refl.
Qed.

Lemma setw_split w ws x y : nth_error ws w = Some x -> exists l1 l2, ws = l1 ++ x :: l2 /\ setw w y ws = l1 ++ y :: l2.
Proof.
  revert w. induction ws as [|z ws IH]; intros [|w] E; try discriminate; cbn in E.
  - inv E. exists [], ws. auto.
  - destruct (IH w E) as (l1 & l2 & -> & E2). exists (z :: l1), l2. cbn. rewrite E2. auto.
Qed.

Section DispatchProofs.
  Variables (n : nat) (succ : nat -> list nat) (should_tick : nat -> bool).
  Notation tick := (ticking n should_tick).
  Hypothesis range : forall p i, p < n -> In i (succ p) -> i < n.
  Definition owed (w : worker) : list nat := match w with WIdle => [] | WRun i => succ i | WNotify _ l => l end.
  Definition running (w : worker) : list nat := match w with WRun i => [i] | _ => [] end.
  Definition notifying (w : worker) : list nat := match w with WNotify i _ => [i] | _ => [] end.
  Definition wm (w : worker) : nat := match w with WIdle => 0 | WRun i => 2 + length (succ i) | WNotify _ l => 1 + length l end.

  Record dinv (U : list nat) (st : dstate) : Prop := DInv {
    di_part : Permutation (U ++ starts (ds_log st)) tick;
    di_pend : forall s, In s tick -> ds_pending st s = cnt (flat_map succ U ++ flat_map owed (ds_workers st)) s;
    di_qnd : NoDup (ds_queue st);
    di_q : forall s, In s (ds_queue st) <-> In s U /\ ds_pending st s = 0;
    di_run : Permutation (starts (ds_log st)) (ends (ds_log st) ++ flat_map running (ds_workers st));
    di_done : ds_completed st + length (flat_map notifying (ds_workers st)) = length (ends (ds_log st));
    di_zero : forall s, In s (starts (ds_log st)) -> ds_pending st s = 0;
    di_ord : forall p i, In p tick -> In i (succ p) -> In (EStart i) (ds_log st) -> precedes (EEnd p) (EStart i) (ds_log st);
    di_se : forall i, In (EEnd i) (ds_log st) -> precedes (EStart i) (EEnd i) (ds_log st);
    di_rng : forall x, In x (ds_workers st) -> forall s, In s (owed x) -> s < n }.

  Definition measure (U : list nat) (st : dstate) : nat :=
    list_sum (map (fun i => 3 + length (succ i)) U) + list_sum (map wm (ds_workers st)).

  Lemma tick_in i : In i tick <-> i < n /\ should_tick i = true.
  Proof. unfold ticking. rewrite filter_In, in_seq. split; intros [? ?]; split; auto; lia. Qed.
  Lemma tick_nodup : NoDup tick. Proof. apply NoDup_filter, seq_NoDup. Qed.

  Lemma part_perm (f : nat -> bool) l : Permutation l (filter f l ++ filter (fun x => negb (f x)) l).
  Proof.
    induction l as [|x l IH]; cbn [filter]; auto. destruct (f x); cbn [negb app].
    - constructor. auto.
    - apply Permutation_cons_app. auto.
  Qed.
  Lemma pending0_eq i : pending0 n succ should_tick i = cnt (flat_map succ tick) i.
  Proof.
    unfold pending0, in_degrees. rewrite (cnt_perm (flat_map succ (seq 0 n)) (flat_map succ (tick ++ filter (fun p => negb (should_tick p)) (seq 0 n)))).
    - rewrite flat_map_app, cnt_app. lia.
    - apply Permutation_flat_map. apply part_perm.
  Qed.
  Lemma idle_nil {A} (f : worker -> list A) k : f WIdle = [] -> flat_map f (repeat WIdle k) = [].
  Proof. intros E. induction k; cbn; auto. rewrite E. auto. Qed.

  Lemma dinit workers : dinv tick (dispatch_init n succ should_tick workers) /\
     measure tick (dispatch_init n succ should_tick workers) = list_sum (map (fun i => 3 + length (succ i)) tick).
  Proof.
    split.
    - split; unfold dispatch_init; cbn [ds_pending ds_queue ds_workers ds_completed ds_log flat_map length]; rewrite ?idle_nil by auto.
      + rewrite app_nil_r. auto.
      + intros s _. rewrite app_nil_r. apply pending0_eq.
      + apply NoDup_filter, seq_NoDup.
      + intros s. rewrite filter_In, andb_true_iff, Nat.eqb_eq, tick_in, in_seq. split; [intros (A & B & C)|intros ((A & B) & C)]; repeat split; auto; lia.
      + auto.
      + auto.
      + intros s [].
      + intros p i _ _ [].
      + intros i [].
      + intros x Hx. apply repeat_spec in Hx. subst. intros s [].
    - unfold measure, dispatch_init. cbn [ds_workers]. assert (E : forall k, list_sum (map wm (repeat WIdle k)) = 0) by (induction k; cbn; auto). rewrite E. lia.
  Qed.

  Lemma flat_map_mid {A B} (f : A -> list B) l1 x l2 : Permutation (flat_map f (l1 ++ x :: l2)) (f x ++ flat_map f (l1 ++ l2)).
  Proof. rewrite !flat_map_app. cbn [flat_map]. rewrite !app_assoc. apply Permutation_app_tail. apply Permutation_app_comm. Qed.
  Lemma sum_mid {A} (f : A -> nat) l1 x l2 : list_sum (map f (l1 ++ x :: l2)) = f x + list_sum (map f (l1 ++ l2)).
  Proof. rewrite !map_app, !list_sum_app. change (list_sum (map f (x :: l2))) with (f x + list_sum (map f l2)). lia. Qed.
  Lemma sum_perm l1 l2 : Permutation l1 l2 -> list_sum l1 = list_sum l2.
  Proof. intros P. induction P as [|x l l' P IH|x y l|]; auto; [change (x + list_sum l = x + list_sum l'); lia|change (y + (x + list_sum l) = x + (y + list_sum l)); lia|lia]. Qed.

  Lemma dstep U st w : dinv U st -> exists U', dinv U' (dispatch_step n succ should_tick w st) /\
    (can_move n should_tick st w = true -> S (measure U' (dispatch_step n succ should_tick w st)) = measure U st).
  Proof.
    intros D. destruct D as [P1 P2 Q1 Q2 R1 C1 Z1 O1 S1 V1]. pose proof (DInv U st P1 P2 Q1 Q2 R1 C1 Z1 O1 S1 V1) as D.
    assert (RNG : forall y l1 l2 x, ds_workers st = l1 ++ x :: l2 -> setw w y (ds_workers st) = l1 ++ y :: l2 -> (forall s, In s (owed y) -> s < n) ->
      forall z, In z (setw w y (ds_workers st)) -> forall s, In s (owed z) -> s < n).
    { intros y l1 l2 x W1 W2 Y z Hz. rewrite W2 in Hz. apply in_app_iff in Hz as [Hz|[<-|Hz]]; auto; apply V1; rewrite W1, in_app_iff; cbn; auto. }
    unfold dispatch_step, can_move. destruct (nth_error (ds_workers st) w) as [x|] eqn:E; [|exists U; split; [exact D|discriminate]].
    destruct x as [|i|i l].
    - destruct (Nat.leb_spec (length tick) (ds_completed st)) as [F|F]; [exists U; split; [exact D|]; rewrite (proj2 (Nat.ltb_ge _ _)) by lia; discriminate|].
      destruct (ds_queue st) as [|i r] eqn:G; [exists U; split; [exact D|]; rewrite andb_false_r; discriminate|].
      destruct (setw_split w _ WIdle (WRun i) E) as (l1 & l2 & W1 & W2).
      assert (Iq : In i U /\ ds_pending st i = 0) by (apply Q2; left; auto). destruct Iq as [Iu Ip].
      apply in_split in Iu as (u1 & u2 & ->). exists (u1 ++ u2).
      assert (ND : NoDup ((u1 ++ i :: u2) ++ starts (ds_log st))) by (eapply Permutation_NoDup; [symmetry; exact P1|apply tick_nodup]).
      assert (It : In i tick) by (apply (Permutation_in _ P1); rewrite !in_app_iff; cbn; auto).
      assert (NDU : NoDup (u1 ++ i :: u2)). { clear - ND. induction (u1 ++ i :: u2) as [|a t IH]; [constructor|]. inv ND. rewrite in_app_iff in H1. constructor; auto. }
      split.
      + split; cbn [ds_pending ds_queue ds_workers ds_completed ds_log]; rewrite ?flat_map_app; cbn [flat_map started ended app]; rewrite ?app_nil_r.
        * rewrite <- P1. rewrite <- !app_assoc. cbn [app]. apply Permutation_app_head. rewrite app_assoc. rewrite <- Permutation_middle, app_nil_r. auto.
        * intros s Hs. rewrite P2 by auto. rewrite W2, W1. rewrite ?flat_map_app, ?cnt_app. cbn [flat_map owed app]. rewrite ?cnt_app. lia.
        * inv Q1. auto.
        * intros s. inv Q1. split.
          -- intros Hs. assert (X : In s (i :: r)) by (right; auto). apply Q2 in X as [X1 X2]. split; auto. rewrite in_app_iff in *. cbn in X1. destruct X1 as [X1|[->|X1]]; auto. contradiction.
          -- intros [Hs1 Hs2]. assert (X : In s (i :: r)). { apply Q2. split; auto. rewrite in_app_iff in *. cbn. tauto. }
             destruct X as [->|X]; auto. exfalso. apply NoDup_remove_2 in NDU. auto.
        * rewrite W2. rewrite (flat_map_mid running l1 (WRun i) l2). rewrite W1, (flat_map_mid running l1 WIdle l2) in R1. cbn [running app] in *.
          rewrite R1. rewrite <- app_assoc. apply Permutation_app_head. apply Permutation_app_comm.
        * rewrite W2. rewrite W1 in C1. rewrite flat_map_app in *. cbn [flat_map notifying app] in *. auto.
        * intros s Hs. apply in_app_iff in Hs as [Hs|[<-|[]]]; auto.
        * intros p j Hp Hj Hs. apply in_app_iff in Hs as [Hs|[Hs|[]]]; [apply precedes_snoc; auto|]. inv Hs. apply precedes_last.
          rewrite P2 in Ip by auto. apply cnt_zero in Ip. rewrite in_app_iff in Ip.
          assert (NU : ~ In p (u1 ++ j :: u2)) by (intros X; apply Ip; left; apply in_flat_map; eauto).
          apply (Permutation_in _ (Permutation_sym P1)) in Hp. apply in_app_iff in Hp as [Hp|Hp]; [contradiction|].
          apply (Permutation_in _ R1) in Hp. apply in_app_iff in Hp as [Hp|Hp]; [apply ends_in; auto|]. exfalso. apply Ip. right.
          apply in_flat_map in Hp as (x & X1 & X2). apply in_flat_map. exists x. split; auto. destruct x; cbn in X2; try tauto. destruct X2 as [->|[]]. auto.
        * intros j Hj. apply in_app_iff in Hj as [Hj|[Hj|[]]]; [apply precedes_snoc; auto|discriminate].
        * apply (RNG (WRun i)) with l1 l2 WIdle; auto. cbn. intros s. apply range. apply tick_in; auto.
      + intros _. unfold measure. cbn [ds_workers]. rewrite W2. rewrite W1. rewrite !sum_mid. cbn [wm]. lia.
    - destruct (setw_split w _ (WRun i) (WNotify i (succ i)) E) as (l1 & l2 & W1 & W2). exists U. split.
      + split; cbn [ds_pending ds_queue ds_workers ds_completed ds_log]; rewrite ?flat_map_app; cbn [flat_map started ended app]; rewrite ?app_nil_r; auto.
        * intros s Hs. rewrite P2 by auto. apply cnt_perm. rewrite W2, W1. apply Permutation_app_head. rewrite !flat_map_mid. auto.
        * rewrite R1. rewrite W2, W1. rewrite !flat_map_mid. cbn [running app]. rewrite <- app_assoc. auto.
        * rewrite W2. rewrite W1 in C1. rewrite flat_map_app in *. cbn [flat_map notifying app] in *. rewrite !app_length in *. cbn [length] in *. lia.
        * intros p j Hp Hj Hs. apply in_app_iff in Hs as [Hs|[Hs|[]]]; [apply precedes_snoc; auto|discriminate].
        * intros j Hj. apply in_app_iff in Hj as [Hj|[Hj|[]]]; [apply precedes_snoc; auto|]. inv Hj. apply precedes_last. apply starts_in.
          apply (Permutation_in _ (Permutation_sym R1)). rewrite in_app_iff. right. rewrite W1. rewrite flat_map_app, in_app_iff. right. cbn. auto.
        * apply (RNG (WNotify i (succ i))) with l1 l2 (WRun i); auto. apply (V1 (WRun i)). rewrite W1, in_app_iff. right; left; auto.
      + intros _. unfold measure. cbn [ds_workers]. rewrite W2, W1. rewrite !sum_mid. cbn [wm]. lia.
    - destruct l as [|s l].
      + destruct (setw_split w _ (WNotify i []) WIdle E) as (l1 & l2 & W1 & W2). exists U. split.
        * split; cbn [ds_pending ds_queue ds_workers ds_completed ds_log]; auto.
          -- intros s Hs. rewrite P2 by auto. apply cnt_perm. rewrite W2, W1. apply Permutation_app_head. rewrite !flat_map_mid. auto.
          -- rewrite R1. rewrite W2, W1. rewrite !flat_map_mid. auto.
          -- rewrite W2. rewrite W1 in C1. rewrite flat_map_app in *. cbn [flat_map notifying app] in *. rewrite !app_length in *. cbn [length] in *. lia.
          -- apply (RNG WIdle) with l1 l2 (WNotify i []); auto. intros s [].
        * intros _. unfold measure. cbn [ds_workers]. rewrite W2, W1. rewrite !sum_mid. cbn [wm length]. lia.
      + destruct (setw_split w _ (WNotify i (s :: l)) (WNotify i l) E) as (l1 & l2 & W1 & W2). exists U.
        assert (PW : forall y, cnt (flat_map succ U ++ flat_map owed (ds_workers st)) y = (if Nat.eq_dec s y then 1 else 0) + cnt (flat_map succ U ++ flat_map owed (l1 ++ WNotify i l :: l2)) y).
        { intros y. rewrite W1. rewrite !cnt_app. rewrite !(cnt_perm _ _ y (flat_map_mid owed l1 _ l2)). cbn [owed]. rewrite !cnt_app. cbn [count_occ]. destruct (Nat.eq_dec s y); lia. }
        destruct (should_tick s) eqn:T.
        * split.
          -- assert (SN : In s tick -> In s U /\ 0 < ds_pending st s).
             { intros Hs. assert (0 < ds_pending st s). { rewrite P2 by auto. rewrite PW. destruct (Nat.eq_dec s s); [lia|congruence]. }
               split; auto. pose proof (Permutation_in _ (Permutation_sym P1) Hs) as X. apply in_app_iff in X as [X|X]; auto. apply Z1 in X. lia. }
             split; cbn [ds_pending ds_queue ds_workers ds_completed ds_log]; auto.
             ++ intros y Hy. rewrite W2. pose proof (P2 y Hy) as X. rewrite PW in X. destruct (Nat.eq_dec s y) as [<-|Hn]; [rewrite fupd_eq; lia|rewrite fupd_neq by auto; lia].
             ++ destruct (Nat.eqb_spec (ds_pending st s) 1) as [E1|E1]; auto. assert (~ In s (ds_queue st)) by (intros X; apply Q2 in X; lia).
                apply (Permutation_NoDup (l := s :: ds_queue st)); [apply Permutation_cons_append|constructor; auto].
             ++ intros y. destruct (Nat.eqb_spec (ds_pending st s) 1) as [E1|E1].
                ** rewrite in_app_iff. cbn [In]. destruct (Nat.eq_dec y s) as [->|Hn].
                   --- rewrite fupd_eq. split; [|auto]. intros _. split; [|lia].
                       destruct (in_dec Nat.eq_dec s tick) as [Hs|Hs]; [apply SN; auto|].
                       exfalso. apply Hs. (* a successor in range *) apply tick_in. split; auto. apply (V1 (WNotify i (s :: l))); [eapply nth_error_In; eauto|left; auto].
                   --- rewrite fupd_neq by auto. rewrite Q2. intuition congruence.
                ** destruct (Nat.eq_dec y s) as [->|Hn]; [rewrite fupd_eq, Q2|rewrite fupd_neq by auto; apply Q2].
                   split; [intros [X1 X2]; split; auto; lia|]. intros [X1 X2]. split; auto.
                   assert (Hs : In s tick) by (apply (Permutation_in _ P1); rewrite in_app_iff; auto). apply SN in Hs. lia.
             ++ rewrite R1. rewrite W2, W1. rewrite !flat_map_mid. auto.
             ++ rewrite W2. rewrite W1 in C1. rewrite flat_map_app in *. cbn [flat_map notifying app] in *. auto.
             ++ intros y Hy. apply Z1 in Hy as X. destruct (Nat.eq_dec y s) as [->|Hn]; [rewrite fupd_eq; lia|rewrite fupd_neq; auto].
             ++ apply (RNG (WNotify i l)) with l1 l2 (WNotify i (s :: l)); auto. intros y Hy. apply (V1 (WNotify i (s :: l))); [eapply nth_error_In; eauto|right; auto].
          -- intros _. unfold measure. cbn [ds_workers]. rewrite W2, W1. rewrite !sum_mid. cbn [wm length]. lia.
        * split.
          -- split; cbn [ds_pending ds_queue ds_workers ds_completed ds_log]; auto.
             ++ intros y Hy. rewrite W2. pose proof (P2 y Hy) as X. rewrite PW in X. destruct (Nat.eq_dec s y) as [<-|Hn]; [|lia]. apply tick_in in Hy. destruct Hy; congruence.
             ++ rewrite R1. rewrite W2, W1. rewrite !flat_map_mid. auto.
             ++ rewrite W2. rewrite W1 in C1. rewrite flat_map_app in *. cbn [flat_map notifying app] in *. auto.
             ++ apply (RNG (WNotify i l)) with l1 l2 (WNotify i (s :: l)); auto. intros y Hy. apply (V1 (WNotify i (s :: l))); [eapply nth_error_In; eauto|right; auto].
          -- intros _. unfold measure. cbn [ds_workers]. rewrite W2, W1. rewrite !sum_mid. cbn [wm length]. lia.
  Qed.

  Lemma drun schedule : forall U st, dinv U st -> exists U', dinv U' (dispatch_run n succ should_tick st schedule).
  Proof.
    induction schedule as [|w r IH]; intros U st D; cbn; [eauto|]. destruct (dstep U st w D) as (U1 & D1 & _). eapply IH; eauto.
  Qed.
  Lemma dbound schedule : forall U st, dinv U st ->
    (forall k w, nth_error schedule k = Some w -> can_move n should_tick (dispatch_run n succ should_tick st (firstn k schedule)) w = true) ->
    length schedule <= measure U st.
  Proof.
    induction schedule as [|w r IH]; intros U st D H; cbn [length]; [lia|]. destruct (dstep U st w D) as (U1 & D1 & M).
    specialize (M (H 0 w eq_refl)). specialize (IH U1 _ D1). assert (length r <= measure U1 (dispatch_step n succ should_tick w st)); [|lia].
    apply IH. intros k w' E. apply (H (S k) w' E).
  Qed.

  Lemma dreach workers schedule : exists U, dinv U (dispatch_run n succ should_tick (dispatch_init n succ should_tick workers) schedule).
  Proof. eapply drun. apply dinit. Qed.
  Lemma setw_length w x l : length (setw w x l) = length l.
  Proof. revert w. induction l as [|y l IH]; intros [|w]; cbn; auto. Qed.
  Lemma run_workers schedule : forall st, length (ds_workers (dispatch_run n succ should_tick st schedule)) = length (ds_workers st).
  Proof.
    induction schedule as [|w r IH]; intros st; [auto|]. change (dispatch_run n succ should_tick st (w :: r)) with (dispatch_run n succ should_tick (dispatch_step n succ should_tick w st) r). rewrite IH. unfold dispatch_step. destruct (nth_error (ds_workers st) w) as [[|i|i [|s l]]|]; auto.
    - destruct (length tick <=? ds_completed st); auto. destruct (ds_queue st); auto. apply setw_length.
    - apply setw_length.
    - apply setw_length.
    - destruct (should_tick s); apply setw_length.
  Qed.

  Lemma dispatch_order_ workers schedule :
    let log := ds_log (dispatch_run n succ should_tick (dispatch_init n succ should_tick workers) schedule) in
    NoDup log /\
    (forall i, In (EStart i) log -> i < n /\ should_tick i = true) /\
    (forall p i, p < n -> In i (succ p) -> should_tick p = true -> In (EStart i) log -> precedes (EEnd p) (EStart i) log) /\
    (forall i, In (EEnd i) log -> precedes (EStart i) (EEnd i) log).
  Proof.
    cbn zeta. destruct (dreach workers schedule) as (U & D). set (st := dispatch_run _ _ _ _ _) in *.
    assert (NS : NoDup (starts (ds_log st))).
    { assert (X : NoDup (U ++ starts (ds_log st))) by (eapply Permutation_NoDup; [symmetry; apply (di_part _ _ D)|apply tick_nodup]). clear - X. induction U; auto. inv X. auto. }
    split; [|split; [|split]].
    - apply log_nodup; auto. pose proof (Permutation_NoDup (di_run _ _ D) NS) as X. clear - X. induction (ends (ds_log st)) as [|a l IH]; [constructor|]. inv X. rewrite in_app_iff in H1. constructor; auto.
    - intros i Hi. apply tick_in. apply (Permutation_in _ (di_part _ _ D)). rewrite in_app_iff. right. apply starts_in. auto.
    - intros p i Hp Hi T Hs. apply (di_ord _ _ D); auto. apply tick_in. auto.
    - apply (di_se _ _ D).
  Qed.

  Lemma dispatch_completes_ workers schedule : acyclic (edge succ n) -> 0 < workers ->
    let st := dispatch_run n succ should_tick (dispatch_init n succ should_tick workers) schedule in
    (ds_completed st < length tick -> exists w, can_move n should_tick st w = true) /\
    (length tick <= ds_completed st -> forall i, i < n -> should_tick i = true -> In (EEnd i) (ds_log st)).
  Proof.
    intros AC W. cbn zeta. destruct (dreach workers schedule) as (U & D). pose proof (run_workers schedule (dispatch_init n succ should_tick workers)) as LW.
    set (st := dispatch_run _ _ _ _ _) in *. cbn [dispatch_init ds_workers] in LW. rewrite repeat_length in LW.
    pose proof (Permutation_length (di_part _ _ D)) as L1. pose proof (Permutation_length (di_run _ _ D)) as L2. pose proof (di_done _ _ D) as L3. rewrite app_length in L1, L2. split.
    - intros C. destruct (existsb (fun x => match x with WIdle => false | _ => true end) (ds_workers st)) eqn:X.
      + apply existsb_exists in X as (x & X1 & X2). apply In_nth_error in X1 as (w & Hw). exists w. unfold can_move. rewrite Hw. destruct x; auto; discriminate.
      + assert (AI : forall x, In x (ds_workers st) -> x = WIdle).
        { intros x Hx. destruct x; auto; exfalso; apply Bool.not_true_iff_false in X; apply X; apply existsb_exists; eexists; split; eauto. }
        assert (FN : forall f : worker -> list nat, f WIdle = [] -> flat_map f (ds_workers st) = []).
        { intros f E. clear - AI E. induction (ds_workers st) as [|a l IH]; auto. cbn. rewrite (AI a) by (left; auto). rewrite E, IH; auto. intros x Hx. apply AI. right; auto. }
        rewrite FN in L2 by auto. rewrite FN in L3 by auto. cbn [length] in *.
        exists 0. unfold can_move. destruct (ds_workers st) as [|x0 rest] eqn:EW; [cbn in LW; lia|]. cbn [nth_error]. rewrite (AI x0) by (left; auto).
        rewrite (proj2 (Nat.ltb_lt _ _)) by auto. cbn [andb]. destruct (ds_queue st) as [|] eqn:EQ; auto. exfalso.
        destruct U as [|x U']; [cbn in L1; lia|]. destruct (preds_cycle succ n (x :: U') x) as (i & Cy).
        * left; auto.
        * intros i Hi. assert (Y : In i tick) by (apply (Permutation_in _ (di_part _ _ D)); rewrite in_app_iff; auto). apply tick_in in Y. tauto.
        * intros i Hi. assert (Y : In i tick) by (apply (Permutation_in _ (di_part _ _ D)); rewrite in_app_iff; auto).
          assert (Z : ds_pending st i <> 0). { intros Z. assert (Q : In i (ds_queue st)) by (apply (di_q _ _ D); auto). rewrite EQ in Q. destruct Q. }
          rewrite (di_pend _ _ D) in Z by auto. rewrite EW, FN, app_nil_r in Z by auto.
          assert (Q : In i (flat_map succ (x :: U'))) by (apply cnt_pos; lia). apply in_flat_map in Q. auto.
        * apply (AC i Cy).
    - intros C i Hi T. apply ends_in. assert (U = []) by (destruct U; auto; cbn in L1; lia). subst U. cbn [app length] in *.
      assert (RN : flat_map running (ds_workers st) = []) by (destruct (flat_map running (ds_workers st)); auto; cbn [length] in *; lia).
      pose proof (di_run _ _ D) as R. rewrite RN, app_nil_r in R. apply (Permutation_in _ R). apply (Permutation_in _ (Permutation_sym (di_part _ _ D))). apply tick_in; auto.
  Qed.
  Lemma dispatch_bounded_ workers schedule :
    (forall k w, nth_error schedule k = Some w ->
       can_move n should_tick (dispatch_run n succ should_tick (dispatch_init n succ should_tick workers) (firstn k schedule)) w = true) ->
    length schedule <= list_sum (map (fun i => 3 + length (succ i)) tick).
  Proof. intros H. destruct (dinit workers) as [D M]. rewrite <- M. apply dbound; auto. Qed.
End DispatchProofs.

Lemma dispatch_order n succ should_tick workers schedule : (forall p i, p < n -> In i (succ p) -> i < n) ->
    let log := ds_log (dispatch_run n succ should_tick (dispatch_init n succ should_tick workers) schedule) in
    NoDup log /\
    (forall i, In (EStart i) log -> i < n /\ should_tick i = true) /\
    (forall p i, p < n -> In i (succ p) -> should_tick p = true -> In (EStart i) log -> precedes (EEnd p) (EStart i) log) /\
    (forall i, In (EEnd i) log -> precedes (EStart i) (EEnd i) log).
Proof. intros R. apply dispatch_order_; auto. Qed.
Lemma dispatch_completes n succ should_tick workers schedule : (forall p i, p < n -> In i (succ p) -> i < n) ->
    acyclic (edge succ n) -> 0 < workers ->
    let st := dispatch_run n succ should_tick (dispatch_init n succ should_tick workers) schedule in
    (ds_completed st < length (ticking n should_tick) -> exists w, can_move n should_tick st w = true) /\
    (length (ticking n should_tick) <= ds_completed st -> forall i, i < n -> should_tick i = true -> In (EEnd i) (ds_log st)).
Proof. intros R. apply dispatch_completes_; auto. Qed.
Lemma dispatch_bounded n succ should_tick workers schedule : (forall p i, p < n -> In i (succ p) -> i < n) ->
    (forall k w, nth_error schedule k = Some w ->
       can_move n should_tick (dispatch_run n succ should_tick (dispatch_init n succ should_tick workers) (firstn k schedule)) w = true) ->
    length schedule <= list_sum (map (fun i => 3 + length (succ i)) (ticking n should_tick)).
Proof. intros R H. eapply dispatch_bounded_; eauto. Qed.

(** ** Tiers, dispatched *)
Lemma tier_edges_in steps i j : In j (tier_edges steps i) -> In j (concat steps).
Proof.
  induction steps as [|a r IH]; [auto|]. cbn [tier_edges concat]. destruct r as [|b t]; [intros []|]. rewrite in_app_iff. destruct (existsb (Nat.eqb i) a).
  - intros H. right. cbn [concat]. apply in_app_iff; auto.
  - auto.
Qed.
Lemma tier_edges_next steps a i j : NoDup (concat steps) -> in_step steps a i -> in_step steps (S a) j -> In j (tier_edges steps i).
Proof.
  revert a. induction steps as [|s r IH]; intros a N (la & A1 & A2) (lb & B1 & B2); [destruct a; discriminate|]. cbn [tier_edges]. destruct r as [|b t]; [destruct a; discriminate|].
  destruct a as [|a]; cbn [nth_error] in A1, B1.
  - inv A1. inv B1. assert (X : existsb (Nat.eqb i) la = true) by (apply existsb_exists; exists i; split; auto; apply Nat.eqb_refl). rewrite X. auto.
  - cbn [concat] in N. assert (X : existsb (Nat.eqb i) s = false).
    { apply Bool.not_true_iff_false. intros X. apply existsb_exists in X as (y & Y1 & Y2). apply Nat.eqb_eq in Y2. subst y.
      assert (Y : In i (concat (b :: t))). { apply in_concat. exists la. split; auto. eapply nth_error_In; eauto. }
      apply in_split in Y1 as (u & v & ->). rewrite <- app_assoc in N. cbn [app] in N. apply NoDup_remove_2 in N. apply N. apply in_or_app. right. apply in_or_app. right. exact Y. }
    rewrite X. apply (IH a).
    + clear - N. induction s; auto. inv N. auto.
    + exists la; auto.
    + exists lb; auto.
Qed.
Lemma graph_edges_range nodes p i : p < length nodes -> In i (graph_edges nodes p) -> i < length nodes.
Proof.
  intros Hp. unfold graph_edges. destruct (has_metadata nodes) eqn:M; intros H.
  - apply build_edges_in in H. unfold depends in H. tauto.
  - apply tier_edges_in in H. apply in_concat in H as (l & L1 & L2). apply in_map_iff in L1 as (o & <- & _). apply filter_In in L2 as [L2 _]. apply in_seq in L2. lia.
Qed.
Lemma order_step_nonempty nodes a : a < length (order_values nodes) -> exists k, in_step (order_steps nodes) a k.
Proof.
  intros H. destruct (nth_error (order_values nodes) a) as [o|] eqn:E; [|apply nth_error_None in E; lia].
  assert (O : In o (order_values nodes)) by (eapply nth_error_In; eauto). apply order_in in O as (k & K1 & K2). exists k. apply order_in_step. rewrite K2. auto.
Qed.
Lemma tiers_all_due nodes workers schedule i j : has_metadata nodes = false -> i < length nodes -> j < length nodes ->
    g_order (nth_node nodes i) < g_order (nth_node nodes j) ->
    let log := ds_log (dispatch_run (length nodes) (graph_edges nodes) (fun _ => true) (dispatch_init (length nodes) (graph_edges nodes) (fun _ => true) workers) schedule) in
    In (EStart j) log -> precedes (EEnd i) (EStart j) log.
Proof.
  intros M Hi Hj Ho. pose proof (dispatch_order (length nodes) (graph_edges nodes) (fun _ => true) workers schedule (graph_edges_range nodes)) as D.
  cbn zeta in *. set (log := ds_log _) in *. destruct D as (N & S1 & O1 & SE).
  assert (STEP : forall k, k < length nodes -> exists a, in_step (order_steps nodes) a k).
  { intros k Hk. assert (O : In (g_order (nth_node nodes k)) (order_values nodes)) by (apply order_in; eauto). apply In_nth_error in O as (a & Ha). exists a. apply order_in_step. auto. }
  destruct (order_tiers nodes M) as (steps & B & PM & ORD). unfold graph_build in B. rewrite M in B. inv B.
  assert (NC : NoDup (concat (order_steps nodes))) by (eapply Permutation_NoDup; [symmetry; exact PM|apply seq_NoDup]).
  destruct (STEP i Hi) as (a & A). destruct (STEP j Hj) as (b & B). assert (L : a < b) by (apply (ORD i j a b); auto).
  assert (G : forall d i j a, in_step (order_steps nodes) a i -> in_step (order_steps nodes) (a + S d) j -> In (EStart j) log -> precedes (EEnd i) (EStart j) log).
  { clear - M N S1 O1 SE NC. assert (NX : forall i j a, in_step (order_steps nodes) a i -> in_step (order_steps nodes) (S a) j -> In (EStart j) log -> precedes (EEnd i) (EStart j) log).
    { intros i j a A B H. apply O1; auto; [apply order_in_step in A; tauto|]. unfold graph_edges. rewrite M. eapply tier_edges_next; eauto. }
    induction d as [|d IH]; intros i j a A B H; [rewrite Nat.add_1_r in B; eauto|].
    destruct (order_step_nonempty nodes (a + S d)) as (k & K).
    { apply order_in_step in B as [_ B]. assert (a + S (S d) < length (order_values nodes)) by (apply nth_error_Some; congruence). lia. }
    replace (a + S (S d)) with (S (a + S d)) in B by lia. pose proof (NX k j _ K B H) as X. pose proof (SE k (precedes_in_l _ _ _ X)) as Y.
    pose proof (IH i k a A K (precedes_in_l _ _ _ Y)) as Z. eapply precedes_trans; eauto. eapply precedes_trans; eauto. }
  apply (G (b - a - 1) i j a A). replace (a + S (b - a - 1)) with b by lia. auto.
Qed.

Lemma order_through_skipped :
  exists nodes should_tick schedule,
    has_metadata nodes = false /\ g_order (nth_node nodes 0) < g_order (nth_node nodes 2) /\
    should_tick 0 = true /\ should_tick 2 = true /\
    let log := ds_log (dispatch_run 3 (graph_edges nodes) should_tick (dispatch_init 3 (graph_edges nodes) should_tick 2) schedule) in
    precedes (EStart 2) (EEnd 0) log.
Proof.
  exists [GNode [] [] 0; GNode [] [] 1; GNode [] [] 2], (fun i => negb (i =? 1)), [0; 1; 0]. split; auto. split; [cbn; lia|]. split; auto. split; auto.
  exists [EStart 0], [], []. vm_compute. reflexivity.
Qed.
