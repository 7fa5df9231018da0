From Verif.Base Require Import Prelude.
From Coq Require Import Permutation.
From Verif.Model Require Import TensorPool.
From Verif.Spec Require Import TensorPoolSpec.
Local Open Scope N_scope.

(** ** Arithmetic *)
Lemma ldiff_le x y : N.ldiff x y <= x /\ x <= N.ldiff x y + y.
Proof.
  assert (E : x = N.ldiff x y + N.land x y).
  { rewrite N.add_nocarry_lxor.
    - apply N.bits_inj. intros i. rewrite N.lxor_spec, N.ldiff_spec, N.land_spec. destruct (N.testbit x i), (N.testbit y i); auto.
    - apply N.bits_inj. intros i. rewrite N.land_spec, N.ldiff_spec, N.land_spec, N.bits_0. destruct (N.testbit x i), (N.testbit y i); auto. }
  assert (L : N.land x y <= y).
  { rewrite N.land_comm. assert (E2 : y = N.ldiff y x + N.land y x).
    { rewrite N.add_nocarry_lxor.
      - apply N.bits_inj. intros i. rewrite N.lxor_spec, N.ldiff_spec, N.land_spec. destruct (N.testbit x i), (N.testbit y i); auto.
      - apply N.bits_inj. intros i. rewrite N.land_spec, N.ldiff_spec, N.land_spec, N.bits_0. destruct (N.testbit x i), (N.testbit y i); auto. }
    lia. }
  lia.
Qed.

Lemma align_up_ge v a : 1 <= a -> v + a <= U64 -> v <= align_up v a /\ align_up v a < v + a.
Proof.
  intros Ha Hv. unfold align_up. rewrite N.mod_small by (unfold U64 in *; lia). pose proof (ldiff_le (v + (a - 1)) (a - 1)). lia.
Qed.

Lemma align_up_multiple v p : v + 2 ^ p <= U64 -> align_up v (2 ^ p) mod 2 ^ p = 0.
Proof.
  intros Hv. unfold align_up. rewrite <- N.pred_sub, <- N.ones_equiv, N.ldiff_ones_r, N.shiftl_mul_pow2. apply N.mod_mul.
  apply N.pow_nonzero. discriminate.
Qed.

(** ** Lists *)
Lemma put_eq {A} i (x : A) l y : nth_error l i = Some y -> nth_error (put i x l) i = Some x.
Proof. revert i; induction l; destruct i; cbn [put nth_error]; try discriminate; auto. Qed.
Lemma put_neq {A} i j (x : A) l : i <> j -> nth_error (put i x l) j = nth_error l j.
Proof. revert i j; induction l; destruct i, j; cbn [put nth_error]; intros; auto; congruence. Qed.
Lemma put_same {A} i (x : A) l : nth_error l i = Some x -> put i x l = l.
Proof. revert i; induction l as [|a l IH]; intros [|i]; cbn [put nth_error]; intros E; inv E; auto. rewrite IH; auto. Qed.

Definition busy (pc : ppc) : list N := match pc with PGot _ s | PReturn s => [s] | _ => [] end.
Definition taken (st : pool) : list N := flat_map busy (p_pcs st).

Lemma busy_put t pc pc' l : nth_error l t = Some pc ->
  exists rest, Permutation (flat_map busy l) (busy pc ++ rest) /\ Permutation (flat_map busy (put t pc' l)) (busy pc' ++ rest).
Proof.
  revert t; induction l as [|x l IH]; intros t H; destruct t; cbn [nth_error put flat_map] in *; try discriminate.
  - inv H. exists (flat_map busy l). auto.
  - destruct (IH _ H) as (rest & A & B). exists (busy x ++ rest). rewrite A, B. split; apply Permutation_app_swap_app.
Qed.

Definition on_slot (s : N) (l : list desc) : list desc := filter (fun d => d_slot d =? s) l.

Lemma desc_eqb_eq a b : desc_eqb a b = true <-> a = b.
Proof.
  unfold desc_eqb. rewrite !andb_true_iff, !N.eqb_eq. destruct a, b; cbn. split; [intros (((-> & ->) & ->) & ->); auto|intros E; inv E; auto].
Qed.

Lemma drop_one_count s d l : In d l -> length (on_slot s l) = (if d_slot d =? s then S (length (on_slot s (drop_one d l))) else length (on_slot s (drop_one d l))).
Proof.
  unfold on_slot. induction l as [|x l IH]; intros H; [destruct H|]. cbn [drop_one filter].
  destruct (desc_eqb x d) eqn:E.
  - apply desc_eqb_eq in E. subst. destruct (d_slot d =? s); reflexivity.
  - destruct H as [->|H]; [rewrite (proj2 (desc_eqb_eq d d) eq_refl) in E; discriminate|]. specialize (IH H). cbn [filter].
    destruct (d_slot x =? s); cbn [length]; rewrite IH; destruct (d_slot d =? s); reflexivity.
Qed.
Lemma drop_one_in d x l : In x (drop_one d l) -> In x l.
Proof. induction l as [|y l IH]; cbn [drop_one]; auto. destruct (desc_eqb y d); cbn [In]; tauto. Qed.

Lemma ws_eq f s x : with_slot f s x s = x. Proof. unfold with_slot. rewrite N.eqb_refl. auto. Qed.
Lemma ws_neq f s x i : i <> s -> with_slot f s x i = f i. Proof. unfold with_slot. intros. rewrite (proj2 (N.eqb_neq _ _)); auto. Qed.

Lemma in_all_slots n s : In s (all_slots n) <-> s < N.of_nat n.
Proof. induction n as [|n IH]; cbn [all_slots In]; [split; [intros []|lia]|]. rewrite IH. lia. Qed.
Lemma all_slots_nodup n : NoDup (all_slots n).
Proof. induction n as [|n IH]; cbn [all_slots]; constructor; auto. rewrite in_all_slots. lia. Qed.

Section Inv.
  Variables (ms : nat) (ps al : N).
  Hypothesis Hal : 1 <= al.
  Hypothesis Hps : ps + al <= U64.

  Definition apart (x y : slot) : Prop := sl_off x + sl_cap x <= sl_off y \/ sl_off y + sl_cap y <= sl_off x \/ sl_cap x = 0 \/ sl_cap y = 0.

  Record pinv (issued : list desc) (st : pool) : Prop := PInv {
    v_nodup : NoDup (p_free st ++ taken st);
    v_unheld : forall s, In s (p_free st ++ taken st) -> s < N.of_nat ms /\ sl_ref (p_slots st s) = 0;
    v_all : forall s, s < N.of_nat ms -> In s (p_free st ++ taken st) \/ 0 < sl_ref (p_slots st s);
    v_ref : forall s, sl_ref (p_slots st s) = N.of_nat (length (on_slot s (p_handles st)));
    v_match : forall d, In d (p_handles st) -> d_slot d < N.of_nat ms /\ d_gen d = sl_gen (p_slots st (d_slot d)) /\
                d_off d = sl_off (p_slots st (d_slot d)) /\ d_size d = sl_size (p_slots st (d_slot d));
    v_issued : forall d, In d issued -> d_slot d < N.of_nat ms /\ d_gen d <= sl_gen (p_slots st (d_slot d)) /\
                (d_gen d = sl_gen (p_slots st (d_slot d)) -> d_off d = sl_off (p_slots st (d_slot d)) /\ d_size d = sl_size (p_slots st (d_slot d)));
    v_held : incl (p_handles st) issued;
    v_apart : forall a b, a <> b -> apart (p_slots st a) (p_slots st b);
    v_in : forall s, sl_off (p_slots st s) + sl_cap (p_slots st s) <= p_next st /\ sl_size (p_slots st s) <= sl_cap (p_slots st s);
    v_next : p_next st <= ps;
    v_tail : forall s i, sl_off (p_slots st s) + sl_size (p_slots st s) <= i < sl_off (p_slots st s) + sl_cap (p_slots st s) -> p_data st i = 0;
    v_clean : forall s i, In s (p_free st) \/ (exists b t, nth_error (p_pcs st) t = Some (PGot b s)) -> sl_off (p_slots st s) <= i < sl_off (p_slots st s) + sl_cap (p_slots st s) -> p_data st i = 0;
    v_fresh : forall i, p_next st <= i -> p_data st i = 0;
    v_alive : forall p, p_alive st p = true;
    v_bytes : forall t b s, nth_error (p_pcs st) t = Some (PGot b s) -> b <= align_up b al;
    v_bytes2 : forall t b i n, nth_error (p_pcs st) t = Some (PReclaim b i n) -> b <= align_up b al;
    v_bytes3 : forall t b, nth_error (p_pcs st) t = Some (PRetry b) -> b <= align_up b al }.

  Lemma init_pinv k : pinv [] (pool_init ms k).
  Proof.
    assert (T : flat_map busy (repeat PIdle k) = []) by (induction k; cbn; auto).
    assert (R : forall t pc, nth_error (repeat PIdle k) t = Some pc -> pc = PIdle) by (intros t pc H; apply nth_error_In, repeat_spec in H; auto).
    split; unfold taken; cbn [pool_init p_free p_pcs p_slots p_handles p_data p_next p_alive sl_ref sl_off sl_cap sl_size]; rewrite ?T, ?app_nil_r; auto.
    - apply all_slots_nodup.
    - intros s H. apply in_all_slots in H. auto.
    - intros s H. left. apply in_all_slots. auto.
    - intros d [].
    - intros d [].
    - intros d [].
    - intros a b _. right; right; left. auto.
    - intros s. split; reflexivity.
    - lia.
    - intros t b s H. apply R in H. discriminate.
    - intros t b i n H. apply R in H. discriminate.
    - intros t b H. apply R in H. discriminate.
  Qed.

  Lemma ref_pos_handle issued st s : pinv issued st -> 0 < sl_ref (p_slots st s) -> exists d, In d (p_handles st) /\ d_slot d = s.
  Proof.
    intros H P. rewrite (v_ref _ _ H) in P. destruct (on_slot s (p_handles st)) as [|d l] eqn:E; [cbn in P; lia|].
    assert (X : In d (on_slot s (p_handles st))) by (rewrite E; left; auto). apply filter_In in X as [X1 X2]. apply N.eqb_eq in X2. eauto.
  Qed.
  Lemma handle_ref_pos issued st d : pinv issued st -> In d (p_handles st) -> 0 < sl_ref (p_slots st (d_slot d)).
  Proof.
    intros H P. rewrite (v_ref _ _ H). assert (X : In d (on_slot (d_slot d) (p_handles st))) by (apply filter_In; split; auto; apply N.eqb_refl).
    destruct (on_slot (d_slot d) (p_handles st)); [destruct X|cbn; lia].
  Qed.

  (** Moving a program counter between states that own the same slots. *)
  Lemma setpc_pinv issued st t pc pc' : pinv issued st -> nth_error (p_pcs st) t = Some pc -> busy pc = [] -> busy pc' = [] ->
    (match pc' with PReclaim b _ _ | PRetry b => b <= align_up b al | _ => True end) -> pinv issued (set_pc st t pc').
  Proof.
    intros H E B B' OK. destruct (busy_put t pc pc' (p_pcs st) E) as (rest & P1 & P2). rewrite B in P1. rewrite B' in P2. cbn [app] in *.
    assert (T : Permutation (taken (set_pc st t pc')) (taken st)) by (unfold taken; cbn [set_pc p_pcs]; rewrite P1, P2; auto).
    destruct H. split; cbn [set_pc p_free p_slots p_handles p_data p_next p_alive p_pcs]; auto.
    - eapply Permutation_NoDup; [|exact v_nodup0]. apply Permutation_app_head. symmetry. exact T.
    - intros s Hs. apply v_unheld0. eapply Permutation_in; [|exact Hs]. apply Permutation_app_head. exact T.
    - intros s Hs. destruct (v_all0 s Hs) as [X|X]; auto. left. eapply Permutation_in; [|exact X]. apply Permutation_app_head. symmetry. exact T.
    - intros s i [Hs|(b & t' & Hs)] Hi; [eauto|]. destruct (Nat.eq_dec t t') as [<-|Hn].
      + rewrite (put_eq _ _ _ _ E) in Hs. inv Hs. discriminate.
      + rewrite put_neq in Hs by auto. apply v_clean0 with s; eauto.
    - intros t' b s Hs. destruct (Nat.eq_dec t t') as [<-|Hn]; [rewrite (put_eq _ _ _ _ E) in Hs; inv Hs; discriminate|rewrite put_neq in Hs by auto; eauto].
    - intros t' b i n Hs. destruct (Nat.eq_dec t t') as [<-|Hn]; [rewrite (put_eq _ _ _ _ E) in Hs; inv Hs; auto|rewrite put_neq in Hs by auto; eauto].
    - intros t' b Hs. destruct (Nat.eq_dec t t') as [<-|Hn]; [rewrite (put_eq _ _ _ _ E) in Hs; inv Hs; auto|rewrite put_neq in Hs by auto; eauto].
  Qed.

  Lemma claim_apart x p y : apart (claim x p) y <-> apart x y. Proof. unfold apart, claim. cbn. tauto. Qed.

  Lemma ws_case (f : N -> slot) s x (P : N -> slot -> Prop) : P s x -> (forall i, i <> s -> P i (f i)) -> forall i, P i (with_slot f s x i).
  Proof. intros A B i. destruct (N.eq_dec i s) as [->|]; [rewrite ws_eq; auto|rewrite ws_neq; auto]. Qed.

  Lemma pop_pinv issued st t pc bytes e : pinv issued st -> nth_error (p_pcs st) t = Some pc -> busy pc = [] -> bytes <= align_up bytes al ->
    (p_free st = [] -> pinv (issued ++ issues (snd e)) (fst e)) ->
    pinv (issued ++ issues (snd (pop st t bytes e))) (fst (pop st t bytes e)).
  Proof.
    intros H E B Hb HE. unfold pop. destruct (p_free st) as [|s r] eqn:F; auto. cbn [fst snd issues flat_map]. rewrite app_nil_r.
    destruct (busy_put t pc (PGot bytes s) (p_pcs st) E) as (rest & P1 & P2). rewrite B in P1. cbn [app busy] in *.
    set (st' := Pool _ _ _ _ _ _ _).
    assert (T : Permutation (r ++ taken st') (p_free st ++ taken st)).
    { unfold taken. cbn [st' p_pcs]. rewrite F, P1, P2. cbn [app]. symmetry. apply Permutation_middle. }
    assert (SAME : forall i, sl_ref (p_slots st' i) = sl_ref (p_slots st i) /\ sl_gen (p_slots st' i) = sl_gen (p_slots st i) /\
              sl_off (p_slots st' i) = sl_off (p_slots st i) /\ sl_size (p_slots st' i) = sl_size (p_slots st i) /\ sl_cap (p_slots st' i) = sl_cap (p_slots st i)).
    { cbn [st' p_slots]. apply (ws_case (p_slots st) s (claim (p_slots st s) (pid_of t)) (fun i x => sl_ref x = sl_ref (p_slots st i) /\ sl_gen x = sl_gen (p_slots st i) /\
              sl_off x = sl_off (p_slots st i) /\ sl_size x = sl_size (p_slots st i) /\ sl_cap x = sl_cap (p_slots st i))); cbn; auto. }
    assert (R : forall i, sl_ref (p_slots st' i) = sl_ref (p_slots st i)) by apply SAME.
    assert (G : forall i, sl_gen (p_slots st' i) = sl_gen (p_slots st i)) by apply SAME.
    assert (O : forall i, sl_off (p_slots st' i) = sl_off (p_slots st i)) by apply SAME.
    assert (Z : forall i, sl_size (p_slots st' i) = sl_size (p_slots st i)) by apply SAME.
    assert (C : forall i, sl_cap (p_slots st' i) = sl_cap (p_slots st i)) by apply SAME.
    destruct H. split.
    - cbn [st' p_free]. eapply Permutation_NoDup; [symmetry; exact T|auto].
    - cbn [st' p_free]. fold st'. intros x Hx. rewrite R. apply v_unheld0. eapply Permutation_in; [exact T|auto].
    - cbn [st' p_free]. fold st'. intros x Hx. rewrite R. destruct (v_all0 x Hx); auto. left. eapply Permutation_in; [symmetry; exact T|auto].
    - intros x. rewrite R. apply v_ref0.
    - intros d Hd. rewrite G, O, Z. apply v_match0. exact Hd.
    - intros d Hd. rewrite G, O, Z. apply v_issued0. exact Hd.
    - exact v_held0.
    - intros a b Hab. unfold apart. rewrite !O, !C. apply v_apart0. auto.
    - intros x. rewrite O, C, Z. apply v_in0.
    - exact v_next0.
    - intros x i. rewrite O, C, Z. apply v_tail0.
    - intros x i Hx. rewrite O, C. apply v_clean0. cbn [st' p_free p_pcs] in Hx. rewrite F. destruct Hx as [Hx|(b & t' & Hx)]; [left; right; auto|].
      destruct (Nat.eq_dec t t') as [<-|Hn]; [rewrite (put_eq _ _ _ _ E) in Hx; inv Hx; left; left; auto|rewrite put_neq in Hx by auto; right; eauto].
    - exact v_fresh0.
    - exact v_alive0.
    - cbn [st' p_pcs]. intros t' b x Hx. destruct (Nat.eq_dec t t') as [<-|Hn]; [rewrite (put_eq _ _ _ _ E) in Hx; inv Hx; auto|rewrite put_neq in Hx by auto; eauto].
    - cbn [st' p_pcs]. intros t' b x n Hx. destruct (Nat.eq_dec t t') as [<-|Hn]; [rewrite (put_eq _ _ _ _ E) in Hx; inv Hx; auto|rewrite put_neq in Hx by auto; eauto].
    - cbn [st' p_pcs]. intros t' b Hx. destruct (Nat.eq_dec t t') as [<-|Hn]; [rewrite (put_eq _ _ _ _ E) in Hx; inv Hx; auto|rewrite put_neq in Hx by auto; eauto].
  Qed.

  Lemma reclaim_none issued st i : pinv issued st -> reclaim_one st i = (st, 0).
  Proof. intros H. unfold reclaim_one. repeat case_match; auto. rewrite (v_alive _ _ H) in E1. discriminate. Qed.

  (** Giving slot [s] its new tensor; [off], [cap] is its region and [nx] the new bump pointer. *)
  Lemma give_pinv issued st t size s off cp nx :
    pinv issued st -> nth_error (p_pcs st) t = Some (PGot size s) ->
    size <= cp -> off + cp <= nx -> nx <= ps -> p_next st <= nx ->
    (forall b, b <> s -> apart (Slot 1 true (sl_gen (p_slots st s) + 1) off size cp (pid_of t)) (p_slots st b)) ->
    (forall i, off <= i < off + cp -> p_data st i = 0) ->
    let d := Desc s (sl_gen (p_slots st s) + 1) off size in
    pinv (issued ++ [d])
      (Pool nx (p_free st) (with_slot (p_slots st) s (Slot 1 true (sl_gen (p_slots st s) + 1) off size cp (pid_of t)))
            (p_data st) (put t PIdle (p_pcs st)) (d :: p_handles st) (p_alive st)).
  Proof.
    intros H E L1 L2 L3 L4 AP CL d. set (x := Slot 1 true (sl_gen (p_slots st s) + 1) off size cp (pid_of t)) in *.
    destruct (busy_put t _ PIdle (p_pcs st) E) as (rest & P1 & P2). cbn [app busy] in *.
    set (st' := Pool _ _ _ _ _ _ _).
    assert (T : Permutation (p_free st ++ taken st) (s :: p_free st ++ taken st')).
    { unfold taken. cbn [st' p_pcs]. rewrite P1, P2. symmetry. apply Permutation_middle. }
    assert (IN : In s (p_free st ++ taken st)) by (rewrite T; left; auto).
    destruct H. destruct (v_unheld0 s IN) as [Sm S0].
    assert (NI : ~ In s (p_free st ++ taken st')). { eapply Permutation_NoDup in v_nodup0; [|exact T]. inv v_nodup0. auto. }
    assert (NOH : forall d', In d' (p_handles st) -> d_slot d' <> s).
    { intros d' Hd' X. rewrite v_ref0 in S0. assert (Y : In d' (on_slot s (p_handles st))) by (apply filter_In; split; auto; apply N.eqb_eq; auto).
      destruct (on_slot s (p_handles st)); [destruct Y|discriminate]. }
    split.
    - cbn [st' p_free]. fold st'. eapply Permutation_NoDup in v_nodup0; [|exact T]. inv v_nodup0. auto.
    - cbn [st' p_free]. fold st'. intros i Hi. assert (i <> s) by (intros ->; auto). cbn [st' p_slots]. rewrite ws_neq by auto. apply v_unheld0. rewrite T. right; auto.
    - cbn [st' p_free]. fold st'. intros i Hi. cbn [st' p_slots]. destruct (N.eq_dec i s) as [->|Hn]; [rewrite ws_eq; right; cbn; lia|]. rewrite ws_neq by auto.
      destruct (v_all0 i Hi) as [X|X]; auto. left. rewrite T in X. destruct X as [->|X]; [congruence|auto].
    - cbn [st' p_slots p_handles]. intros i. unfold on_slot. cbn [filter d d_slot]. destruct (N.eq_dec i s) as [->|Hn].
      + rewrite ws_eq, N.eqb_refl. cbn [x sl_ref length]. rewrite v_ref0 in S0. unfold on_slot in S0. lia.
      + rewrite ws_neq by auto. rewrite (proj2 (N.eqb_neq s i)) by auto. apply v_ref0.
    - cbn [st' p_slots p_handles]. intros d' [<-|Hd]; [cbn [d d_slot d_gen d_off d_size]; rewrite ws_eq; cbn; auto|].
      rewrite ws_neq by (apply NOH; auto). apply v_match0. auto.
    - cbn [st' p_slots]. intros d' Hd. apply in_app_iff in Hd as [Hd|[<-|[]]].
      + destruct (v_issued0 _ Hd) as (I1 & I2 & I3). split; auto. destruct (N.eq_dec (d_slot d') s) as [Es|Hn].
        * rewrite Es in *. rewrite ws_eq. cbn [x sl_gen]. split; [lia|]. intros; lia.
        * rewrite ws_neq by auto. auto.
      + cbn [d d_slot d_gen d_off d_size]. rewrite ws_eq. cbn [x sl_gen sl_off sl_size]. split; [auto|]. split; [lia|auto].
    - cbn [st' p_handles]. intros d' [<-|Hd]; apply in_app_iff; [right; left; auto|left; apply v_held0; auto].
    - cbn [st' p_slots]. intros a b Hab. destruct (N.eq_dec a s) as [->|Ha].
      + rewrite ws_eq. rewrite ws_neq by auto. apply AP. auto.
      + rewrite (ws_neq _ _ _ a) by auto. destruct (N.eq_dec b s) as [->|Hb].
        * rewrite ws_eq. specialize (AP a Ha). unfold apart in *. tauto.
        * rewrite ws_neq by auto. apply v_apart0. auto.
    - cbn [st' p_slots p_next]. intros i. destruct (N.eq_dec i s) as [->|Hn]; [rewrite ws_eq; cbn [x sl_off sl_cap sl_size]; auto|rewrite ws_neq by auto].
      destruct (v_in0 i). split; auto. lia.
    - auto.
    - cbn [st' p_slots p_data]. intros i j. destruct (N.eq_dec i s) as [->|Hn]; [rewrite ws_eq; cbn [x sl_off sl_cap sl_size]; intros; apply CL; lia|rewrite ws_neq by auto; apply v_tail0].
    - cbn [st' p_slots p_data p_free p_pcs]. intros i j Hi. destruct (N.eq_dec i s) as [->|Hn]; [rewrite ws_eq; cbn [x sl_off sl_cap sl_size]; auto|rewrite ws_neq by auto].
      apply v_clean0. destruct Hi as [Hi|(b & t' & Hi)]; auto. right. destruct (Nat.eq_dec t t') as [<-|Ht]; [rewrite (put_eq _ _ _ _ E) in Hi; inv Hi|rewrite put_neq in Hi by auto; eauto].
    - cbn [st' p_next p_data]. intros i Hi. apply v_fresh0. lia.
    - auto.
    - cbn [st' p_pcs]. intros t' b i Hx. destruct (Nat.eq_dec t t') as [<-|Hn]; [rewrite (put_eq _ _ _ _ E) in Hx; inv Hx; auto|rewrite put_neq in Hx by auto; eauto].
    - cbn [st' p_pcs]. intros t' b i n Hx. destruct (Nat.eq_dec t t') as [<-|Hn]; [rewrite (put_eq _ _ _ _ E) in Hx; inv Hx; auto|rewrite put_neq in Hx by auto; eauto].
    - cbn [st' p_pcs]. intros t' b Hx. destruct (Nat.eq_dec t t') as [<-|Hn]; [rewrite (put_eq _ _ _ _ E) in Hx; inv Hx; auto|rewrite put_neq in Hx by auto; eauto].
  Qed.

  Lemma backend_some next size off nx : next <= ps -> backend_alloc ps al next size = Some (off, nx) -> next <= off /\ nx = off + size /\ nx <= ps.
  Proof.
    intros Hn. unfold backend_alloc. destruct (N.leb_spec U64 (align_up next al + size)); [discriminate|].
    destruct (N.ltb_spec ps (align_up next al + size)); [discriminate|]. intros E. inv E.
    destruct (align_up_ge next al) as [A _]; auto; lia.
  Qed.

  Lemma finish_pinv issued st t size s : pinv issued st -> nth_error (p_pcs st) t = Some (PGot size s) ->
    pinv (issued ++ issues (snd (alloc_finish ps al st t size s))) (fst (alloc_finish ps al st t size s)).
  Proof.
    intros H E. unfold alloc_finish. pose proof (v_bytes _ _ H _ _ _ E) as LB.
    destruct ((0 <? sl_cap (p_slots st s)) && (align_up size al <=? sl_cap (p_slots st s))) eqn:C.
    - bool_prop. cbn [fst snd issues flat_map app]. destruct (v_in _ _ H s) as [I1 I2].
      apply give_pinv; auto; try lia.
      + exact (v_next _ _ H).
      + intros b Hb. pose proof (v_apart _ _ H s b (not_eq_sym Hb)). unfold apart in *. cbn [sl_off sl_cap]. tauto.
      + intros i Hi. apply (v_clean _ _ H s); eauto.
    - destruct (backend_alloc ps al (p_next st) (align_up size al)) as [[off nx]|] eqn:B.
      + cbn [fst snd issues flat_map app]. apply backend_some in B as (B1 & B2 & B3); [|exact (v_next _ _ H)].
        apply give_pinv; auto; try lia.
        * intros b Hb. destruct (v_in _ _ H b) as [I1 I2]. unfold apart. cbn [sl_off sl_cap]. right; left. lia.
        * intros i Hi. apply (v_fresh _ _ H). lia.
      + cbn [fst snd issues flat_map]. rewrite app_nil_r.
        destruct (busy_put t _ PIdle (p_pcs st) E) as (rest & P1 & P2). cbn [app busy] in *. set (st' := Pool _ _ _ _ _ _ _).
        assert (T : Permutation (s :: p_free st ++ taken st') (p_free st ++ taken st)).
        { unfold taken. cbn [st' p_pcs]. rewrite P1, P2. apply Permutation_middle. }
        pose proof (v_clean _ _ H s) as CL. destruct H. split; auto; cbn [st' p_free p_pcs p_slots p_handles p_data p_next p_alive]; fold st'.
        * eapply Permutation_NoDup; [symmetry; exact T|auto].
        * intros x Hx. apply v_unheld0. eapply Permutation_in; [exact T|exact Hx].
        * intros x Hx. destruct (v_all0 x Hx) as [X|X]; auto. left. eapply Permutation_in; [symmetry; exact T|exact X].
        * intros x i Hx Hi. destruct Hx as [[<-|Hx]|(b & t' & Hx)]; [eapply CL; eauto|eauto|].
          destruct (Nat.eq_dec t t') as [<-|Ht]; [rewrite (put_eq _ _ _ _ E) in Hx; inv Hx|rewrite put_neq in Hx by auto; eauto].
        * intros t' b i Hx. destruct (Nat.eq_dec t t') as [<-|Hn]; [rewrite (put_eq _ _ _ _ E) in Hx; inv Hx; auto|rewrite put_neq in Hx by auto; eauto].
        * intros t' b i n Hx. destruct (Nat.eq_dec t t') as [<-|Hn]; [rewrite (put_eq _ _ _ _ E) in Hx; inv Hx; auto|rewrite put_neq in Hx by auto; eauto].
        * intros t' b Hx. destruct (Nat.eq_dec t t') as [<-|Hn]; [rewrite (put_eq _ _ _ _ E) in Hx; inv Hx; auto|rewrite put_neq in Hx by auto; eauto].
  Qed.

  Lemma return_pinv issued st t s : pinv issued st -> nth_error (p_pcs st) t = Some (PReturn s) -> pinv issued (fst (return_slot st t s)).
  Proof.
    intros H E. unfold return_slot. cbn [fst]. set (st' := Pool _ _ _ _ _ _ _).
    destruct (busy_put t _ PIdle (p_pcs st) E) as (rest & P1 & P2). cbn [app busy] in *.
    assert (T : Permutation (s :: p_free st ++ taken st') (p_free st ++ taken st)).
    { unfold taken. cbn [st' p_pcs]. rewrite P1, P2. apply Permutation_middle. }
    assert (SAME : forall i, sl_ref (p_slots st' i) = sl_ref (p_slots st i) /\ sl_gen (p_slots st' i) = sl_gen (p_slots st i) /\
              sl_off (p_slots st' i) = sl_off (p_slots st i) /\ sl_size (p_slots st' i) = sl_size (p_slots st i) /\ sl_cap (p_slots st' i) = sl_cap (p_slots st i)).
    { cbn [st' p_slots]. intros i. destruct (N.eq_dec i s) as [->|Hn]; [rewrite ws_eq; cbn; auto|rewrite ws_neq by auto; auto]. }
    assert (R : forall i, sl_ref (p_slots st' i) = sl_ref (p_slots st i)) by apply SAME.
    assert (G : forall i, sl_gen (p_slots st' i) = sl_gen (p_slots st i)) by apply SAME.
    assert (O : forall i, sl_off (p_slots st' i) = sl_off (p_slots st i)) by apply SAME.
    assert (Z : forall i, sl_size (p_slots st' i) = sl_size (p_slots st i)) by apply SAME.
    assert (C : forall i, sl_cap (p_slots st' i) = sl_cap (p_slots st i)) by apply SAME.
    assert (D : forall i, p_data st' i = (if (sl_off (p_slots st s) <=? i) && (i <? sl_off (p_slots st s) + sl_size (p_slots st s)) then 0 else p_data st i)) by reflexivity.
    assert (D0 : forall i, p_data st i = 0 -> p_data st' i = 0) by (intros i Hi; rewrite D, Hi; destruct (_ && _); auto).
    destruct H. split; auto.
    - cbn [st' p_free]. eapply Permutation_NoDup; [symmetry; exact T|auto].
    - cbn [st' p_free]. fold st'. intros x Hx. rewrite R. apply v_unheld0. eapply Permutation_in; [exact T|exact Hx].
    - cbn [st' p_free]. fold st'. intros x Hx. rewrite R. destruct (v_all0 x Hx) as [X|X]; auto. left. eapply Permutation_in; [symmetry; exact T|exact X].
    - intros x. rewrite R. apply v_ref0.
    - intros d Hd. rewrite G, O, Z. apply v_match0. exact Hd.
    - intros d Hd. rewrite G, O, Z. apply v_issued0. exact Hd.
    - intros a b Hab. unfold apart. rewrite !O, !C. apply v_apart0. auto.
    - intros x. rewrite O, C, Z. apply v_in0.
    - intros x i. rewrite O, C, Z. intros Hi. apply D0. eapply v_tail0; eauto.
    - intros x i Hx. rewrite O, C. intros Hi. destruct (N.eq_dec x s) as [->|Hn].
      + rewrite D. destruct (N.leb_spec (sl_off (p_slots st s)) i); cbn [andb]; [|lia].
        destruct (N.ltb_spec i (sl_off (p_slots st s) + sl_size (p_slots st s))); auto. apply (v_tail0 s). lia.
      + apply D0. apply (v_clean0 x); auto. cbn [st' p_free p_pcs] in Hx. destruct Hx as [[->|Hx]|(b & t' & Hx)]; [congruence|auto|].
        destruct (Nat.eq_dec t t') as [<-|Ht]; [rewrite (put_eq _ _ _ _ E) in Hx; inv Hx|rewrite put_neq in Hx by auto; eauto].
    - cbn [st' p_pcs]. intros t' b i Hx. destruct (Nat.eq_dec t t') as [<-|Hn]; [rewrite (put_eq _ _ _ _ E) in Hx; inv Hx; auto|rewrite put_neq in Hx by auto; eauto].
    - cbn [st' p_pcs]. intros t' b i n Hx. destruct (Nat.eq_dec t t') as [<-|Hn]; [rewrite (put_eq _ _ _ _ E) in Hx; inv Hx; auto|rewrite put_neq in Hx by auto; eauto].
    - cbn [st' p_pcs]. intros t' b Hx. destruct (Nat.eq_dec t t') as [<-|Hn]; [rewrite (put_eq _ _ _ _ E) in Hx; inv Hx; auto|rewrite put_neq in Hx by auto; eauto].
  Qed.

  Lemma retain_pinv issued st t d : pinv issued st -> In d issued -> pinv issued (fst (try_retain ms st t d)).
  Proof.
    intros H Hd. unfold try_retain, ref_of. destruct (slot_in_range ms d && (sl_gen (p_slots st (d_slot d)) =? d_gen d)) eqn:G; [|auto].
    destruct (N.eqb_spec (sl_ref (p_slots st (d_slot d))) 0) as [Z|Z]; [auto|]. cbn [fst]. bool_prop.
    destruct (v_issued _ _ H d Hd) as (I1 & I2 & I3). destruct (I3 (eq_sym H1)) as [I4 I5]. set (st' := Pool _ _ _ _ _ _ _).
    set (s := d_slot d) in *.
    assert (SAME : forall i, sl_gen (p_slots st' i) = sl_gen (p_slots st i) /\
              sl_off (p_slots st' i) = sl_off (p_slots st i) /\ sl_size (p_slots st' i) = sl_size (p_slots st i) /\ sl_cap (p_slots st' i) = sl_cap (p_slots st i)).
    { cbn [st' p_slots]. intros i. destruct (N.eq_dec i s) as [->|Hn]; [rewrite ws_eq; cbn; auto|rewrite ws_neq by auto; auto]. }
    assert (R : forall i, sl_ref (p_slots st' i) = if i =? s then sl_ref (p_slots st s) + 1 else sl_ref (p_slots st i)).
    { intros i. cbn [st' p_slots]. unfold with_slot. destruct (i =? s); auto. }
    assert (G : forall i, sl_gen (p_slots st' i) = sl_gen (p_slots st i)) by apply SAME.
    assert (O : forall i, sl_off (p_slots st' i) = sl_off (p_slots st i)) by apply SAME.
    assert (Z' : forall i, sl_size (p_slots st' i) = sl_size (p_slots st i)) by apply SAME.
    assert (C : forall i, sl_cap (p_slots st' i) = sl_cap (p_slots st i)) by apply SAME.
    destruct H. split; auto.
    - cbn [st' p_free]. intros x Hx. destruct (v_unheld0 x Hx) as [A B]. rewrite R. destruct (N.eqb_spec x s) as [->|]; auto. congruence.
    - cbn [st' p_free]. intros x Hx. rewrite R. destruct (v_all0 x Hx) as [X|X]; auto. right. destruct (x =? s); lia.
    - intros x. rewrite R. cbn [st' p_handles]. unfold on_slot. cbn [filter]. fold s. rewrite (N.eqb_sym s x). destruct (N.eqb_spec x s) as [->|].
      + cbn [length]. rewrite v_ref0. unfold on_slot. lia.
      + apply v_ref0.
    - intros d' Hd'. rewrite G, O, Z'. destruct Hd' as [<-|Hd']; [|apply v_match0; auto]. fold s. auto.
    - intros d' Hd'. rewrite G, O, Z'. apply v_issued0. auto.
    - cbn [st' p_handles]. intros d' [<-|Hd']; auto.
    - intros a b Hab. unfold apart. rewrite !O, !C. apply v_apart0. auto.
    - intros x. rewrite O, C, Z'. apply v_in0.
    - intros x i. rewrite O, C, Z'. apply v_tail0.
    - intros x i Hx. rewrite O, C. apply v_clean0. exact Hx.
  Qed.

  Lemma release_pinv issued st t d : pinv issued st -> In d (p_handles st) -> nth_error (p_pcs st) t = Some PIdle -> pinv issued (fst (try_release ms st t d)).
  Proof.
    intros H Hd E. unfold try_release, ref_of. destruct (slot_in_range ms d && (sl_gen (p_slots st (d_slot d)) =? d_gen d)) eqn:G; [|auto].
    destruct (N.eqb_spec (sl_ref (p_slots st (d_slot d))) 0) as [Z|Z]; [auto|]. cbn [fst]. bool_prop. set (st' := Pool _ _ _ _ _ _ _).
    set (s := d_slot d) in *. set (r := sl_ref (p_slots st s)) in *.
    assert (SAME : forall i, sl_gen (p_slots st' i) = sl_gen (p_slots st i) /\
              sl_off (p_slots st' i) = sl_off (p_slots st i) /\ sl_size (p_slots st' i) = sl_size (p_slots st i) /\ sl_cap (p_slots st' i) = sl_cap (p_slots st i)).
    { cbn [st' p_slots]. intros i. destruct (N.eq_dec i s) as [->|Hn]; [rewrite ws_eq; cbn; auto|rewrite ws_neq by auto; auto]. }
    assert (R : forall i, sl_ref (p_slots st' i) = if i =? s then r - 1 else sl_ref (p_slots st i)).
    { intros i. cbn [st' p_slots]. unfold with_slot. destruct (i =? s); auto. }
    assert (G : forall i, sl_gen (p_slots st' i) = sl_gen (p_slots st i)) by apply SAME.
    assert (O : forall i, sl_off (p_slots st' i) = sl_off (p_slots st i)) by apply SAME.
    assert (Z' : forall i, sl_size (p_slots st' i) = sl_size (p_slots st i)) by apply SAME.
    assert (C : forall i, sl_cap (p_slots st' i) = sl_cap (p_slots st i)) by apply SAME.
    pose proof (v_match _ _ H d Hd) as (M1 & _). fold s in M1.
    assert (NI : ~ In s (p_free st ++ taken st)). { intros X. apply (v_unheld _ _ H) in X as [_ X]. fold r in X. congruence. }
    assert (T : Permutation (taken st') (if r =? 1 then s :: taken st else taken st)).
    { unfold taken. cbn [st' p_pcs]. destruct (r =? 1); auto. destruct (busy_put t _ (PReturn s) (p_pcs st) E) as (rest & P1 & P2). cbn [busy app] in *. rewrite P1, P2. auto. }
    assert (GOT : forall t' b x, nth_error (p_pcs st') t' = Some (PGot b x) -> nth_error (p_pcs st) t' = Some (PGot b x)).
    { intros t' b x. cbn [st' p_pcs]. destruct (r =? 1); auto. destruct (Nat.eq_dec t t') as [<-|Hn]; [rewrite (put_eq _ _ _ _ E); discriminate|rewrite put_neq by auto; auto]. }
    assert (REC : forall t' b x n, nth_error (p_pcs st') t' = Some (PReclaim b x n) -> nth_error (p_pcs st) t' = Some (PReclaim b x n)).
    { intros t' b x n. cbn [st' p_pcs]. destruct (r =? 1); auto. destruct (Nat.eq_dec t t') as [<-|Hn]; [rewrite (put_eq _ _ _ _ E); discriminate|rewrite put_neq by auto; auto]. }
    assert (RET : forall t' b, nth_error (p_pcs st') t' = Some (PRetry b) -> nth_error (p_pcs st) t' = Some (PRetry b)).
    { intros t' b. cbn [st' p_pcs]. destruct (r =? 1); auto. destruct (Nat.eq_dec t t') as [<-|Hn]; [rewrite (put_eq _ _ _ _ E); discriminate|rewrite put_neq by auto; auto]. }
    destruct H. split; auto.
    - cbn [st' p_free]. fold st'. eapply Permutation_NoDup; [apply Permutation_app_head; symmetry; exact T|]. destruct (r =? 1); auto.
      eapply Permutation_NoDup; [apply Permutation_middle|]. constructor; auto.
    - cbn [st' p_free]. fold st'. intros x Hx. apply (Permutation_in x (Permutation_app_head _ T)) in Hx. rewrite R. destruct (N.eqb_spec r 1) as [R1|R1].
      + apply (Permutation_in x (Permutation_sym (Permutation_middle _ _ _))) in Hx. destruct Hx as [<-|Hx].
        * rewrite N.eqb_refl. split; [auto|lia].
        * destruct (v_unheld0 x Hx). destruct (N.eqb_spec x s) as [->|]; [contradiction|auto].
      + destruct (v_unheld0 x Hx). destruct (N.eqb_spec x s) as [->|]; [contradiction|auto].
    - cbn [st' p_free]. fold st'. intros x Hx. rewrite R. destruct (N.eqb_spec x s) as [->|Hn].
      + destruct (N.eqb_spec r 1) as [R1|R1].
        * left. eapply Permutation_in; [apply Permutation_app_head; symmetry; exact T|]. apply in_app_iff. right; left; auto.
        * right. lia.
      + destruct (v_all0 x Hx) as [X|X]; auto. left. eapply Permutation_in; [apply Permutation_app_head; symmetry; exact T|].
        destruct (r =? 1); auto. apply in_app_iff in X as [X|X]; apply in_app_iff; [auto|right; right; auto].
    - intros x. rewrite R. cbn [st' p_handles]. pose proof (drop_one_count x d (p_handles st) Hd) as DC. fold s in DC. rewrite (N.eqb_sym s x) in DC.
      rewrite (v_ref0 x). destruct (N.eqb_spec x s) as [Ex|]; [|lia]. unfold r. rewrite (v_ref0 s), <- Ex. lia.
    - intros d' Hd'. rewrite G, O, Z'. apply v_match0. exact (drop_one_in _ _ _ Hd').
    - intros d' Hd'. rewrite G, O, Z'. apply v_issued0. auto.
    - cbn [st' p_handles]. intros d' Hd'. apply v_held0. exact (drop_one_in _ _ _ Hd').
    - intros a b Hab. unfold apart. rewrite !O, !C. apply v_apart0. auto.
    - intros x. rewrite O, C, Z'. apply v_in0.
    - intros x i. rewrite O, C, Z'. apply v_tail0.
    - intros x i Hx. rewrite O, C. apply v_clean0. destruct Hx as [Hx|(b & t' & Hx)]; [auto|right; eauto].
    - intros t' b x Hx. exact (v_bytes0 _ _ _ (GOT _ _ _ Hx)).
    - intros t' b x n Hx. exact (v_bytes4 _ _ _ _ (REC _ _ _ _ Hx)).
    - intros t' b Hx. exact (v_bytes5 _ _ (RET _ _ Hx)).
  Qed.

  Lemma write_pinv issued st d i b : pinv issued st -> In d (p_handles st) -> pinv issued (write_byte ms ps st d i b).
  Proof.
    intros H Hd. unfold write_byte. destruct (data_slice_ok ms ps st d && (i <? d_size d)) eqn:W; auto. bool_prop.
    destruct (v_match _ _ H d Hd) as (M1 & M2 & M3 & M4). pose proof (handle_ref_pos _ _ _ H Hd) as RP.
    destruct (v_in _ _ H (d_slot d)) as [I1 I2].
    assert (OUT : forall s j, s <> d_slot d -> sl_off (p_slots st s) <= j < sl_off (p_slots st s) + sl_cap (p_slots st s) -> j <> d_off d + i).
    { intros s j Hs Hj. pose proof (v_apart _ _ H s (d_slot d) Hs) as AP. unfold apart in AP. lia. }
    destruct H. split; auto; cbn [p_slots p_data p_free p_pcs p_next].
    - intros s j Hj. destruct (N.eqb_spec j (d_off d + i)) as [->|]; [|eauto]. destruct (N.eq_dec s (d_slot d)) as [->|Hs]; [lia|].
      destruct (v_in0 s). exfalso. eapply OUT; [exact Hs| |reflexivity]. lia.
    - intros s j Hs Hj. destruct (N.eqb_spec j (d_off d + i)) as [->|]; [|eauto]. destruct (N.eq_dec s (d_slot d)) as [->|Hn].
      + exfalso. assert (X : In (d_slot d) (p_free st ++ taken st)).
        { apply in_app_iff. destruct Hs as [Hs|(b' & t' & Hs)]; auto. right. apply in_flat_map. eexists. split; [eapply nth_error_In; exact Hs|left; auto]. }
        apply v_unheld0 in X as [_ X]. lia.
      + exfalso. eapply OUT; [exact Hn|exact Hj|reflexivity].
    - intros j Hj. destruct (N.eqb_spec j (d_off d + i)) as [->|]; [lia|auto].
  Qed.

  Lemma idle_pc st t : idle st t = true -> nth_error (p_pcs st) t = Some PIdle.
  Proof. unfold idle. destruct (nth_error (p_pcs st) t) as [[]|]; auto; discriminate. Qed.

  Lemma act_pinv issued st a : pinv issued st -> permitted issued st a ->
    pinv (issued ++ issues (snd (act ms ps al st a))) (fst (act ms ps al st a)).
  Proof.
    intros H P. assert (S0 : pinv (issued ++ issues []) st) by (cbn; rewrite app_nil_r; auto).
    assert (N0 : forall st', pinv issued st' -> pinv (issued ++ issues (snd (st', @nil outcome))) (fst (st', @nil outcome))) by (intros; cbn; rewrite app_nil_r; auto).
    destruct a as [t sh esz|t|t d|t d|t d i b|t]; cbn [act permitted] in *.
    - destruct (idle st t) eqn:I; [|exact S0]. apply idle_pc in I. unfold alloc_begin. destruct (tensor_bytes sh esz) as [size|]; [|exact S0].
      destruct (N.ltb_spec (align_up size al) size); [exact S0|]. eapply pop_pinv; eauto.
      intros _. apply N0. eapply setpc_pinv; eauto.
    - destruct (nth_error (p_pcs st) t) as [pc|] eqn:E; [|exact S0]. destruct (p_alive st (pid_of t)); [|exact S0].
      destruct pc as [|bytes i n|bytes|bytes s|s]; cbn [step].
      + exact S0.
      + destruct (i <? N.of_nat ms).
        * rewrite (reclaim_none issued) by auto. apply N0. eapply setpc_pinv; eauto. cbn. eapply (v_bytes2 _ _ H); eauto.
        * destruct (0 <? n); [|]; cbn [snd fst issues flat_map]; rewrite ?app_nil_r; eapply setpc_pinv; eauto; eapply (v_bytes2 _ _ H); eauto.
      + eapply pop_pinv; eauto. eapply (v_bytes3 _ _ H); eauto. intros _. cbn [snd fst issues flat_map]; rewrite ?app_nil_r. eapply setpc_pinv; eauto.
      + apply finish_pinv; auto.
      + cbn [return_slot snd issues flat_map]. rewrite app_nil_r. apply return_pinv; auto.
    - destruct (idle st t) eqn:I; [|exact S0].
      replace (issues (snd (try_retain ms st t d))) with (@nil desc) by (unfold try_retain; destruct (ref_of ms st d); reflexivity).
      rewrite app_nil_r. apply retain_pinv; auto.
    - destruct (idle st t) eqn:I; [|exact S0]. apply idle_pc in I.
      replace (issues (snd (try_release ms st t d))) with (@nil desc) by (unfold try_release; destruct (ref_of ms st d); reflexivity).
      rewrite app_nil_r. apply release_pinv; auto.
    - destruct (idle st t) eqn:I; [|exact S0]. apply N0. apply write_pinv; auto.
    - destruct P.
  Qed.

  Lemma issues_app a b : issues (a ++ b) = issues a ++ issues b.
  Proof. unfold issues. apply flat_map_app. Qed.

  Lemma run_pinv l : forall issued st, pinv issued st -> correct ms ps al issued st l ->
    pinv (issued ++ issues (snd (run ms ps al st l))) (fst (run ms ps al st l)).
  Proof.
    induction l as [|a l IH]; intros issued st H C; cbn [run].
    - cbn. rewrite app_nil_r. auto.
    - cbn [correct] in C. destruct C as [P C]. pose proof (act_pinv issued st a H P) as H1. destruct (act ms ps al st a) as [st1 o]. cbn [fst snd] in *.
      specialize (IH _ _ H1 C). destruct (run ms ps al st1 l) as [st2 o2]. cbn [fst snd] in *. rewrite issues_app, app_assoc. auto.
  Qed.

  Lemma same_slot_eq issued st a b : pinv issued st -> In a (p_handles st) -> In b (p_handles st) -> d_slot a = d_slot b -> a = b.
  Proof.
    intros H Ha Hb E. destruct (v_match _ _ H a Ha) as (_ & A2 & A3 & A4). destruct (v_match _ _ H b Hb) as (_ & B2 & B3 & B4).
    destruct a as [a1 a2 a3 a4], b as [b1 b2 b3 b4]; cbn in *. subst. reflexivity.
  Qed.

  Lemma refs_eq issued st d : pinv issued st -> In d (p_handles st) -> references d (p_handles st) = sl_ref (p_slots st (d_slot d)).
  Proof.
    intros H Hd. rewrite (v_ref _ _ H). unfold references, on_slot. f_equal. f_equal. apply filter_ext_in. intros a Ha.
    apply eq_true_iff_eq. rewrite desc_eqb_eq, N.eqb_eq. split; [intros ->; auto|]. intros E. eapply same_slot_eq; eauto.
  Qed.

  Lemma C12_main k l : correct ms ps al [] (pool_init ms k) l ->
    let st := fst (run ms ps al (pool_init ms k) l) in
    (forall d, In d (p_handles st) -> d_off d + d_size d <= ps /\ references d (p_handles st) = sl_ref (p_slots st (d_slot d)) /\
                                      data_slice_ok ms ps st d = true) /\
    (forall a b, In a (p_handles st) -> In b (p_handles st) -> ~ same_tensor a b -> ~ overlap a b).
  Proof.
    intros C st. pose proof (run_pinv l [] _ (init_pinv k) C) as H. fold st in H. split.
    - intros d Hd. destruct (v_match _ _ H d Hd) as (M1 & M2 & M3 & M4). destruct (v_in _ _ H (d_slot d)) as [I1 I2]. pose proof (v_next _ _ H).
      split; [lia|]. split; [eapply refs_eq; eauto|]. unfold data_slice_ok, slot_in_range. rewrite M2, N.eqb_refl.
      rewrite (proj2 (N.ltb_lt _ _) M1). rewrite (proj2 (N.ltb_lt _ _)) by (unfold U64 in *; lia). rewrite (proj2 (N.leb_le _ _)) by lia. reflexivity.
    - intros a b Ha Hb Hn (i & Oa & Ob). destruct (N.eq_dec (d_slot a) (d_slot b)) as [E|E].
      + apply Hn. pose proof (same_slot_eq _ _ _ _ H Ha Hb E). subst. split; auto.
      + pose proof (v_apart _ _ H _ _ E) as AP. destruct (v_match _ _ H a Ha) as (_ & _ & A3 & A4). destruct (v_match _ _ H b Hb) as (_ & _ & B3 & B4).
        destruct (v_in _ _ H (d_slot a)), (v_in _ _ H (d_slot b)). unfold apart in AP. lia.
  Qed.

  (** Slots are never lost: with nothing held and nobody inside, all of them are free. *)
  Lemma no_leak k l : correct ms ps al [] (pool_init ms k) l ->
    let st := fst (run ms ps al (pool_init ms k) l) in
    p_handles st = [] -> (forall t pc, nth_error (p_pcs st) t = Some pc -> pc = PIdle) ->
    Permutation (p_free st) (all_slots ms).
  Proof.
    intros C st Hh Hp. pose proof (run_pinv l [] _ (init_pinv k) C) as H. fold st in H.
    assert (T : taken st = []). { unfold taken. apply incl_l_nil. intros x Hx. apply in_flat_map in Hx as (pc & A & B). apply In_nth_error in A as (t & A). apply Hp in A. subst. destruct B. }
    apply NoDup_Permutation.
    - pose proof (v_nodup _ _ H) as N0. rewrite T, app_nil_r in N0. auto.
    - apply all_slots_nodup.
    - intros s. rewrite in_all_slots. split; intros X.
      + apply (v_unheld _ _ H s). rewrite T, app_nil_r. auto.
      + destruct (v_all _ _ H s X) as [Y|Y]; [rewrite T, app_nil_r in Y; auto|]. rewrite (v_ref _ _ H), Hh in Y. cbn in Y. lia.
  Qed.

  Lemma fresh_zero k l a t d : correct ms ps al [] (pool_init ms k) l ->
    let st := fst (run ms ps al (pool_init ms k) l) in
    permitted (issues (snd (run ms ps al (pool_init ms k) l))) st a ->
    In (OAlloc t d) (snd (act ms ps al st a)) ->
    forall i, d_off d <= i < d_off d + d_size d -> p_data (fst (act ms ps al st a)) i = 0.
  Proof.
    intros C st P O i Hi. pose proof (run_pinv l [] _ (init_pinv k) C) as H. fold st in H. cbn [app] in H.
    destruct a as [t' sh esz|t'|t' d'|t' d'|t' d' j b|t']; cbn [act] in *.
    - destruct (idle st t'); [|destruct O]. unfold alloc_begin, pop in O. destruct (tensor_bytes sh esz); [|destruct O as [O|[]]; discriminate].
      destruct (align_up n al <? n); [destruct O as [O|[]]; discriminate|]. destruct (p_free st); destruct O.
    - destruct (nth_error (p_pcs st) t') as [pc|] eqn:E; [|destruct O]. destruct (p_alive st (pid_of t')); [|destruct O].
      destruct pc as [|bytes x n|bytes|bytes s|s]; cbn [step] in *.
      + destruct O.
      + rewrite (reclaim_none _ _ _ H) in O. destruct (x <? N.of_nat ms); [destruct O|]. destruct (0 <? n); [destruct O|]. destruct O as [O|[]]; discriminate.
      + unfold pop in O. destruct (p_free st); [destruct O as [O|[]]; discriminate|destruct O].
      + revert O. unfold alloc_finish. pose proof (v_bytes _ _ H _ _ _ E) as LB.
        destruct ((0 <? sl_cap (p_slots st s)) && (align_up bytes al <=? sl_cap (p_slots st s))) eqn:CC; cbn [snd fst].
        * intros [O|[]]. inv O. cbn [d_off d_size p_data] in *. bool_prop. eapply (v_clean _ _ H s); [right; eauto|lia].
        * destruct (backend_alloc ps al (p_next st) (align_up bytes al)) as [[off nx]|] eqn:B; cbn [snd fst]; intros [O|[]]; inv O.
          cbn [d_off d_size p_data] in *. apply backend_some in B as (B1 & B2 & B3); [|exact (v_next _ _ H)]. apply (v_fresh _ _ H). lia.
      + destruct O.
    - destruct (idle st t'); [|destruct O]. unfold try_retain in O. case_match_in O; cbn in O; destruct O as [O|[]]; discriminate.
    - destruct (idle st t'); [|destruct O]. unfold try_release in O. case_match_in O; cbn in O; destruct O as [O|[]]; discriminate.
    - destruct (idle st t'); destruct O.
    - destruct O.
  Qed.

  (** ** Stale descriptors *)
  Lemma stale_ref k l d : correct ms ps al [] (pool_init ms k) l ->
    let st := fst (run ms ps al (pool_init ms k) l) in
    In d (issues (snd (run ms ps al (pool_init ms k) l))) -> ~ In d (p_handles st) -> ref_of ms st d = None.
  Proof.
    intros C st Hi Hn. pose proof (run_pinv l [] _ (init_pinv k) C) as H. fold st in H. cbn [app] in H. unfold ref_of.
    destruct (slot_in_range ms d && (sl_gen (p_slots st (d_slot d)) =? d_gen d)) eqn:G; auto.
    destruct (N.eqb_spec (sl_ref (p_slots st (d_slot d))) 0) as [Z|Z]; auto. exfalso. apply Hn. bool_prop.
    destruct (ref_pos_handle _ _ (d_slot d) H) as (d' & D1 & D2); [lia|].
    destruct (v_issued _ _ H d Hi) as (I1 & I2 & I3). destruct (I3 (eq_sym H1)) as [I4 I5].
    destruct (v_match _ _ H d' D1) as (M1 & M2 & M3 & M4). rewrite D2 in *.
    replace d with d'; auto. destruct d as [a1 a2 a3 a4], d' as [b1 b2 b3 b4]; cbn in *. congruence.
  Qed.

  (** Marked slots are in use, as long as no allocation ran out of memory. *)
  Definition marked (st : pool) : Prop := forall s, sl_flag (p_slots st s) = true -> 0 < sl_ref (p_slots st s) \/ In s (taken st).

  Lemma taken_put st t pc pc' s : nth_error (p_pcs st) t = Some pc -> In s (taken st) -> ~ In s (busy pc) -> In s (flat_map busy (put t pc' (p_pcs st))).
  Proof.
    intros E Hs Hn. destruct (busy_put t pc pc' (p_pcs st) E) as (rest & P1 & P2). unfold taken in Hs. rewrite P1 in Hs. rewrite P2. apply in_app_iff. apply in_app_iff in Hs. tauto.
  Qed.
  Lemma taken_new st t pc pc' s : nth_error (p_pcs st) t = Some pc -> In s (busy pc') -> In s (flat_map busy (put t pc' (p_pcs st))).
  Proof. intros E Hs. destruct (busy_put t pc pc' (p_pcs st) E) as (rest & P1 & P2). rewrite P2. apply in_app_iff; auto. Qed.

  Lemma pop_marked st t pc bytes e : marked st -> nth_error (p_pcs st) t = Some pc -> busy pc = [] -> marked (fst e) -> marked (fst (pop st t bytes e)).
  Proof.
    intros M E B He. unfold pop. destruct (p_free st) as [|s r]; auto. cbn [fst]. intros i. unfold taken. cbn [p_slots p_pcs].
    destruct (N.eq_dec i s) as [->|Hn].
    - rewrite ws_eq. intros _. right. eapply taken_new; eauto. left; auto.
    - rewrite ws_neq by auto. intros F. destruct (M i F) as [X|X]; auto. right. eapply taken_put; eauto. rewrite B. auto.
  Qed.
  Lemma setpc_marked st t pc pc' : marked st -> nth_error (p_pcs st) t = Some pc -> busy pc = [] -> marked (set_pc st t pc').
  Proof. intros M E B i F. destruct (M i F) as [X|X]; auto. right. unfold taken. cbn [set_pc p_pcs]. eapply taken_put; eauto. rewrite B. auto. Qed.

  Definition no_oom (o : list outcome) : Prop := forall t, ~ In (ONoMemory t) o.

  Lemma act_marked issued st a : pinv issued st -> permitted issued st a -> marked st -> no_oom (snd (act ms ps al st a)) -> marked (fst (act ms ps al st a)).
  Proof.
    intros H P M O. destruct a as [t sh esz|t|t d|t d|t d i b|t]; cbn [act permitted] in *.
    - destruct (idle st t) eqn:I; [|exact M]. apply idle_pc in I. unfold alloc_begin in *. destruct (tensor_bytes sh esz) as [size|]; [|exact M].
      destruct (align_up size al <? size); [exact M|]. eapply pop_marked; eauto. eapply setpc_marked; eauto.
    - destruct (nth_error (p_pcs st) t) as [pc|] eqn:E; [|exact M]. destruct (p_alive st (pid_of t)); [|exact M].
      destruct pc as [|bytes x n|bytes|bytes s|s]; cbn [step] in *.
      + exact M.
      + rewrite (reclaim_none issued) in * by auto. repeat case_match; cbn [fst]; eapply setpc_marked; eauto.
      + eapply pop_marked; eauto. eapply setpc_marked; eauto.
      + revert O. unfold alloc_finish.
        assert (GIVE : forall nx fr off cp, marked (Pool nx fr (with_slot (p_slots st) s (Slot 1 true (sl_gen (p_slots st s) + 1) off bytes cp (pid_of t))) (p_data st) (put t PIdle (p_pcs st)) (Desc s (sl_gen (p_slots st s) + 1) off bytes :: p_handles st) (p_alive st))).
        { intros nx fr off cp i. unfold taken. cbn [p_slots p_pcs]. destruct (N.eq_dec i s) as [->|Hn]; [rewrite ws_eq; cbn; intros; left; lia|].
          rewrite ws_neq by auto. intros F. destruct (M i F) as [X|X]; auto. right. eapply taken_put; eauto. cbn. intros [->|[]]. congruence. }
        destruct ((0 <? sl_cap (p_slots st s)) && (align_up bytes al <=? sl_cap (p_slots st s))); cbn [fst snd]; [intros _; apply GIVE|].
        destruct (backend_alloc ps al (p_next st) (align_up bytes al)) as [[off nx]|]; cbn [fst snd]; [intros _; apply GIVE|].
        intros X. exfalso. eapply X. left. reflexivity.
      + unfold return_slot. cbn [fst]. intros i. unfold taken. cbn [p_slots p_pcs]. destruct (N.eq_dec i s) as [->|Hn]; [rewrite ws_eq; discriminate|].
        rewrite ws_neq by auto. intros F. destruct (M i F) as [X|X]; auto. right. eapply taken_put; eauto. cbn. intros [->|[]]. congruence.
    - destruct (idle st t) eqn:I; [|exact M]. unfold try_retain in *. destruct (ref_of ms st d) as [r|]; [|exact M]. cbn [fst]. intros i. unfold taken. cbn [p_slots p_pcs].
      destruct (N.eq_dec i (d_slot d)) as [->|Hn]; [rewrite ws_eq; cbn; intros; left; lia|]. rewrite ws_neq by auto. apply M.
    - destruct (idle st t) eqn:I; [|exact M]. apply idle_pc in I. unfold try_release, ref_of in *.
      destruct (slot_in_range ms d && (sl_gen (p_slots st (d_slot d)) =? d_gen d)); [|exact M].
      destruct (N.eqb_spec (sl_ref (p_slots st (d_slot d))) 0) as [Z|Z]; [exact M|]. cbn [fst]. intros i. unfold taken. cbn [p_slots p_pcs].
      destruct (N.eq_dec i (d_slot d)) as [->|Hn].
      + rewrite ws_eq. cbn [set_ref sl_ref sl_flag]. intros F. destruct (N.eqb_spec (sl_ref (p_slots st (d_slot d))) 1) as [R1|R1]; [|left; lia].
        right. eapply taken_new; eauto. left; auto.
      + rewrite ws_neq by auto. intros F. destruct (M i F) as [X|X]; auto. right. destruct (_ =? 1); auto. eapply taken_put; eauto.
    - destruct (idle st t); [|exact M]. unfold write_byte. destruct (_ && _); exact M.
    - destruct P.
  Qed.

  Lemma run_marked l : forall issued st, pinv issued st -> correct ms ps al issued st l -> marked st -> no_oom (snd (run ms ps al st l)) -> marked (fst (run ms ps al st l)).
  Proof.
    induction l as [|a l IH]; intros issued st H C M O; cbn [run] in *; auto.
    cbn [correct] in C. destruct C as [P C]. pose proof (act_pinv issued st a H P) as H1. pose proof (act_marked issued st a H P M) as M1. destruct (act ms ps al st a) as [st1 o]. cbn [fst snd] in *.
    specialize (IH _ _ H1 C). destruct (run ms ps al st1 l) as [st2 o2]. cbn [fst snd] in *.
    apply IH; [apply M1|]; intros t X; eapply (O t); apply in_app_iff; eauto.
  Qed.

  (** Held slots are marked. *)
  Definition held_marked (st : pool) : Prop := forall s, 0 < sl_ref (p_slots st s) -> sl_flag (p_slots st s) = true.
  Lemma pop_held st t bytes e : held_marked st -> held_marked (fst e) -> held_marked (fst (pop st t bytes e)).
  Proof.
    intros M He. unfold pop. destruct (p_free st) as [|s r]; auto. cbn [fst]. intros i. cbn [p_slots]. destruct (N.eq_dec i s) as [->|Hn]; [rewrite ws_eq; auto|rewrite ws_neq by auto; auto].
  Qed.
  Lemma act_held issued st a : pinv issued st -> permitted issued st a -> held_marked st -> held_marked (fst (act ms ps al st a)).
  Proof.
    intros H P M. destruct a as [t sh esz|t|t d|t d|t d i b|t]; cbn [act permitted] in *.
    - destruct (idle st t); [|exact M]. unfold alloc_begin. destruct (tensor_bytes sh esz); [|exact M]. destruct (_ <? _); [exact M|]. apply pop_held; auto.
    - destruct (nth_error (p_pcs st) t) as [pc|] eqn:E; [|exact M]. destruct (p_alive st (pid_of t)); [|exact M].
      destruct pc as [|bytes x n|bytes|bytes s|s]; cbn [step].
      + exact M.
      + rewrite (reclaim_none issued) by auto. repeat case_match; exact M.
      + apply pop_held; auto.
      + unfold alloc_finish. repeat case_match; cbn [fst]; auto; intros j; cbn [p_slots]; (destruct (N.eq_dec j s) as [->|Hn]; [rewrite ws_eq; auto|rewrite ws_neq by auto; auto]).
      + unfold return_slot. cbn [fst]. intros j. cbn [p_slots]. destruct (N.eq_dec j s) as [->|Hn]; [|rewrite ws_neq by auto; auto].
        rewrite ws_eq. cbn [sl_ref]. assert (X : In s (p_free st ++ taken st)).
        { apply in_app_iff. right. apply in_flat_map. eexists. split; [eapply nth_error_In; exact E|left; auto]. }
        apply (v_unheld _ _ H) in X as [_ X]. rewrite X. lia.
    - destruct (idle st t); [|exact M]. unfold try_retain, ref_of. destruct (_ && _); [|exact M]. destruct (N.eqb_spec (sl_ref (p_slots st (d_slot d))) 0); [exact M|].
      cbn [fst]. intros j. cbn [p_slots]. destruct (N.eq_dec j (d_slot d)) as [->|Hn]; [rewrite ws_eq; cbn; intros; apply M; lia|rewrite ws_neq by auto; auto].
    - destruct (idle st t); [|exact M]. unfold try_release, ref_of. destruct (_ && _); [|exact M]. destruct (N.eqb_spec (sl_ref (p_slots st (d_slot d))) 0); [exact M|].
      cbn [fst]. intros j. cbn [p_slots]. destruct (N.eq_dec j (d_slot d)) as [->|Hn]; [rewrite ws_eq; cbn; intros; apply M; lia|rewrite ws_neq by auto; auto].
    - destruct (idle st t); [|exact M]. unfold write_byte. destruct (_ && _); exact M.
    - destruct P.
  Qed.
  Lemma run_held l : forall issued st, pinv issued st -> correct ms ps al issued st l -> held_marked st -> held_marked (fst (run ms ps al st l)).
  Proof.
    induction l as [|a l IH]; intros issued st H C M; cbn [run] in *; auto.
    cbn [correct] in C. destruct C as [P C]. pose proof (act_pinv issued st a H P) as H1. pose proof (act_held issued st a H P M) as M1. destruct (act ms ps al st a) as [st1 o]. cbn [fst snd] in *.
    specialize (IH _ _ H1 C M1). destruct (run ms ps al st1 l) as [st2 o2]. auto.
  Qed.
  Lemma live_flag k l d : correct ms ps al [] (pool_init ms k) l ->
    let st := fst (run ms ps al (pool_init ms k) l) in
    In d (p_handles st) -> sl_flag (p_slots st (d_slot d)) = true.
  Proof.
    intros C st Hd. apply (run_held l [] (pool_init ms k)); auto; [apply init_pinv|intros s; cbn; lia|].
    eapply handle_ref_pos; [exact (run_pinv l [] _ (init_pinv k) C)|exact Hd].
  Qed.

  Lemma stale_validate k l d : correct ms ps al [] (pool_init ms k) l -> no_oom (snd (run ms ps al (pool_init ms k) l)) ->
    let st := fst (run ms ps al (pool_init ms k) l) in
    In d (issues (snd (run ms ps al (pool_init ms k) l))) -> ~ In d (p_handles st) -> ~ In (d_slot d) (taken st) ->
    validate_descriptor ms ps st d = false.
  Proof.
    intros C O st Hi Hn Ht. pose proof (stale_ref k l d C Hi Hn) as R. fold st in R.
    assert (M : marked st). { apply (run_marked l []); auto. apply init_pinv. intros s F. discriminate. }
    unfold validate_descriptor. unfold ref_of in R. destruct (slot_in_range ms d); cbn [andb] in *; auto.
    destruct (sl_flag (p_slots st (d_slot d))) eqn:F; auto. cbn [andb].
    destruct (M _ F) as [X|X]; [|contradiction]. destruct (sl_gen (p_slots st (d_slot d)) =? d_gen d); cbn [andb] in *; auto.
    destruct (N.eqb_spec (sl_ref (p_slots st (d_slot d))) 0); [lia|discriminate].
  Qed.
End Inv.

Lemma checked_ok shape : forall acc, (forall n, fold_left N.mul (firstn n shape) acc < U64) -> checked_product acc shape = Some (fold_left N.mul shape acc).
Proof.
  induction shape as [|x r IH]; intros acc H; cbn [checked_product fold_left]; auto.
  pose proof (H 1%nat) as H1. cbn [firstn fold_left] in H1. rewrite (proj2 (N.ltb_lt _ _)) by auto. apply IH. intros n. exact (H (S n)).
Qed.

Lemma alloc_succeeds (ms : nat) ps al st t shape esz :
  1 <= al -> nth_error (p_pcs st) t = Some PIdle -> p_alive st (pid_of t) = true -> p_free st <> [] ->
  fold_left N.mul shape 1 * esz + al <= U64 -> (forall n, fold_left N.mul (firstn n shape) 1 < U64) ->
  align_up (p_next st) al + align_up (fold_left N.mul shape 1 * esz) al <= ps -> ps < U64 ->
  exists d, snd (run ms ps al st [AAlloc t shape esz; AStep t]) = [OAlloc t d] /\ d_size d = fold_left N.mul shape 1 * esz.
Proof.
  intros Hal E A F S1 S2 R P. remember (fold_left N.mul shape 1 * esz) as size eqn:Es. cbn [run act]. unfold idle. rewrite E, A.
  destruct (align_up_ge size al Hal S1) as [G _].
  unfold alloc_begin, tensor_bytes. rewrite (checked_ok _ _ S2). rewrite <- Es. rewrite (proj2 (N.ltb_lt size U64)) by lia.
  rewrite (proj2 (N.ltb_ge _ _) G). unfold pop. destruct (p_free st) as [|s r]; [congruence|]. cbn [p_pcs p_alive]. rewrite (put_eq _ _ _ _ E), A.
  cbn [step]. unfold alloc_finish. cbn [p_slots p_next]. rewrite ws_eq. cbn [claim sl_cap sl_gen sl_off].
  destruct ((0 <? sl_cap (p_slots st s)) && (align_up size al <=? sl_cap (p_slots st s))).
  - eexists. split; [reflexivity|]. reflexivity.
  - unfold backend_alloc. rewrite (proj2 (N.leb_gt _ _)) by lia. rewrite (proj2 (N.ltb_ge _ _)) by lia. eexists. split; [reflexivity|]. reflexivity.
Qed.

Lemma run_app ms ps al l : forall st l2, run ms ps al st (l ++ l2) = (fst (run ms ps al (fst (run ms ps al st l)) l2), snd (run ms ps al st l) ++ snd (run ms ps al (fst (run ms ps al st l)) l2)).
Proof.
  induction l as [|a l IH]; intros st l2; cbn [app run].
  - cbn. destruct (run ms ps al st l2); auto.
  - destruct (act ms ps al st a) as [s1 o]. rewrite IH. destruct (run ms ps al s1 l) as [s2 o2]. cbn. rewrite app_assoc. auto.
Qed.
Lemma correct_app ms ps al l : forall issued st l2, correct ms ps al issued st (l ++ l2) ->
  correct ms ps al issued st l /\ correct ms ps al (issued ++ issues (snd (run ms ps al st l))) (fst (run ms ps al st l)) l2.
Proof.
  induction l as [|a l IH]; intros issued st l2 H; cbn [app run correct] in *.
  - cbn. rewrite app_nil_r. auto.
  - destruct H as [P H]. destruct (act ms ps al st a) as [s1 o]. apply IH in H as [A B]. split; auto. destruct (run ms ps al s1 l) as [s2 o2]. cbn [fst snd] in *.
    rewrite issues_app, app_assoc. auto.
Qed.

Lemma fresh_zeroed (ms : nat) ps al (k : nat) l a t d :
  1 <= al -> ps + al <= U64 -> correct ms ps al [] (pool_init ms k) (l ++ [a]) ->
  let st := fst (run ms ps al (pool_init ms k) l) in
  let '(st', o) := act ms ps al st a in
  In (OAlloc t d) o -> forall i, i < d_size d -> p_data st' (d_off d + i) = 0.
Proof.
  intros Ha Hp C st. apply correct_app in C as [C1 C2]. cbn [app correct] in C2. destruct C2 as [P _].
  pose proof (fresh_zero ms ps al Ha Hp k l a t d C1 P) as F. fold st in F. destruct (act ms ps al st a) as [st' o]. cbn [fst snd] in F. intros O i Hi. apply F; auto. lia.
Qed.

Lemma stale_inert (ms : nat) ps al (k : nat) l d (t : nat) :
  1 <= al -> ps + al <= U64 -> correct ms ps al [] (pool_init ms k) l ->
  let '(st, o) := run ms ps al (pool_init ms k) l in
  In d (issues o) -> ~ In d (p_handles st) ->
  try_retain ms st t d = (st, [ORetain t d false]) /\ try_release ms st t d = (st, [ORelease t d false]).
Proof.
  intros Ha Hp C. pose proof (stale_ref ms ps al Ha Hp k l d C) as S. destruct (run ms ps al (pool_init ms k) l) as [st o]. cbn [fst snd] in S.
  intros Hi Hn. unfold try_retain, try_release. rewrite S; auto.
Qed.

Lemma stale_invalid (ms : nat) ps al (k : nat) l d :
  1 <= al -> ps + al <= U64 -> correct ms ps al [] (pool_init ms k) l ->
  let '(st, o) := run ms ps al (pool_init ms k) l in
  In d (issues o) -> ~ In d (p_handles st) -> (forall t, ~ In (ONoMemory t) o) ->
  (forall t pc, nth_error (p_pcs st) t = Some pc -> (forall b, pc <> PGot b (d_slot d)) /\ pc <> PReturn (d_slot d)) ->
  validate_descriptor ms ps st d = false.
Proof.
  intros Ha Hp C. pose proof (stale_validate ms ps al Ha Hp k l d C) as S. destruct (run ms ps al (pool_init ms k) l) as [st o]. cbn [fst snd] in S.
  intros Hi Hn O T. apply S; auto. intros X. unfold taken in X. apply in_flat_map in X as (pc & X1 & X2). apply In_nth_error in X1 as [t X1].
  destruct (T t pc X1) as [T1 T2]. destruct pc as [|b i n|b|b s|s]; cbn [busy] in X2; [destruct X2..|destruct X2 as [X2|[]]|destruct X2 as [X2|[]]]; subst s; [eapply T1; reflexivity|congruence].
Qed.

Lemma live_valid (ms : nat) ps al (k : nat) l d :
  1 <= al -> ps + al <= U64 -> correct ms ps al [] (pool_init ms k) l ->
  let st := fst (run ms ps al (pool_init ms k) l) in
  In d (p_handles st) -> validate_descriptor ms ps st d = true.
Proof.
  intros Ha Hp C st Hd. pose proof (live_flag ms ps al Ha Hp k l d C Hd) as F. fold st in F.
  pose proof (run_pinv ms ps al Ha Hp l [] _ (init_pinv ms ps al Ha Hp k) C) as H. fold st in H.
  destruct (v_match _ _ _ _ _ H d Hd) as (M1 & M2 & M3 & M4). destruct (v_in _ _ _ _ _ H (d_slot d)) as [I1 I2]. pose proof (v_next _ _ _ _ _ H).
  unfold validate_descriptor, slot_in_range. rewrite F, M2, M3, M4, !N.eqb_refl. rewrite (proj2 (N.ltb_lt _ _) M1).
  rewrite (proj2 (N.ltb_lt _ _)) by (unfold U64 in *; lia). rewrite (proj2 (N.leb_le _ _)) by lia. reflexivity.
Qed.

(** ** Witnesses *)
Definition inb (d : desc) (l : list desc) : bool := existsb (desc_eqb d) l.
Lemma inb_in d l : inb d l = true -> In d l.
Proof. unfold inb. rewrite existsb_exists. intros (x & A & B). apply desc_eqb_eq in B. subst. auto. Qed.
Definition permittedb (dying : bool) (issued : list desc) (st : pool) (a : pact) : bool :=
  match a with
  | ATryRetain _ d => inb d issued
  | ARelease _ d | AWrite _ d _ _ => inb d (p_handles st)
  | AAlloc _ _ _ | AStep _ => true
  | ADie _ => dying
  end.
Fixpoint correctb (ms : nat) (ps al : N) (dying : bool) (issued : list desc) (st : pool) (l : list pact) : bool :=
  match l with
  | [] => true
  | a :: r => permittedb dying issued st a && correctb ms ps al dying (issued ++ issues (snd (act ms ps al st a))) (fst (act ms ps al st a)) r
  end.
Lemma correctb_ok ms ps al l : forall issued st, correctb ms ps al false issued st l = true -> correct ms ps al issued st l.
Proof.
  induction l as [|a l IH]; intros issued st H; cbn [correctb correct] in *; auto. apply andb_true_iff in H as [P H]. split.
  - destruct a; cbn [permittedb permitted] in *; auto using inb_in. discriminate.
  - apply IH in H. destruct (act ms ps al st a). auto.
Qed.
Lemma correctb_dying ms ps al l : forall issued st, correctb ms ps al true issued st l = true -> correct_until_killed ms ps al issued st l.
Proof.
  induction l as [|a l IH]; intros issued st H; cbn [correctb correct_until_killed] in *; auto. apply andb_true_iff in H as [P H]. split.
  - destruct a; cbn [permittedb permitted] in *; auto using inb_in.
  - apply IH in H. destruct (act ms ps al st a). auto.
Qed.

Ltac notin := let H := fresh in intros H; cbn in H; repeat (destruct H as [H|H]; [discriminate H|]); try destruct H.
Ltac open_run := rewrite (surjective_pairing (run _ _ _ _ _)); cbv beta iota.
Ltac outcome := vm_compute; tauto.

Lemma reclaim_under_reader : exists l d d',
    correct_until_killed 1 4096 64 [] (pool_init 1 3) l /\
    let '(st, o) := run 1 4096 64 (pool_init 1 3) l in
    obtained 1 d o /\ obtained 2 d' o /\ never_released d l /\ never_released d' l /\
    p_alive st (pid_of 1) = true /\ p_alive st (pid_of 2) = true /\ ~ same_tensor d d' /\ overlap d d'.
Proof.
  exists [AAlloc 0 [10] 4; AStep 0; ATryRetain 1 (Desc 0 1 0 40); ADie 0; AAlloc 2 [5] 4; AStep 2; AStep 2; AStep 2; AStep 2],
         (Desc 0 1 0 40), (Desc 0 3 0 20).
  split; [apply correctb_dying; vm_compute; reflexivity|]. open_run. split; [right; outcome|]. split; [left; outcome|].
  split; [intros t; notin|]. split; [intros t; notin|]. split; [vm_compute; reflexivity|]. split; [vm_compute; reflexivity|].
  split; [intros [_ X]; discriminate X|]. exists 0. cbn. lia.
Qed.

Lemma double_entry : exists l d d',
    correct_until_killed 1 128 64 [] (pool_init 1 3) l /\
    let '(st, o) := run 1 128 64 (pool_init 1 3) l in
    In (OAlloc 1 d) o /\ In (OAlloc 2 d') o /\ never_released d l /\ never_released d' l /\
    p_alive st (pid_of 1) = true /\ p_alive st (pid_of 2) = true /\ ~ same_tensor d d' /\ overlap d d'.
Proof.
  exists [AAlloc 0 [1000] 4; AAlloc 1 [10] 4; AStep 0; ADie 0; AStep 1; AStep 1; AStep 1; AStep 1; AAlloc 2 [5] 4; AStep 2],
         (Desc 0 2 0 40), (Desc 0 3 0 20).
  split; [apply correctb_dying; vm_compute; reflexivity|]. open_run. split; [outcome|]. split; [outcome|].
  split; [intros t; notin|]. split; [intros t; notin|]. split; [vm_compute; reflexivity|]. split; [vm_compute; reflexivity|].
  split; [intros [_ X]; discriminate X|]. exists 0. cbn. lia.
Qed.

Lemma idle2 t pc : nth_error [PIdle; PIdle] t = Some pc -> pc = PIdle.
Proof. intros H. apply nth_error_In in H. cbn in H. intuition. Qed.

Lemma validate_failed_alloc : exists l d,
    correct 1 128 64 [] (pool_init 1 2) l /\
    let '(st, o) := run 1 128 64 (pool_init 1 2) l in
    In d (issues o) /\ p_handles st = [] /\ (forall t pc, nth_error (p_pcs st) t = Some pc -> pc = PIdle) /\
    validate_descriptor 1 128 st d = true.
Proof.
  exists [AAlloc 0 [10] 4; AStep 0; ARelease 0 (Desc 0 1 0 40); AStep 0; AAlloc 1 [1000] 4; AStep 1], (Desc 0 1 0 40).
  split; [apply correctb_ok; vm_compute; reflexivity|]. open_run. split; [outcome|]. split; [vm_compute; reflexivity|]. split; [exact idle2|vm_compute; reflexivity].
Qed.
Lemma validate_during_alloc : exists l d,
    correct 1 128 64 [] (pool_init 1 2) l /\
    let '(st, o) := run 1 128 64 (pool_init 1 2) l in
    In d (issues o) /\ p_handles st = [] /\ (forall t, ~ In (ONoMemory t) o) /\ validate_descriptor 1 128 st d = true.
Proof.
  exists [AAlloc 0 [10] 4; AStep 0; ARelease 0 (Desc 0 1 0 40); AStep 0; AAlloc 1 [10] 4], (Desc 0 1 0 40).
  split; [apply correctb_ok; vm_compute; reflexivity|]. open_run. split; [outcome|]. split; [vm_compute; reflexivity|].
  split; [|vm_compute; reflexivity]. intros t.
  assert (E : snd (run 1 128 64 (pool_init 1 2) [AAlloc 0 [10] 4; AStep 0; ARelease 0 (Desc 0 1 0 40); AStep 0; AAlloc 1 [10] 4]) = [OAlloc 0 (Desc 0 1 0 40); ORelease 0 (Desc 0 1 0 40) true]) by (vm_compute; reflexivity).
  rewrite E. notin.
Qed.
Lemma released_writable : exists l d,
    correct 1 128 64 [] (pool_init 1 2) l /\
    let '(st, o) := run 1 128 64 (pool_init 1 2) l in
    In d (issues o) /\ p_handles st = [] /\ (forall t pc, nth_error (p_pcs st) t = Some pc -> pc = PIdle) /\
    data_slice_ok 1 128 st d = true /\ p_data (write_byte 1 128 st d 3 77) 3 = 77.
Proof.
  exists [AAlloc 0 [10] 4; AStep 0; ARelease 0 (Desc 0 1 0 40); AStep 0], (Desc 0 1 0 40).
  split; [apply correctb_ok; vm_compute; reflexivity|]. open_run. split; [outcome|]. split; [vm_compute; reflexivity|]. split; [exact idle2|]. split; vm_compute; reflexivity.
Qed.
Lemma not_scrubbed b : exists l d,
    correct_until_killed 1 64 64 [] (pool_init 1 2) l /\
    let '(st, o) := run 1 64 64 (pool_init 1 2) l in
    In (OAlloc 1 d) o /\ (forall t i c, ~ In (AWrite t d i c) l) /\ d_size d = 64 /\ p_data st (d_off d + 3) = b.
Proof.
  exists [AAlloc 0 [64] 1; AStep 0; AWrite 0 (Desc 0 1 0 64) 3 b; ADie 0; AAlloc 1 [64] 1; AStep 1; AStep 1; AStep 1; AStep 1], (Desc 0 3 0 64).
  split; [apply correctb_dying; vm_compute; reflexivity|]. open_run. split; [outcome|]. split; [intros t i c; notin|]. split; vm_compute; reflexivity.
Qed.

(** ** Attaching *)
Lemma land_pow2 p : N.land (2 ^ p) (2 ^ p - 1) = 0.
Proof. rewrite <- N.pred_sub, <- N.ones_equiv, N.land_ones, N.mod_same; auto. apply N.pow_nonzero. discriminate. Qed.

Lemma open_creator pool_id c h size w :
  c_max_slots c < 2 ^ 32 -> c_alignment c = 2 ^ N.log2 (c_alignment c) -> c_alignment c < 2 ^ 32 ->
  64 + c_max_slots c * 56 + c_alignment c + c_pool_size c < U64 ->
  pool_create pool_id c = (h, size, w) ->
  pool_open h size = Some w /\ w_slots_offset w + c_max_slots c * 56 <= w_data_offset w /\ w_data_offset w + c_pool_size c <= size.
Proof.
  intros H1 H2 H3 H4 E. destruct c as [cs cm ca]. cbn [c_max_slots c_alignment c_pool_size] in *. unfold pool_create in E. inv E. cbn [c_max_slots c_alignment c_pool_size].
  assert (P : 1 <= ca). { rewrite H2. pose proof (N.pow_nonzero 2 (N.log2 ca)). lia. }
  destruct (align_up_ge (64 + cm * 56) ca P) as [A1 A2]; [lia|].
  unfold pool_open. cbn [h_version h_pool_size h_max_slots h_alignment c_max_slots c_alignment c_pool_size]. rewrite !N.mod_small by auto. unfold data_offset_of, view_of. cbn [c_max_slots c_alignment c_pool_size w_slots_offset w_data_offset].
  assert (PW : power_of_two ca = true). { unfold power_of_two. rewrite (proj2 (N.ltb_lt _ _)) by lia. rewrite H2 at 1 2. rewrite land_pow2. reflexivity. }
  rewrite PW. rewrite (proj2 (N.eqb_neq ca 0)) by lia. cbn [orb negb N.eqb POOL_VERSION Pos.eqb].
  rewrite !(proj2 (N.leb_gt _ _)) by lia. rewrite (proj2 (N.ltb_ge _ _)) by (unfold data_offset_of; cbn; lia).
  unfold data_offset_of; cbn. repeat split; lia.
Qed.

Lemma open_in_file h size w :
  pool_open h size = Some w -> h_max_slots h < 2 ^ 32 -> h_alignment h < 2 ^ 32 ->
  w_slots_offset w + h_max_slots h * 56 <= w_data_offset w /\ w_data_offset w + h_pool_size h <= size.
Proof.
  unfold pool_open, data_offset_of. cbn [c_max_slots c_alignment c_pool_size]. intros E M A.
  destruct (negb (h_version h =? POOL_VERSION)); [discriminate|]. destruct (N.eqb_spec (h_alignment h) 0) as [|Z]; cbn [orb] in E; [discriminate|].
  destruct (negb (power_of_two (h_alignment h))); [discriminate|].
  destruct (U64 <=? h_max_slots h * 56); [discriminate|]. destruct (N.leb_spec U64 (64 + h_max_slots h * 56)); [discriminate|].
  destruct (U64 <=? align_up (64 + h_max_slots h * 56) (h_alignment h) + h_pool_size h); [discriminate|].
  destruct (N.ltb_spec size (align_up (64 + h_max_slots h * 56) (h_alignment h) + h_pool_size h)); [discriminate|]. inv E.
  unfold view_of, data_offset_of. cbn [w_slots_offset w_data_offset c_max_slots c_alignment].
  destruct (align_up_ge (64 + h_max_slots h * 56) (h_alignment h)); [lia| |lia].
  unfold U64 in *. change (2 ^ 64) with 18446744073709551616 in *. change (2 ^ 32) with 4294967296 in *. lia.
Qed.

Lemma other_config : exists (c1 c2 : config) (h : header) (size : N) (w1 w2 : view),
    pool_create 7 c1 = (h, size, w1) /\ pool_attach h 7 c2 = Some w2 /\
    let '(_, o) := run 8 4096 64 (pool_init 8 2) [AAlloc 0 [64] 1; AStep 0; AAlloc 1 [64] 1; AStep 1] in
    exists d1 d2 i j, In (OAlloc 0 d1) o /\ In (OAlloc 1 d2) o /\ ~ overlap d1 d2 /\
      i < d_size d1 /\ j < d_size d2 /\ file_byte w2 d1 i = file_byte w1 d2 j.
Proof.
  exists (Config 4096 8 64), (Config 4096 9 64), (Header 4 7 4096 8 64), 4608, (View 64 512 (Config 4096 8 64)), (View 64 576 (Config 4096 9 64)).
  split; [vm_compute; reflexivity|]. split; [vm_compute; reflexivity|]. open_run. exists (Desc 7 1 0 64), (Desc 6 1 64 64), 0, 0.
  split; [outcome|]. split; [outcome|]. split; [intros (i & A & B); cbn in *; lia|]. cbn. split; [lia|]. split; [lia|]. reflexivity.
Qed.

(** ** What the slot headers say was once issued *)
Definition genuine (issued : list desc) (st : pool) : Prop :=
  (forall p, p_alive st p = true) /\
  forall s, let x := p_slots st s in In (Desc s (sl_gen x) (sl_off x) (sl_size x)) issued \/ x = Slot (sl_ref x) (sl_flag x) 0 0 0 (sl_cap x) (sl_pid x).
Lemma genuine_upd issued st st' s y : genuine issued st -> p_alive st' = p_alive st -> p_slots st' = with_slot (p_slots st) s y ->
  (In (Desc s (sl_gen y) (sl_off y) (sl_size y)) issued \/ (sl_gen y = sl_gen (p_slots st s) /\ sl_off y = sl_off (p_slots st s) /\ sl_size y = sl_size (p_slots st s))) ->
  genuine issued st'.
Proof.
  intros (A & G) Ea Es H. split; [rewrite Ea; auto|]. rewrite Es. intros i. cbv zeta. destruct (N.eq_dec i s) as [->|Hn].
  - rewrite ws_eq. destruct H as [H|(E1 & E2 & E3)]; auto. rewrite E1, E2, E3. destruct (G s) as [H|H]; auto. right.
    cbv zeta in H. destruct y as [r f g o z c p]. cbn [sl_gen sl_off sl_size sl_ref sl_flag sl_cap sl_pid] in *. subst. rewrite H. reflexivity.
  - rewrite ws_neq by auto. apply G.
Qed.
Lemma genuine_same issued st st' : genuine issued st -> p_alive st' = p_alive st -> p_slots st' = p_slots st -> genuine issued st'.
Proof. intros (A & G) Ea Es. split; [rewrite Ea; auto|rewrite Es; auto]. Qed.
Lemma genuine_more issued l st : genuine issued st -> genuine (issued ++ l) st.
Proof. intros (A & G). split; auto. intros s. destruct (G s); auto. left. apply in_or_app. auto. Qed.
Lemma act_genuine ms ps al st a issued : (forall t, a <> ADie t) -> genuine issued st ->
  genuine (issued ++ issues (snd (act ms ps al st a))) (fst (act ms ps al st a)).
Proof.
  intros Hd G.
  assert (P : forall t b e, genuine issued (fst e) -> genuine issued (fst (pop st t b e))).
  { intros t b e He. unfold pop. destruct (p_free st) as [|s r]; auto. eapply genuine_upd; [exact G|reflexivity|reflexivity|right; auto]. }
  assert (PO : forall t b e, issues (snd e) = [] -> issues (snd (pop st t b e)) = []).
  { intros t b e He. unfold pop. destruct (p_free st); auto. }
  destruct a as [t shape esz|t|t d|t d|t d i b|t]; cbn [act].
  - destruct (idle st t); [|apply genuine_more; auto]. unfold alloc_begin. destruct (tensor_bytes shape esz); [|apply genuine_more; auto].
    destruct (_ <? _); [apply genuine_more; auto|]. rewrite PO by reflexivity. rewrite app_nil_r. apply P. eapply genuine_same; [exact G|reflexivity|reflexivity].
  - destruct (nth_error (p_pcs st) t) as [pc|]; [|apply genuine_more; auto]. destruct (p_alive st (pid_of t)); [|apply genuine_more; auto].
    destruct pc as [|bytes i n|bytes|bytes s|s]; cbn [step].
    + apply genuine_more; auto.
    + destruct (i <? N.of_nat ms).
      * unfold reclaim_one. destruct (negb (sl_flag (p_slots st i))); [|destruct (sl_pid (p_slots st i) =? 0); [|rewrite (proj1 G)]]; apply genuine_more; (eapply genuine_same; [exact G|reflexivity|reflexivity]).
      * destruct (0 <? n); apply genuine_more; (eapply genuine_same; [exact G|reflexivity|reflexivity]).
    + rewrite PO by reflexivity. rewrite app_nil_r. apply P. eapply genuine_same; [exact G|reflexivity|reflexivity].
    + unfold alloc_finish. destruct (_ && _).
      * cbn [fst snd]. eapply genuine_upd; [apply genuine_more; eauto|reflexivity|reflexivity|]. left. apply in_or_app. right. cbn. auto.
      * destruct (backend_alloc _ _ _ _) as [[off nx]|].
        -- cbn [fst snd]. eapply genuine_upd; [apply genuine_more; eauto|reflexivity|reflexivity|]. left. apply in_or_app. right. cbn. auto.
        -- apply genuine_more. eapply genuine_same; [exact G|reflexivity|reflexivity].
    + unfold return_slot. cbn [fst snd issues flat_map]. rewrite app_nil_r. eapply genuine_upd; [exact G|reflexivity|reflexivity|right; auto].
  - destruct (idle st t); [|apply genuine_more; auto]. unfold try_retain. destruct (ref_of ms st d); [|apply genuine_more; auto].
    cbn [fst snd issues flat_map]. rewrite app_nil_r. eapply genuine_upd; [exact G|reflexivity|reflexivity|right; auto].
  - destruct (idle st t); [|apply genuine_more; auto]. unfold try_release. destruct (ref_of ms st d); [|apply genuine_more; auto].
    cbn [fst snd issues flat_map]. rewrite app_nil_r. eapply genuine_upd; [exact G|reflexivity|reflexivity|right; auto].
  - destruct (idle st t); [|apply genuine_more; auto]. cbn [fst snd issues flat_map]. rewrite app_nil_r. unfold write_byte.
    destruct (_ && _); auto.
  - destruct (Hd t); auto.
Qed.
Lemma run_genuine ms ps al l : forall st issued, (forall t, ~ In (ADie t) l) -> genuine issued st ->
  genuine (issued ++ issues (snd (run ms ps al st l))) (fst (run ms ps al st l)).
Proof.
  induction l as [|a l IH]; intros st issued Hd G; cbn [run]; [apply genuine_more; auto|].
  pose proof (act_genuine ms ps al st a issued ltac:(intros t ->; apply (Hd t); left; auto) G) as A.
  destruct (act ms ps al st a) as [st1 o]. cbn [fst snd] in A. specialize (IH st1 _ ltac:(intros t H; apply (Hd t); right; auto) A).
  destruct (run ms ps al st1 l) as [st2 o2]. cbn [fst snd] in *. unfold issues in *. rewrite flat_map_app, app_assoc. auto.
Qed.

(** ** Nothing outside the data region is ever written, whatever descriptors clients make up *)
Definition pc_bytes (pc : ppc) : list N := match pc with PReclaim b _ _ => [b] | PRetry b => [b] | PGot b _ => [b] | _ => [] end.
Definition confined (ps al : N) (st : pool) : Prop :=
  (forall s, sl_off (p_slots st s) + sl_size (p_slots st s) <= ps /\ sl_off (p_slots st s) + sl_cap (p_slots st s) <= ps) /\
  (forall pc b, In pc (p_pcs st) -> In b (pc_bytes pc) -> b <= align_up b al) /\
  (forall i, ps <= i -> p_data st i = 0).
Lemma In_put {A} (x y : A) l : forall i, In y (put i x l) -> y = x \/ In y l.
Proof. induction l as [|z l IH]; intros [|i] H; cbn [put In] in *; try tauto. - destruct H; auto. - destruct H as [H|H]; auto. apply IH in H. tauto. Qed.
Lemma put_bytes al pc t l : (forall b, In b (pc_bytes pc) -> b <= align_up b al) -> (forall pc b, In pc l -> In b (pc_bytes pc) -> b <= align_up b al) ->
  forall pc' b, In pc' (put t pc l) -> In b (pc_bytes pc') -> b <= align_up b al.
Proof. intros H1 H2 pc' b Hp Hb. apply In_put in Hp as [->|Hp]; eauto. Qed.
Lemma with_slot_region ps f s x : sl_off x + sl_size x <= ps /\ sl_off x + sl_cap x <= ps ->
  (forall i, sl_off (f i) + sl_size (f i) <= ps /\ sl_off (f i) + sl_cap (f i) <= ps) ->
  forall i, sl_off (with_slot f s x i) + sl_size (with_slot f s x i) <= ps /\ sl_off (with_slot f s x i) + sl_cap (with_slot f s x i) <= ps.
Proof. intros Hx Hf i. unfold with_slot. destruct (i =? s); auto. Qed.
Lemma confined_act ms ps al st a : confined ps al st -> confined ps al (fst (act ms ps al st a)).
Proof.
  intros C. pose proof C as (Hs & Hp & Hd).
  assert (Pop : forall t b e, b <= align_up b al -> confined ps al (fst e) -> confined ps al (fst (pop st t b e))).
  { intros t b e Hb He. unfold pop. destruct (p_free st) as [|s r]; auto. split; [|split]; cbn [fst p_slots p_pcs p_data]; auto.
    - apply with_slot_region; auto. apply Hs.
    - apply put_bytes; auto. intros b' [<-|[]]; auto. }
  assert (SetPc : forall t pc, (forall b, In b (pc_bytes pc) -> b <= align_up b al) -> confined ps al (set_pc st t pc)).
  { intros t pc Hb. split; [|split]; cbn [set_pc p_slots p_pcs p_data]; auto. apply put_bytes; auto. }
  destruct a as [t shape esz|t|t d|t d|t d i b|t]; cbn [act].
  - destruct (idle st t); auto. unfold alloc_begin. destruct (tensor_bytes shape esz) as [size|]; auto. destruct (_ <? _) eqn:E; auto.
    apply N.ltb_ge in E. apply Pop; auto. cbn [fst]. apply SetPc. intros b [<-|[]]; auto.
  - destruct (nth_error (p_pcs st) t) as [pc|] eqn:Ep; auto. destruct (p_alive st (pid_of t)); auto.
    apply nth_error_In in Ep. pose proof (fun b => Hp pc b Ep) as Hb. destruct pc as [|b i n|b|b s|s]; cbn [step]; auto.
    + destruct (i <? N.of_nat ms).
      * unfold reclaim_one. destruct (negb (sl_flag (p_slots st i))); [apply SetPc; auto|]. destruct (sl_pid (p_slots st i) =? 0); [apply SetPc; auto|].
        destruct (p_alive st (sl_pid (p_slots st i))); [apply SetPc; auto|].
        split; [|split]; cbn [fst set_pc p_slots p_pcs p_data]; auto; [apply with_slot_region; auto; apply Hs|apply put_bytes; auto].
      * destruct (0 <? n); apply SetPc; auto. intros b' [].
    + apply Pop; [apply Hb; left; auto|]. apply SetPc; intros ? [].
    + unfold alloc_finish. specialize (Hb b ltac:(left; auto)). destruct (_ && _) eqn:Er.
      * bool_prop. split; [|split]; cbn [fst p_slots p_pcs p_data]; auto.
        -- apply with_slot_region; auto. cbn [sl_off sl_size sl_cap]. specialize (Hs s). lia.
        -- apply put_bytes; auto; intros ? [].
      * unfold backend_alloc. destruct (N.leb_spec U64 (align_up (p_next st) al + align_up b al)) as [|_]; [|destruct (N.ltb_spec ps (align_up (p_next st) al + align_up b al))].
        -- split; [|split]; cbn [fst p_slots p_pcs p_data]; auto. apply put_bytes; auto; intros ? [].
        -- split; [|split]; cbn [fst p_slots p_pcs p_data]; auto. apply put_bytes; auto; intros ? [].
        -- split; [|split]; cbn [fst p_slots p_pcs p_data]; auto.
           ++ apply with_slot_region; auto. cbn [sl_off sl_size sl_cap]. lia.
           ++ apply put_bytes; auto; intros ? [].
    + unfold return_slot. split; [|split]; cbn [fst p_slots p_pcs p_data].
      * apply with_slot_region; auto. apply Hs.
      * apply put_bytes; auto; intros b' [].
      * intros i Hi. destruct (_ && _); auto.
  - destruct (idle st t); auto. unfold try_retain. destruct (ref_of ms st d); auto. split; [|split]; cbn [fst p_slots p_pcs p_data]; auto.
    apply with_slot_region; auto. apply Hs.
  - destruct (idle st t); auto. unfold try_release. destruct (ref_of ms st d); auto. split; [|split]; cbn [fst p_slots p_pcs p_data]; auto.
    + apply with_slot_region; auto. apply Hs.
    + destruct (_ =? 1); auto. apply put_bytes; auto; intros ? [].
  - destruct (idle st t); auto. unfold write_byte. destruct (_ && _) eqn:E; auto. split; [|split]; cbn [fst p_slots p_pcs p_data]; auto.
    unfold data_slice_ok in E. bool_prop. intros j Hj. destruct (N.eqb_spec j (d_off d + i)); auto. lia.
  - split; [|split]; cbn [fst p_slots p_pcs p_data]; auto.
Qed.
Lemma confined_run ms ps al l : forall st, confined ps al st -> confined ps al (fst (run ms ps al st l)).
Proof.
  induction l as [|a l IH]; intros st C; cbn [run]; auto. pose proof (confined_act ms ps al st a C) as C1.
  destruct (act ms ps al st a) as [st1 o]. specialize (IH st1 C1). destruct (run ms ps al st1 l). auto.
Qed.
Lemma confined_init ms ps al th : confined ps al (pool_init ms th).
Proof.
  split; [|split]; cbn [pool_init p_slots p_pcs p_data]; auto.
  - intros s. cbn [sl_off sl_size sl_cap]. lia.
  - intros pc b Hp. apply repeat_spec in Hp. subst. intros [].
Qed.
