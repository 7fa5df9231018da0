From Verif.Base Require Import Prelude.
From Coq Require Import Permutation.
From Verif.Model Require Import Treiber.
From Verif.Spec Require Import TreiberSpec.
Local Open Scope N_scope.

(** ** Packing *)
Lemma pow32 : 2 ^ 32 = 4294967296. Proof. reflexivity. Qed.

Lemma unpack_pack g s : g < 2 ^ 32 -> s < 2 ^ 32 -> unpack_tagged_head (pack_tagged_head g s) = (g, s).
Proof.
  intros Hg Hs. unfold unpack_tagged_head, pack_tagged_head.
  assert (D : N.lor (N.shiftl g 32) s = g * 2 ^ 32 + s).
  { rewrite N.shiftl_mul_pow2. apply N.bits_inj. intros i. rewrite N.lor_spec.
    destruct (N.lt_ge_cases i 32) as [L|L].
    - rewrite N.mul_pow2_bits_low by auto. cbn [orb].
      rewrite <- (N.mod_pow2_bits_low (g * 2 ^ 32 + s) 32 i) by auto. rewrite N.add_comm, N.mod_add by discriminate. rewrite N.mod_small by auto. auto.
    - rewrite (N.mul_pow2_bits_high g 32 i) by auto.
      assert (Z : N.testbit s i = false).
      { destruct (N.eq_dec s 0) as [->|Hn]; [apply N.bits_0|]. apply N.bits_above_log2. apply N.lt_le_trans with 32; auto. apply N.log2_lt_pow2; lia. }
      rewrite Z, orb_false_r.
      replace i with (i - 32 + 32) at 2 by lia. rewrite <- N.div_pow2_bits.
      rewrite N.add_comm, N.div_add by discriminate. rewrite (N.div_small s) by auto. reflexivity. }
  rewrite D. rewrite N.shiftr_div_pow2. change (2 ^ 32 - 1) with (N.ones 32). rewrite N.land_ones. rewrite pow32 in *. f_equal; lia.
Qed.

Lemma pack_inj g s g' s' : g < 2 ^ 32 -> s < 2 ^ 32 -> g' < 2 ^ 32 -> s' < 2 ^ 32 ->
  pack_tagged_head g s = pack_tagged_head g' s' -> g = g' /\ s = s'.
Proof. intros A B C D E. apply (f_equal unpack_tagged_head) in E. rewrite !unpack_pack in E by auto. inv E. auto. Qed.

Lemma wrap_succ_mod u : wrap_succ (u mod 2 ^ 32) = (u + 1) mod 2 ^ 32.
Proof. unfold wrap_succ. rewrite pow32. lia. Qed.
Lemma mod32 u : u mod 2 ^ 32 < 2 ^ 32. Proof. rewrite pow32. lia. Qed.
Lemma mod_eq_close a u : a <= u -> u - a < 2 ^ 32 -> u mod 2 ^ 32 = a mod 2 ^ 32 -> u = a.
Proof. rewrite pow32. lia. Qed.

(** ** Lists of threads *)
Lemma set_at_length {A} i (x : A) l : length (set_at i x l) = length l.
Proof. revert i; induction l; destruct i; cbn [set_at length]; auto. Qed.
Lemma nth_error_set_at_eq {A} i (x : A) l y : nth_error l i = Some y -> nth_error (set_at i x l) i = Some x.
Proof. revert i; induction l; destruct i; cbn [set_at nth_error]; try discriminate; auto. Qed.
Lemma nth_error_set_at_neq {A} i j (x : A) l : i <> j -> nth_error (set_at i x l) j = nth_error l j.
Proof. revert i j; induction l; destruct i, j; cbn [set_at nth_error]; intros; auto; try congruence. Qed.

Lemma flat_set {A B} (f : A -> list B) i x y l e : nth_error l i = Some y -> f e = [] ->
  Permutation (flat_map f (set_at i x l)) (f x ++ flat_map f (set_at i e l)).
Proof.
  intros H E. revert i H; induction l as [|z l IH]; intros i H; destruct i; cbn [nth_error set_at flat_map] in *; try discriminate.
  - rewrite E. reflexivity.
  - rewrite (IH _ H). apply Permutation_app_swap_app.
Qed.
Lemma flat_get {A B} (f : A -> list B) i y l e : nth_error l i = Some y -> f e = [] ->
  Permutation (flat_map f l) (f y ++ flat_map f (set_at i e l)).
Proof.
  intros H E. revert i H; induction l as [|z l IH]; intros i H; destruct i; cbn [nth_error set_at flat_map] in *; try discriminate.
  - inv H. rewrite E. reflexivity.
  - rewrite (IH _ H) at 1. apply Permutation_app_swap_app.
Qed.
Lemma flat_other {A B} (f : A -> list B) i j y l e : nth_error l j = Some y -> i <> j -> incl (f y) (flat_map f (set_at i e l)).
Proof.
  intros H N b Hb. apply in_flat_map. exists y. split; auto. apply nth_error_In with j. rewrite nth_error_set_at_neq; auto.
Qed.

Lemma remove_one_perm s l : In s l -> Permutation l (s :: remove_one s l).
Proof.
  induction l as [|x l IH]; intros H; [destruct H|]. cbn [remove_one]. destruct (N.eqb_spec x s) as [->|Hn]; auto.
  destruct H as [->|H]; [congruence|]. rewrite (IH H) at 1. apply perm_swap.
Qed.

(** ** The chain from the top *)
Fixpoint chain (next : N -> N) (x : N) (q : list N) : Prop :=
  match q with [] => x = INVALID_SLOT | s :: r => x = s /\ chain next (next s) r end.

Lemma chain_ext next next' q : forall x, (forall s, In s q -> next' s = next s) -> chain next x q -> chain next' x q.
Proof.
  induction q as [|s q IH]; intros x H C; cbn [chain] in *; auto. destruct C as [E C]. split; auto.
  rewrite H by (left; auto). apply IH; auto. intros; apply H; right; auto.
Qed.

Definition pc_ok (st : tstate) (pc : tpc) : Prop :=
  match pc with
  | TIdle | TPop | TPush _ => True
  | TPopNext tagged a => a <= t_updates st /\ exists s, s < INVALID_SLOT /\ tagged = pack_tagged_head (a mod 2 ^ 32) s /\
        (a = t_updates st -> t_head st = tagged)
  | TPopCas tagged nx a => a <= t_updates st /\ exists s, s < INVALID_SLOT /\ tagged = pack_tagged_head (a mod 2 ^ 32) s /\
        (a = t_updates st -> t_head st = tagged /\ nx = t_next st s)
  | TPushNext s tagged a => a <= t_updates st /\ exists h, h < 2 ^ 32 /\ tagged = pack_tagged_head (a mod 2 ^ 32) h /\
        (a = t_updates st -> t_head st = tagged)
  | TPushCas s tagged a => a <= t_updates st /\ exists h, h < 2 ^ 32 /\ tagged = pack_tagged_head (a mod 2 ^ 32) h /\
        (a = t_updates st -> t_head st = tagged) /\ t_next st s = h
  end.

Record tinv (n : nat) (st : tstate) (q : list N) : Prop := TInv {
  ti_n : N.of_nat n <= INVALID_SLOT;
  ti_chain : exists top, top < 2 ^ 32 /\ t_head st = pack_tagged_head (t_updates st mod 2 ^ 32) top /\ chain (t_next st) top q;
  ti_perm : Permutation (q ++ t_held st ++ in_flight st) (fresh_stack n);
  ti_pcs : forall i pc, nth_error (t_pcs st) i = Some pc -> pc_ok st pc }.

Lemma in_fresh n s : In s (fresh_stack n) <-> s < N.of_nat n.
Proof. induction n as [|n IH]; cbn [fresh_stack In]; [split; [intros []|lia]|]. rewrite IH. lia. Qed.
Lemma fresh_nodup n : NoDup (fresh_stack n).
Proof. induction n as [|n IH]; cbn [fresh_stack]; constructor; auto. rewrite in_fresh. lia. Qed.

Lemma init_chain n : forall next, N.of_nat n <= INVALID_SLOT -> (forall s, s < N.of_nat n -> next s = init_next n s) -> chain next (init_head n) (fresh_stack n).
Proof.
  induction n as [|n IH]; intros next Hn He; cbn [fresh_stack init_head chain]; auto. split; auto.
  rewrite He by lia. cbn [init_next]. rewrite N.eqb_refl.
  replace (match n with O => INVALID_SLOT | S p => N.of_nat p end) with (init_head n) by (destruct n; auto).
  apply IH; [lia|]. intros s Hs. rewrite He by lia. cbn [init_next]. destruct (N.eqb_spec s (N.of_nat n)); auto. lia.
Qed.

Lemma flat_idle k : flat_map pushing (repeat TIdle k) = [].
Proof. induction k; cbn; auto. Qed.

Lemma init_inv n k : N.of_nat n <= INVALID_SLOT -> tinv n (t_init n k) (fresh_stack n).
Proof.
  intros Hn. split; auto.
  - exists (init_head n). split; [|split; [reflexivity|apply init_chain; auto]].
    unfold INVALID_SLOT in Hn. rewrite pow32 in *. destruct n; cbn [init_head]; unfold INVALID_SLOT; rewrite ?pow32; lia.
  - unfold in_flight. cbn [t_init t_held t_pcs]. rewrite flat_idle, !app_nil_r. auto.
  - cbn [t_init t_pcs]. intros i pc H. apply nth_error_In, repeat_spec in H. subst. exact I.
Qed.

Lemma nodup3 n st q : tinv n st q -> NoDup (q ++ t_held st ++ in_flight st).
Proof. intros H. eapply Permutation_NoDup; [symmetry; apply (ti_perm _ _ _ H)|apply fresh_nodup]. Qed.

Lemma NoDup_app_remove_l {A} (l r : list A) : NoDup (l ++ r) -> NoDup r.
Proof. induction l as [|x l IH]; cbn [app]; auto. intros N. inv N. auto. Qed.

Lemma NoDup_app_disj {A} (l r : list A) x : NoDup (l ++ r) -> In x l -> In x r -> False.
Proof.
  induction l as [|y l IH]; cbn [app]; intros N Hl Hr; [destruct Hl|]. inv N. destruct Hl as [->|Hl]; auto. apply H1, in_app_iff; auto.
Qed.

Lemma pc_ok_mono st st' pc : t_updates st < t_updates st' ->
  (forall s, In s (pushing pc) -> t_next st' s = t_next st s) -> pc_ok st pc -> pc_ok st' pc.
Proof.
  intros Hu Hn. destruct pc; cbn [pc_ok pushing] in *; auto.
  - intros (A & s & B & C & _). split; [lia|]. exists s. split; auto. split; auto. lia.
  - intros (A & s & B & C & _). split; [lia|]. exists s. split; auto. split; auto. lia.
  - intros (A & s0 & B & C & _). split; [lia|]. exists s0. split; auto. split; auto. lia.
  - intros (A & s0 & B & C & _ & E). split; [lia|]. exists s0. split; auto. split; auto. split; [lia|]. rewrite Hn by (left; auto). auto.
Qed.

Lemma slots_small n st q s : tinv n st q -> In s (q ++ t_held st ++ in_flight st) -> s < INVALID_SLOT.
Proof. intros H Hi. eapply Permutation_in in Hi; [|apply (ti_perm _ _ _ H)]. apply in_fresh in Hi. pose proof (ti_n _ _ _ H). lia. Qed.

Lemma top_of n st q : tinv n st q -> snd (unpack_tagged_head (t_head st)) = match q with [] => INVALID_SLOT | s :: _ => s end /\
   fst (unpack_tagged_head (t_head st)) = t_updates st mod 2 ^ 32.
Proof.
  intros H. destruct (ti_chain _ _ _ H) as (top & T1 & T2 & T3). rewrite T2, unpack_pack by (auto using mod32). cbn [fst snd]. split; auto.
  destruct q; cbn [chain] in T3; [auto|apply T3].
Qed.

(** Local steps: only the program counter of [t] changes. *)
Lemma set_pc_inv n st q t pc pc' : tinv n st q -> nth_error (t_pcs st) t = Some pc -> pushing pc = pushing pc' ->
  pc_ok st pc' ->
  tinv n (TState (t_head st) (t_next st) (set_at t pc' (t_pcs st)) (t_held st) (t_updates st)) q.
Proof.
  intros H E P O. destruct H as [A B C D]. split; auto; cbn [t_head t_next t_pcs t_held t_updates].
  - unfold in_flight in *. cbn [t_pcs]. rewrite <- C. apply Permutation_app_head, Permutation_app_head.
    rewrite (flat_set pushing t pc' pc (t_pcs st) TIdle E eq_refl), (flat_get pushing t pc (t_pcs st) TIdle E eq_refl), P. auto.
  - intros i p Hp. destruct (Nat.eq_dec t i) as [<-|Hn].
    + rewrite (nth_error_set_at_eq _ _ _ _ E) in Hp. inv Hp. exact O.
    + rewrite nth_error_set_at_neq in Hp by auto. exact (D _ _ Hp).
Qed.

Lemma step_inv n st q a : tinv n st q -> prompt_act st a ->
  exists q', tinv n (fst (t_act st a)) q' /\ (forall ev q2, stack_allows q' ev q2 -> stack_allows q (snd (t_act st a) ++ ev) q2).
Proof.
  intros H Hp.
  assert (SAME : forall st', tinv n st' q -> exists q', tinv n (fst (st', @nil tevent)) q' /\ (forall ev q2, stack_allows q' ev q2 -> stack_allows q (snd (st', @nil tevent) ++ ev) q2)).
  { intros st' H'. exists q. split; auto. }
  destruct a as [t|t s|t sp]; cbn [t_act].
  - destruct (nth_error (t_pcs st) t) as [[]|] eqn:E; auto. apply SAME. eapply set_pc_inv; eauto; exact I.
  - destruct (nth_error (t_pcs st) t) as [[]|] eqn:E; auto.
    destruct (existsb (N.eqb s) (t_held st)) eqn:X; auto. apply SAME. apply existsb_exists in X as (s' & Hs & E'). apply N.eqb_eq in E' as <-.
    destruct H as [A B C D]. split; auto; cbn [t_head t_next t_pcs t_held t_updates].
    + rewrite <- C. apply Permutation_app_head. unfold in_flight. cbn [t_pcs].
      rewrite (flat_set pushing t (TPush s) TIdle (t_pcs st) TIdle E eq_refl), (flat_get pushing t TIdle (t_pcs st) TIdle E eq_refl). cbn [pushing app].
      rewrite (remove_one_perm s (t_held st)) at 2 by auto. cbn [app]. symmetry. apply Permutation_middle.
    + intros i p Hi. destruct (Nat.eq_dec t i) as [<-|Hn].
      * rewrite (nth_error_set_at_eq _ _ _ _ E) in Hi. inv Hi. exact I.
      * rewrite nth_error_set_at_neq in Hi by auto. exact (D _ _ Hi).
  - cbn [prompt_act] in Hp. destruct (nth_error (t_pcs st) t) as [pc|] eqn:E; [|auto].
    destruct (top_of _ _ _ H) as [TOP GEN]. pose proof (ti_pcs _ _ _ H _ _ E) as OK.
    destruct pc as [| |tagged a|tagged nx a|s|s tagged a|s tagged a]; cbn [t_step].
    + auto.
    + destruct (unpack_tagged_head (t_head st)) as [g top] eqn:U. cbn [fst snd] in TOP, GEN. subst top.
      destruct (N.eqb_spec (match q with [] => INVALID_SLOT | s :: _ => s end) INVALID_SLOT) as [Hq|Hq].
      * exists q. split; [cbn [fst]; eapply set_pc_inv; eauto; exact I|]. cbn [snd app]. intros ev q2 S.
        destruct q as [|s q]; [constructor; auto|]. pose proof (slots_small _ _ _ s H (or_introl eq_refl)). subst. lia.
      * apply SAME. eapply set_pc_inv; eauto. cbn [pc_ok]. split; [lia|].
        destruct (ti_chain _ _ _ H) as (top & T1 & T2 & T3). destruct q as [|s q]; [congruence|]. destruct T3 as [-> T3].
        exists s. split; [apply (slots_small _ _ _ s H); left; auto|]. split; auto.
    + destruct (unpack_tagged_head tagged) as [g s0] eqn:U. apply SAME. eapply set_pc_inv; eauto. cbn [pc_ok] in OK |- *.
      destruct OK as (O1 & s & O2 & O3 & O4). subst tagged. rewrite unpack_pack in U by (auto using mod32; unfold INVALID_SLOT in *; rewrite pow32 in *; lia). inv U.
      split; auto. exists s0. split; auto.
    + cbn [loaded_at] in Hp. cbn [pc_ok] in OK. destruct OK as (O1 & s & O2 & O3 & O4).
      assert (S32 : s < 2 ^ 32) by (unfold INVALID_SLOT in *; rewrite pow32 in *; lia).
      destruct (unpack_tagged_head tagged) as [g s0] eqn:U. subst tagged. rewrite unpack_pack in U by (auto using mod32). inv U.
      destruct ((t_head st =? pack_tagged_head (a mod 2 ^ 32) s0) && negb sp) eqn:CAS.
      2:{ apply SAME. eapply set_pc_inv; eauto. exact I. }
      apply andb_prop in CAS as [CAS _]. apply N.eqb_eq in CAS.
      destruct (ti_chain _ _ _ H) as (top & T1 & T2 & T3).
      rewrite T2 in CAS. apply pack_inj in CAS as [G ->]; auto using mod32.
      assert (U : t_updates st = a) by (apply mod_eq_close; auto). destruct (O4 (eq_sym U)) as [_ ->].
      destruct q as [|s q]; cbn [chain] in T3; [lia|]. destruct T3 as [<- T3].
      exists q. split; [|cbn [snd app]; intros; constructor; auto]. cbn [fst].
      rewrite <- U. rewrite wrap_succ_mod. pose proof (nodup3 _ _ _ H) as ND. split; cbn [t_head t_next t_pcs t_held t_updates].
      * exact (ti_n _ _ _ H).
      * exists (t_next st s0). split; auto. destruct q as [|s1 q]; cbn [chain] in T3; [rewrite T3; reflexivity|]. destruct T3 as [-> _].
        assert (s1 < INVALID_SLOT) by (apply (slots_small _ _ _ s1 H); right; left; auto). unfold INVALID_SLOT in *; rewrite pow32 in *; lia.
      * rewrite <- (ti_perm _ _ _ H). cbn [app]. unfold in_flight. cbn [t_pcs].
        rewrite (flat_set pushing t TIdle _ (t_pcs st) TIdle E eq_refl), (flat_get pushing t _ (t_pcs st) TIdle E eq_refl). cbn [pushing app].
        symmetry. apply Permutation_middle.
      * intros i p Hi. destruct (Nat.eq_dec t i) as [<-|Hn].
        -- rewrite (nth_error_set_at_eq _ _ _ _ E) in Hi. inv Hi. exact I.
        -- rewrite nth_error_set_at_neq in Hi by auto. eapply pc_ok_mono; [| |exact (ti_pcs _ _ _ H _ _ Hi)]; cbn [t_updates]; [lia|auto].
    + apply SAME. eapply set_pc_inv; eauto. cbn [pc_ok]. split; [lia|]. destruct (ti_chain _ _ _ H) as (top & T1 & T2 & T3). exists top. auto.
    + cbn [pc_ok] in OK. destruct OK as (O1 & h & O2 & O3 & O4).
      destruct (unpack_tagged_head tagged) as [g h0] eqn:U. subst tagged. rewrite unpack_pack in U by (auto using mod32). inv U. apply SAME.
      pose proof (nodup3 _ _ _ H) as ND.
      assert (FL : Permutation (in_flight st) (s :: flat_map pushing (set_at t TIdle (t_pcs st)))) by (apply (flat_get pushing t _ (t_pcs st) TIdle E eq_refl)).
      assert (INF : In s (in_flight st)) by (rewrite FL; left; auto).
      assert (NQ : ~ In s q). { intros X. eapply NoDup_app_disj; [exact ND|exact X|]. apply in_app_iff. auto. }
      assert (NO : ~ In s (flat_map pushing (set_at t TIdle (t_pcs st)))).
      { apply NoDup_app_remove_l, NoDup_app_remove_l in ND. eapply Permutation_NoDup in ND; [|exact FL]. inv ND. auto. }
      split; cbn [t_head t_next t_pcs t_held t_updates].
      * exact (ti_n _ _ _ H).
      * destruct (ti_chain _ _ _ H) as (top & T1 & T2 & T3). exists top. split; auto. split; auto.
        eapply chain_ext; [|exact T3]. intros x Hx. cbn beta. destruct (N.eqb_spec x s) as [->|]; auto. contradiction.
      * rewrite <- (ti_perm _ _ _ H). apply Permutation_app_head, Permutation_app_head. unfold in_flight at 1. cbn [t_pcs].
        rewrite (flat_set pushing t _ _ (t_pcs st) TIdle E eq_refl). rewrite FL. auto.
      * intros i p Hi. destruct (Nat.eq_dec t i) as [<-|Hn].
        -- rewrite (nth_error_set_at_eq _ _ _ _ E) in Hi. inv Hi. cbn [pc_ok t_updates t_head t_next]. split; auto. exists h0. split; auto. split; auto.
           rewrite N.eqb_refl. auto.
        -- rewrite nth_error_set_at_neq in Hi by auto. pose proof (ti_pcs _ _ _ H _ _ Hi) as OK.
           destruct p; cbn [pc_ok t_updates t_head t_next] in *; auto.
           ++ destruct OK as (P1 & s1 & P2 & P3 & P4). split; auto. exists s1. split; auto. split; auto. intros X. destruct (P4 X) as [P5 P6]. split; auto.
              destruct (N.eqb_spec s1 s) as [->|]; auto. exfalso. apply NQ.
              destruct (ti_chain _ _ _ H) as (top & T1 & T2 & T3). rewrite P5, P3 in T2. apply pack_inj in T2 as [_ T2]; auto using mod32; [|unfold INVALID_SLOT in *; rewrite pow32 in *; lia].
              subst top. destruct q; cbn [chain] in T3; [lia|]. destruct T3 as [-> _]. left; auto.
           ++ destruct OK as (P1 & h & P2 & P3 & P4 & P5). split; auto. exists h. split; auto. split; auto. split; auto.
              destruct (N.eqb_spec s0 s) as [->|]; auto. exfalso. apply NO. eapply (flat_other pushing t i); eauto. left; auto.
    + cbn [loaded_at] in Hp. cbn [pc_ok] in OK. destruct OK as (O1 & h & O2 & O3 & O4 & O5).
      destruct (unpack_tagged_head tagged) as [g h0] eqn:U. subst tagged. rewrite unpack_pack in U by (auto using mod32). inv U.
      destruct ((t_head st =? pack_tagged_head (a mod 2 ^ 32) (t_next st s)) && negb sp) eqn:CAS.
      2:{ apply SAME. eapply set_pc_inv; eauto. exact I. }
      apply andb_prop in CAS as [CAS _]. apply N.eqb_eq in CAS.
      destruct (ti_chain _ _ _ H) as (top & T1 & T2 & T3).
      rewrite T2 in CAS. apply pack_inj in CAS as [G ->]; auto using mod32.
      assert (U : t_updates st = a) by (apply mod_eq_close; auto).
      assert (FL : Permutation (in_flight st) (s :: flat_map pushing (set_at t TIdle (t_pcs st)))) by (apply (flat_get pushing t _ (t_pcs st) TIdle E eq_refl)).
      assert (SM : s < INVALID_SLOT). { apply (slots_small _ _ _ s H). rewrite !in_app_iff. right; right. rewrite FL. left; auto. }
      exists (s :: q). split; [|cbn [snd app]; intros; constructor; auto]. cbn [fst]. rewrite <- U. rewrite wrap_succ_mod.
      split; cbn [t_head t_next t_pcs t_held t_updates].
      * exact (ti_n _ _ _ H).
      * exists s. split; [unfold INVALID_SLOT in *; rewrite pow32 in *; lia|]. split; auto. cbn [chain]. auto.
      * rewrite <- (ti_perm _ _ _ H). rewrite FL. unfold in_flight. cbn [t_pcs].
        rewrite (flat_set pushing t TIdle _ (t_pcs st) TIdle E eq_refl). cbn [pushing app].
        rewrite app_assoc. rewrite Permutation_middle. rewrite <- app_assoc. auto.
      * intros i p Hi. destruct (Nat.eq_dec t i) as [<-|Hn].
        -- rewrite (nth_error_set_at_eq _ _ _ _ E) in Hi. inv Hi. exact I.
        -- rewrite nth_error_set_at_neq in Hi by auto. eapply pc_ok_mono; [| |exact (ti_pcs _ _ _ H _ _ Hi)]; cbn [t_updates]; [lia|auto].
Qed.

Lemma run_inv n l : forall st q, tinv n st q -> prompt st l ->
  exists q', tinv n (fst (t_run st l)) q' /\ stack_allows q (snd (t_run st l)) q'.
Proof.
  induction l as [|a l IH]; intros st q H P; cbn [t_run].
  - exists q. split; auto. constructor.
  - destruct P as [P1 P2]. destruct (step_inv n st q a H P1) as (q1 & H1 & S1). destruct (t_act st a) as [st1 o]. cbn [fst snd] in *.
    destruct (IH st1 q1 H1 P2) as (q2 & H2 & S2). destruct (t_run st1 l) as [st2 o2]. cbn [fst snd] in *. exists q2. auto.
Qed.

Lemma treiber_main n k l : N.of_nat n <= INVALID_SLOT -> prompt (t_init n k) l ->
  let st := fst (t_run (t_init n k) l) in
  exists free, stack_allows (fresh_stack n) (snd (t_run (t_init n k) l)) free /\
    Permutation (free ++ t_held st ++ in_flight st) (fresh_stack n) /\ NoDup (t_held st ++ in_flight st).
Proof.
  intros Hn Hp st. destruct (run_inv n l _ _ (init_inv n k Hn) Hp) as (q & H & S). exists q. split; auto. split; [apply (ti_perm _ _ _ H)|].
  pose proof (nodup3 _ _ _ H) as ND. apply NoDup_app_remove_l in ND. exact ND.
Qed.

(** A compare-and-swap that fails without being spurious lost to another thread's. *)
Lemma failed_lost n st q t pc a : tinv n st q -> nth_error (t_pcs st) t = Some pc -> loaded_at pc = Some a ->
  snd (t_act st (DoStep t false)) = [] -> a < t_updates st.
Proof.
  intros H E L. cbn [t_act]. rewrite E. pose proof (ti_pcs _ _ _ H _ _ E) as OK.
  destruct pc; cbn [loaded_at] in L; try discriminate; inv L; cbn [t_step pc_ok] in *.
  - destruct OK as (O1 & s & O2 & O3 & O4). destruct (unpack_tagged_head tagged) as [g s0].
    destruct (N.eq_dec a (t_updates st)) as [->|]; [|lia]. destruct (O4 eq_refl) as [-> _]. rewrite N.eqb_refl. discriminate.
  - destruct OK as (O1 & h & O2 & O3 & O4 & O5). destruct (unpack_tagged_head tagged) as [g s0].
    destruct (N.eq_dec a (t_updates st)) as [->|]; [|lia]. rewrite (O4 eq_refl), N.eqb_refl. discriminate.
Qed.

(** ** The 32-bit tag wraps *)
Lemma t_run_app st l1 : forall l2, t_run st (l1 ++ l2) =
  let '(s1, o1) := t_run st l1 in let '(s2, o2) := t_run s1 l2 in (s2, o1 ++ o2).
Proof.
  revert st; induction l1 as [|a l1 IH]; intros st l2; cbn [app t_run].
  - destruct (t_run st l2); auto.
  - destruct (t_act st a) as [s1 o1]. rewrite IH. destruct (t_run s1 l1) as [s2 o2]. destruct (t_run s2 l2) as [s3 o3]. rewrite app_assoc. auto.
Qed.

Definition steps (t k : nat) : list tact := repeat (DoStep t false) k.
Definition pop_push (t : nat) (s : N) : list tact := DoPop t :: steps t 3 ++ DoPush t s :: steps t 3.

Lemma pop_push_run g nx c0 u :
  g < 2 ^ 32 -> nx 2 = INVALID_SLOT ->
  exists nx' o, t_run (TState (pack_tagged_head g 2) nx [c0; TIdle] [0; 1] u) (pop_push 1 2) =
            (TState (pack_tagged_head (wrap_succ (wrap_succ g)) 2) nx' [c0; TIdle] [0; 1] (u + 1 + 1), o) /\
            nx' 2 = INVALID_SLOT /\ nx' 1 = nx 1.
Proof.
  intros Hg Hn. unfold pop_push, steps. cbn [repeat app t_run t_act t_pcs nth_error set_at t_step t_head t_next t_held t_updates].
  rewrite unpack_pack by (auto; rewrite pow32; lia). change (2 =? INVALID_SLOT) with false. cbv iota.
  cbn [t_run t_act t_pcs nth_error set_at t_step t_head t_next t_held t_updates].
  rewrite !unpack_pack by (auto; rewrite pow32; lia). rewrite Hn.
  cbn [t_run t_act t_pcs nth_error set_at t_step t_head t_next t_held t_updates].
  rewrite !unpack_pack by (auto; rewrite pow32; lia). rewrite N.eqb_refl. cbn [negb andb].
  assert (W : wrap_succ g < 2 ^ 32) by (unfold wrap_succ; apply mod32). assert (IV : INVALID_SLOT < 2 ^ 32) by reflexivity.
  cbn [t_run t_act t_pcs nth_error set_at t_step t_head t_next t_held t_updates existsb remove_one].
  change (2 =? 2) with true. cbn [orb]. cbv iota.
  do 3 (cbn [t_run t_act t_pcs nth_error set_at t_step t_head t_next t_held t_updates]; rewrite ?unpack_pack by auto).
  rewrite N.eqb_refl. cbn [negb andb].
  eexists _, _. split; [reflexivity|]. cbn beta. change (2 =? 2) with true. change (1 =? 2) with false. auto.
Qed.

Lemma pop_push_many c0 k : forall g nx u, g < 2 ^ 32 -> nx 2 = INVALID_SLOT ->
  exists nx' o, t_run (TState (pack_tagged_head g 2) nx [c0; TIdle] [0; 1] u) (concat (repeat (pop_push 1 2) k)) =
            (TState (pack_tagged_head ((g + 2 * N.of_nat k) mod 2 ^ 32) 2) nx' [c0; TIdle] [0; 1] (u + 2 * N.of_nat k), o) /\
            nx' 2 = INVALID_SLOT /\ nx' 1 = nx 1.
Proof.
  induction k as [|k IH]; intros g nx u Hg Hn; cbn [repeat concat].
  - exists nx, []. change (2 * N.of_nat 0) with 0. rewrite !N.add_0_r, N.mod_small by auto. auto.
  - destruct (pop_push_run g nx c0 u Hg Hn) as (nx1 & o1 & R1 & A1 & B1). rewrite t_run_app, R1.
    assert (W : wrap_succ (wrap_succ g) < 2 ^ 32) by (unfold wrap_succ at 1; apply mod32).
    destruct (IH (wrap_succ (wrap_succ g)) nx1 (u + 1 + 1) W A1) as (nx2 & o2 & R2 & A2 & B2). rewrite R2.
    exists nx2, (o1 ++ o2). split; [|split; congruence]. f_equal. f_equal; [|lia]. f_equal.
    unfold wrap_succ. rewrite pow32. lia.
Qed.

(** Thread 0 is about to take slot 2 (and believes 1 is below it); thread 1 takes all three and puts 2 back. *)
Definition aba_pre : list tact :=
  DoPop 0 :: steps 0 2 ++ DoPop 1 :: steps 1 3 ++ DoPop 1 :: steps 1 3 ++ DoPop 1 :: steps 1 3 ++ DoPush 1 2 :: steps 1 3.
Definition aba_post : list tact := DoStep 0 false :: DoPop 0 :: steps 0 3.

Lemma aba_run k : N.of_nat k = 2 ^ 31 - 2 ->
  t_held (fst (t_run (t_init 3 2) (aba_pre ++ concat (repeat (pop_push 1 2) k) ++ aba_post))) = [1; 2; 0; 1].
Proof.
  intros Hk. rewrite t_run_app.
  assert (P : exists nx o, t_run (t_init 3 2) aba_pre = (TState (pack_tagged_head 4 2) nx [TPopCas (pack_tagged_head 0 2) 1 0; TIdle] [0; 1] 4, o) /\
             nx 2 = INVALID_SLOT /\ nx 1 = 0).
  { eexists _, _. split; [vm_compute; reflexivity|]. split; reflexivity. }
  destruct P as (nx & o & R & A & B). rewrite R. rewrite t_run_app.
  destruct (pop_push_many (TPopCas (pack_tagged_head 0 2) 1 0) k 4 nx 4 eq_refl A) as (nx' & o' & R' & A' & B'). rewrite R'.
  replace ((4 + 2 * N.of_nat k) mod 2 ^ 32) with 0 by (rewrite Hk; reflexivity).
  unfold aba_post, steps. cbn [repeat app t_run t_act t_pcs nth_error set_at t_step t_head t_next t_held t_updates].
  rewrite !unpack_pack by reflexivity. rewrite N.eqb_refl. cbn [negb andb].
  cbn [repeat app t_run t_act t_pcs nth_error set_at t_step t_head t_next t_held t_updates].
  rewrite !unpack_pack by reflexivity. change (1 =? INVALID_SLOT) with false. cbv iota.
  cbn [repeat app t_run t_act t_pcs nth_error set_at t_step t_head t_next t_held t_updates].
  rewrite !unpack_pack by reflexivity. rewrite B', B.
  cbn [repeat app t_run t_act t_pcs nth_error set_at t_step t_head t_next t_held t_updates].
  rewrite !unpack_pack by reflexivity. rewrite N.eqb_refl. cbn [negb andb fst t_held]. reflexivity.
Qed.
