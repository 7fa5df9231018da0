(** Proofs about images sent over topics. *)
From Verif.Base Require Import Prelude.
From Coq Require Import Permutation.
From Verif.Model Require Import TensorPool ImageTopic.
From Verif.Spec Require Import TensorPoolSpec ImageTopicSpec.
From Verif.Proofs Require Import TensorPoolProofs.
Local Open Scope N_scope.

Lemma correct_snoc ms ps al l : forall issued st a, correct ms ps al issued st l -> permitted (issued ++ issues (snd (run ms ps al st l))) (fst (run ms ps al st l)) a -> correct ms ps al issued st (l ++ [a]).
Proof.
  induction l as [|b l IH]; intros issued st a C P; cbn [app correct run] in *.
  - cbn [fst snd issues flat_map] in P. rewrite app_nil_r in P. split; [exact P|]. destruct (act ms ps al st a). exact I.
  - destruct C as [Q C]. split; [exact Q|]. destruct (act ms ps al st b) as [s1 o]. apply IH; [exact C|]. destruct (run ms ps al s1 l) as [s2 o2]. cbn [fst snd] in *. rewrite issues_app, app_assoc in P. exact P.
Qed.
Lemma act_handles ms ps al st a : (exists t shape esz, a = AAlloc t shape esz) \/ (exists t, a = AStep t) ->
  p_handles (fst (act ms ps al st a)) = issues (snd (act ms ps al st a)) ++ p_handles st.
Proof.
  intros [(t & shape & esz & ->)|(t & ->)]; cbn [act].
  - destruct (idle st t); [|reflexivity]. unfold alloc_begin. destruct (tensor_bytes shape esz) as [n|]; [|reflexivity]. destruct (align_up n al <? n); [reflexivity|]. unfold pop. destruct (p_free st); reflexivity.
  - destruct (nth_error (p_pcs st) t) as [pc|]; [|reflexivity]. destruct (p_alive st (pid_of t)); [|reflexivity]. destruct pc as [|b i n|b|b s|s]; cbn [step]; [reflexivity| | | |reflexivity].
    + destruct (i <? N.of_nat ms); [|destruct (0 <? n); reflexivity]. unfold reclaim_one. destruct (negb (sl_flag (p_slots st i))); [reflexivity|]. destruct (sl_pid (p_slots st i) =? 0); [reflexivity|]. destruct (p_alive st (sl_pid (p_slots st i))); reflexivity.
    + unfold pop. destruct (p_free st); reflexivity.
    + unfold alloc_finish. destruct ((0 <? sl_cap (p_slots st s)) && (align_up b al <=? sl_cap (p_slots st s))); [reflexivity|]. destruct (backend_alloc ps al (p_next st) (align_up b al)) as [[off nx]|]; reflexivity.
Qed.
Lemma drop_one_perm d l : In d l -> Permutation l (d :: drop_one d l).
Proof.
  induction l as [|x r IH]; cbn [drop_one]; [intros []|]. intros H. destruct (desc_eqb x d) eqn:E; [apply desc_eqb_eq in E as ->; reflexivity|]. destruct H as [->|H]; [rewrite (proj2 (desc_eqb_eq d d) eq_refl) in E; discriminate|].
  rewrite (IH H) at 1. apply perm_swap.
Qed.
Lemma perm_drop d l m : In d m -> Permutation (d :: l) m -> Permutation l (drop_one d m).
Proof. intros I P. rewrite (drop_one_perm d m I) in P. apply Permutation_cons_inv in P. exact P. Qed.
Lemma kept_put h x k : (h < length k)%nat -> Permutation (opt (kept_by k h) ++ kept (put h x k)) (opt x ++ kept k).
Proof.
  revert h. induction k as [|y r IH]; intros h H; cbn [length] in H; [lia|]. destruct h as [|h].
  - unfold kept_by. cbn [nth_error put]. change (kept (x :: r)) with (opt x ++ kept r). change (kept (y :: r)) with (opt y ++ kept r). rewrite !app_assoc. apply Permutation_app_tail, Permutation_app_comm.
  - cbn [put]. change (kept_by (y :: r) (S h)) with (kept_by r h). change (kept (y :: put h x r)) with (opt y ++ kept (put h x r)). change (kept (y :: r)) with (opt y ++ kept r).
    specialize (IH h ltac:(lia)). rewrite !app_assoc, (Permutation_app_comm (opt (kept_by r h)) (opt y)), (Permutation_app_comm (opt x) (opt y)), <- !app_assoc. apply Permutation_app_head. exact IH.
Qed.
Lemma put_length {A} (x : A) l : forall h, length (put h x l) = length l.
Proof. induction l as [|y r IH]; intros [|h]; cbn [put length]; congruence. Qed.

Section Inv.
  Variables (ms : nat) (ps al : N) (k : nat).
  Hypothesis (Ha : 1 <= al) (Hp : ps + al <= U64).
  Let P0 := pool_init ms k.
  (** The pool is one that proper pool clients leave; its references are the holders, and are all of images made. *)
  Definition J (made : list desc) (s : images) (acts : list pact) : Prop :=
    correct ms ps al [] P0 acts /\ i_pool s = fst (run ms ps al P0 acts) /\ incl made (issues (snd (run ms ps al P0 acts))) /\
    Permutation (p_handles (i_pool s)) (holders s) /\ incl (p_handles (i_pool s)) (issues (snd (run ms ps al P0 acts))).
  Lemma live_ref acts d : correct ms ps al [] P0 acts -> In d (p_handles (fst (run ms ps al P0 acts))) -> exists r, ref_of ms (fst (run ms ps al P0 acts)) d = Some r.
  Proof.
    intros C I. destruct (C12_main ms ps al Ha Hp k acts C) as [M _]. destruct (M d I) as (_ & R & S). fold P0 in R, S. set (st := fst (run ms ps al P0 acts)) in *.
    unfold data_slice_ok in S. apply andb_true_iff in S as [S _]. apply andb_true_iff in S as [S _]. unfold ref_of. rewrite S.
    destruct (sl_ref (p_slots st (d_slot d)) =? 0) eqn:E; [|eauto]. apply N.eqb_eq in E. rewrite E in R. unfold references in R.
    assert (X : In d (filter (desc_eqb d) (p_handles st))) by (apply filter_In; split; [exact I|apply desc_eqb_eq; reflexivity]). destruct (filter (desc_eqb d) (p_handles st)); [destruct X|cbn [length] in R; lia].
  Qed.
  Lemma retain_live st t d r : ref_of ms st d = Some r -> p_handles (retain ms st t d) = d :: p_handles st /\ try_retain ms st t d = (retain ms st t d, [ORetain t d true]).
  Proof. intros E. unfold retain, try_retain. rewrite E. split; reflexivity. Qed.
  Lemma release_live st t d r : ref_of ms st d = Some r -> p_handles (release ms st t d) = drop_one d (p_handles st) /\ try_release ms st t d = (release ms st t d, [ORelease t d true]).
  Proof. intros E. unfold release, try_release. rewrite E. split; reflexivity. Qed.
  Lemma run_snoc st acts a : run ms ps al st (acts ++ [a]) = (fst (act ms ps al (fst (run ms ps al st acts)) a), snd (run ms ps al st acts) ++ snd (act ms ps al (fst (run ms ps al st acts)) a)).
  Proof. rewrite run_app. cbn [run]. destruct (act ms ps al (fst (run ms ps al st acts)) a) as [s o]. cbn [fst snd]. rewrite app_nil_r. reflexivity. Qed.
  (** One more pool event by a proper client. *)
  Lemma J_ext made s acts a held keep due : J made s acts -> permitted (issues (snd (run ms ps al P0 acts))) (i_pool s) a ->
    let p := fst (act ms ps al (i_pool s) a) in let o := snd (act ms ps al (i_pool s) a) in
    Permutation (p_handles p) (held ++ kept keep ++ due) -> incl (p_handles p) (issues o ++ issues (snd (run ms ps al P0 acts))) ->
    J made (Images p held keep due) (acts ++ [a]) /\ incl (p_handles p) (issues (snd (run ms ps al P0 (acts ++ [a])))).
  Proof.
    intros (C & E & M & Q & I) P p o Q' I'. assert (X : incl (p_handles p) (issues (snd (run ms ps al P0 (acts ++ [a]))))).
    { rewrite run_snoc, <- E. cbn [snd]. rewrite issues_app. intros x Hx. apply I' in Hx. apply in_app_iff in Hx. apply in_or_app. tauto. }
    split; [|exact X]. unfold J. cbn [i_pool]. split; [apply correct_snoc; [exact C|]; cbn [app]; rewrite <- E; exact P|]. split; [rewrite run_snoc, <- E; reflexivity|].
    split; [rewrite run_snoc; cbn [snd]; rewrite issues_app; intros x Hx; apply in_or_app; left; apply M, Hx|]. split; [exact Q'|exact X].
  Qed.
  Definition fits (made : list desc) (s : images) (a : iact) : Prop :=
    match a with IClone _ d | IDrop _ d | ISend _ _ d => In d (i_held s) | IRelease _ d => In d (i_due s) | IRecv _ w => In w made | _ => True end.
  Definition more (made : list desc) (s' : images) (a : iact) : list desc := match a with INew _ _ _ | IStep _ => i_held s' | _ => [] end ++ made.
  Lemma J_more made made' s acts : J made s acts -> incl made' (issues (snd (run ms ps al P0 acts))) -> J made' s acts.
  Proof. intros (C & E & M & Q & I) X. repeat split; assumption. Qed.
  Lemma in_holders made s acts d : J made s acts -> In d (holders s) -> In d (p_handles (i_pool s)).
  Proof. intros (_ & _ & _ & Q & _) I. eapply Permutation_in; [symmetry; exact Q|exact I]. Qed.
  Lemma J_retain made s acts t d held keep due : J made s acts -> idle (i_pool s) t = true -> In d (p_handles (i_pool s)) -> Permutation (d :: holders s) (held ++ kept keep ++ due) ->
    J made (Images (retain ms (i_pool s) t d) held keep due) (acts ++ [ATryRetain t d]).
  Proof.
    intros H T I Q. pose proof H as (C & E & M & Q0 & I0). destruct (live_ref acts d C) as [r R]; [rewrite <- E; exact I|]. rewrite <- E in R. destruct (retain_live _ t d r R) as [R1 R2].
    assert (A : act ms ps al (i_pool s) (ATryRetain t d) = (retain ms (i_pool s) t d, [ORetain t d true])) by (cbn [act]; rewrite T; exact R2).
    pose proof (J_ext made s acts (ATryRetain t d) held keep due H) as X. rewrite A in X. cbn [fst snd] in X. apply X; [exact (I0 d I)|rewrite R1, Q0; exact Q|].
    rewrite R1. intros x [<-|Hx]; apply in_or_app; right; apply I0; assumption.
  Qed.
  Lemma J_release made s acts t d held keep due : J made s acts -> idle (i_pool s) t = true -> In d (p_handles (i_pool s)) -> Permutation (holders s) (d :: held ++ kept keep ++ due) ->
    J made (Images (release ms (i_pool s) t d) held keep due) (acts ++ [ARelease t d]).
  Proof.
    intros H T I Q. pose proof H as (C & E & M & Q0 & I0). destruct (live_ref acts d C) as [r R]; [rewrite <- E; exact I|]. rewrite <- E in R. destruct (release_live _ t d r R) as [R1 R2].
    assert (A : act ms ps al (i_pool s) (ARelease t d) = (release ms (i_pool s) t d, [ORelease t d true])) by (cbn [act]; rewrite T; exact R2).
    pose proof (J_ext made s acts (ARelease t d) held keep due H) as X. rewrite A in X. cbn [fst snd] in X. apply X; [exact I| |].
    - rewrite R1. symmetry. apply perm_drop; [exact I|]. rewrite <- Q. symmetry. exact Q0.
    - rewrite R1. intros x Hx. apply drop_one_in in Hx. apply in_or_app. right. apply I0, Hx.
  Qed.
  Lemma J_new made s acts a p o : J made s acts -> (exists t shape esz, a = AAlloc t shape esz) \/ (exists t, a = AStep t) -> act ms ps al (i_pool s) a = (p, o) ->
    J (issues o ++ i_held s ++ made) (Images p (issues o ++ i_held s) (i_keep s) (i_due s)) (acts ++ [a]).
  Proof.
    intros H F A. pose proof H as (C & E & M & Q0 & I0). pose proof (act_handles ms ps al (i_pool s) a F) as Hd. pose proof (J_ext made s acts a (issues o ++ i_held s) (i_keep s) (i_due s) H) as X. rewrite A in X, Hd. cbn [fst snd] in X, Hd.
    assert (P : permitted (issues (snd (run ms ps al P0 acts))) (i_pool s) a) by (destruct F as [(?&?&?&->)|(?&->)]; exact I).
    specialize (X P). destruct X as [X Y].
    - rewrite Hd, Q0. unfold holders. rewrite <- !app_assoc. reflexivity.
    - rewrite Hd. intros x Hx. apply in_app_iff in Hx. apply in_or_app. destruct Hx; [left; assumption|right; apply I0; assumption].
    - eapply J_more; [exact X|]. assert (O : forall x, In x (issues o) -> In x (issues (snd (run ms ps al P0 (acts ++ [a]))))) by (intros x Hx; rewrite run_snoc, <- E, A; cbn [snd]; rewrite issues_app; apply in_or_app; right; exact Hx).
      assert (O2 : forall x, In x (issues (snd (run ms ps al P0 acts))) -> In x (issues (snd (run ms ps al P0 (acts ++ [a]))))) by (intros x Hx; rewrite run_snoc; cbn [snd]; rewrite issues_app; apply in_or_app; left; exact Hx).
      intros x Hx. apply in_app_iff in Hx as [Hx|Hx]; [apply O, Hx|]. apply in_app_iff in Hx as [Hx|Hx]; [|apply O2, M, Hx]. apply O2, I0. eapply in_holders; [exact H|]. unfold holders. apply in_or_app. left. exact Hx.
  Qed.
  Lemma J_step made s acts a : J made s acts -> fits made s a -> exists acts', J (more made (istep ms ps al s a) a) (istep ms ps al s a) acts'.
  Proof.
    intros H F. unfold more. destruct a as [t shape esz|t|t d|t d|t h d|t d|t w|h]; cbn [istep fits app] in *.
    - destruct (act ms ps al (i_pool s) (AAlloc t shape esz)) as [p o] eqn:A. exists (acts ++ [AAlloc t shape esz]). cbn [i_held]. change (flat_map _ o) with (issues o). rewrite <- app_assoc. apply J_new; eauto.
    - destruct (act ms ps al (i_pool s) (AStep t)) as [p o] eqn:A. exists (acts ++ [AStep t]). cbn [i_held]. change (flat_map _ o) with (issues o). rewrite <- app_assoc. apply J_new; eauto.
    - destruct (idle (i_pool s) t) eqn:T; [|exists acts; exact H]. exists (acts ++ [ATryRetain t d]). apply J_retain; [exact H|exact T|eapply in_holders; [exact H|unfold holders; apply in_or_app; left; exact F]|reflexivity].
    - destruct (idle (i_pool s) t) eqn:T; [|exists acts; exact H]. exists (acts ++ [ARelease t d]). apply J_release; [exact H|exact T|eapply in_holders; [exact H|unfold holders; apply in_or_app; left; exact F]|].
      unfold holders. rewrite (drop_one_perm d (i_held s) F) at 1. reflexivity.
    - destruct (idle (i_pool s) t) eqn:T; cbn [andb]; [|exists acts; exact H]. destruct (h <? length (i_keep s))%nat eqn:L; [|exists acts; exact H]. apply Nat.ltb_lt in L. exists (acts ++ [ATryRetain t d]).
      apply J_retain; [exact H|exact T|eapply in_holders; [exact H|unfold holders; apply in_or_app; left; exact F]|]. pose proof (kept_put h (Some d) (i_keep s) L) as K. cbn [opt app] in K. unfold holders.
      change (d :: i_held s ++ kept (i_keep s) ++ i_due s) with ([d] ++ i_held s ++ kept (i_keep s) ++ i_due s). rewrite Permutation_app_swap_app. apply Permutation_app_head. rewrite !app_assoc. apply Permutation_app_tail.
      cbn [app]. rewrite <- K. apply Permutation_app_comm.
    - destruct (idle (i_pool s) t) eqn:T; [|exists acts; exact H]. exists (acts ++ [ARelease t d]). apply J_release; [exact H|exact T|eapply in_holders; [exact H|unfold holders; apply in_or_app; right; apply in_or_app; right; exact F]|].
      unfold holders. rewrite (drop_one_perm d (i_due s) F) at 1. rewrite !app_assoc. symmetry. apply Permutation_middle.
    - destruct (idle (i_pool s) t) eqn:T; [|exists acts; exact H]. pose proof H as (C & E & M & Q0 & I0). destruct (ref_of ms (i_pool s) w) as [r|] eqn:R.
      + destruct (retain_live _ t w r R) as [R1 R2]. rewrite R2. exists (acts ++ [ATryRetain t w]).
        assert (A : act ms ps al (i_pool s) (ATryRetain t w) = (retain ms (i_pool s) t w, [ORetain t w true])) by (cbn [act]; rewrite T; exact R2).
        pose proof (J_ext made s acts (ATryRetain t w) (w :: i_held s) (i_keep s) (i_due s) H) as X. rewrite A in X. cbn [fst snd] in X. apply X; [apply M, F|rewrite R1, Q0; reflexivity|].
        rewrite R1. intros x [<-|Hx]; apply in_or_app; right; [apply M, F|apply I0, Hx].
      + unfold try_retain. rewrite R. exists acts. destruct s. exact H.
    - destruct (h <? length (i_keep s))%nat eqn:L; [|exists acts; exact H]. apply Nat.ltb_lt in L. exists acts. destruct H as (C & E & M & Q0 & I0). repeat split; cbn [i_pool]; auto. rewrite Q0. unfold holders. cbn [i_held i_keep i_due].
      apply Permutation_app_head. rewrite !app_assoc. apply Permutation_app_tail. pose proof (kept_put h None (i_keep s) L) as K. cbn [opt app] in K. rewrite <- K. apply Permutation_app_comm.
  Qed.
  Lemma J_run : forall l made s acts, J made s acts -> proper ms ps al made s l -> exists made' acts', J made' (irun ms ps al s l) acts' /\ incl made made'.
  Proof.
    induction l as [|a l IH]; intros made s acts H Pr; cbn [irun fold_left proper] in *; [exists made, acts; split; [exact H|apply incl_refl]|]. destruct Pr as [F Pr].
    destruct (J_step made s acts a H F) as [acts1 H1]. unfold more in H1. destruct (IH _ _ _ H1 Pr) as (made' & acts' & H' & I'). exists made', acts'. split; [exact H'|].
    intros x Hx. apply I', in_or_app. right. exact Hx.
  Qed.
  Lemma J_init topics : J [] (images_init ms k topics) [].
  Proof.
    unfold J, images_init, holders. cbn [i_pool i_held i_keep i_due run fst snd issues flat_map app correct]. repeat split; try (intros x []).
    replace (kept (repeat None topics)) with (@nil desc); [reflexivity|]. induction topics as [|n IH]; [reflexivity|exact IH].
  Qed.
End Inv.

(** Books of a thread that sends. *)
Section Sends.
  Variables (ms : nat) (ps al : N).
  Lemma retain_idle st t d u : idle (retain ms st t d) u = idle st u.
  Proof. unfold retain, try_retain, idle. destruct (ref_of ms st d); reflexivity. Qed.
  Lemma release_step st t d : idle st t = true -> exists p, act ms ps al (release ms st t d) (AStep t) = (p, []) /\ idle p t = true.
  Proof.
    intros T. unfold idle in T. destruct (nth_error (p_pcs st) t) as [pc|] eqn:E; [|discriminate]. destruct pc; try discriminate. unfold release, try_release. destruct (ref_of ms st d) as [r|]; cbn [fst].
    - destruct (r =? 1); cbn [act p_pcs p_alive].
      + rewrite (put_eq _ _ _ _ E), T. cbn [step return_slot]. unfold return_slot. eexists. split; [reflexivity|]. unfold idle. cbn [p_pcs p_alive]. rewrite (put_eq _ _ _ _ (put_eq _ (PReturn (d_slot d)) _ _ E)). exact T.
      + rewrite E, T. cbn [step]. eexists. split; [reflexivity|]. unfold idle. cbn [p_pcs p_alive]. rewrite E. exact T.
    - cbn [act]. rewrite E, T. cbn [step]. eexists. split; [reflexivity|]. unfold idle. rewrite E. exact T.
  Qed.
  Lemma do_release s t d : idle (i_pool s) t = true -> exists p, istep ms ps al (istep ms ps al s (IRelease t d)) (IStep t) = Images p (i_held s) (i_keep s) (drop_one d (i_due s)) /\ idle p t = true.
  Proof. intros T. destruct (release_step (i_pool s) t d T) as (p & A & B). exists p. split; [|exact B]. cbn [istep]. rewrite T. cbn [i_pool]. rewrite A. reflexivity. Qed.
  Lemma do_drop s t d : idle (i_pool s) t = true -> exists p, istep ms ps al (istep ms ps al s (IDrop t d)) (IStep t) = Images p (drop_one d (i_held s)) (i_keep s) (i_due s) /\ idle p t = true.
  Proof. intros T. destruct (release_step (i_pool s) t d T) as (p & A & B). exists p. split; [|exact B]. cbn [istep]. rewrite T. cbn [i_pool]. rewrite A. reflexivity. Qed.
  Lemma put_put {A} (x y : A) l : forall h, put h x (put h y l) = put h x l.
  Proof. induction l as [|z r IH]; intros [|h]; cbn [put]; congruence. Qed.
  Lemma kept_by_put x k : forall h, (h < length k)%nat -> kept_by (put h x k) h = x.
  Proof. unfold kept_by. induction k as [|y r IH]; intros [|h] H; cbn [length] in H; try lia; cbn [put nth_error]; [reflexivity|]. apply IH. lia. Qed.
  Lemma drop_one_head d l : drop_one d (d :: l) = l.
  Proof. cbn [drop_one]. rewrite (proj2 (desc_eqb_eq d d) eq_refl). reflexivity. Qed.
  Lemma last_some (r : list desc) : forall e, last (map Some (e :: r)) None <> None.
  Proof. induction r as [|x r IH]; intros e; [discriminate|]. change (last (map Some (e :: x :: r)) None) with (last (map Some (x :: r)) None). apply IH. Qed.
  Lemma sends_book t h : forall ds prev s made rest, idle (i_pool s) t = true -> (h < length (i_keep s))%nat -> kept_by (i_keep s) h = prev -> Permutation (i_held s) (ds ++ rest) ->
    proper ms ps al made s (send_all t h prev ds) /\
    let s' := irun ms ps al s (send_all t h prev ds) in
    Permutation (i_held s') rest /\ i_due s' = i_due s /\ i_keep s' = match last (map Some ds) None with Some d => put h (Some d) (i_keep s) | None => i_keep s end /\ idle (i_pool s') t = true.
  Proof.
    induction ds as [|d r IH]; intros prev s made rest T L K Q; cbn [send_all]; [cbn [proper irun fold_left map last app] in *; auto|].
    assert (D : In d (i_held s)) by (eapply Permutation_in; [symmetry; exact Q|left; reflexivity]). set (s1 := istep ms ps al s (ISend t h d)).
    assert (S1 : s1 = Images (retain ms (i_pool s) t d) (i_held s) (put h (Some d) (i_keep s)) (opt prev ++ i_due s)).
    { unfold s1. cbn [istep]. rewrite T. replace (h <? length (i_keep s))%nat with true by (symmetry; apply Nat.ltb_lt; exact L). cbn [andb]. rewrite K. reflexivity. }
    assert (T1 : idle (i_pool s1) t = true) by (rewrite S1; cbn [i_pool]; rewrite retain_idle; exact T).
    (* the release of the superseded one *)
    set (rel := match prev with Some p => [IRelease t p; IStep t] | None => [] end).
    assert (R : forall made', exists made2, (forall l, proper ms ps al made2 (irun ms ps al s1 rel) l -> proper ms ps al made' s1 (rel ++ l)) /\
                exists p, irun ms ps al s1 rel = Images p (i_held s) (put h (Some d) (i_keep s)) (i_due s) /\ idle p t = true).
    { intros made'. destruct prev as [p|]; unfold rel.
      - destruct (do_release s1 t p T1) as (pp & A & B). eexists. split.
        + intros l H. cbn [app proper]. split; [rewrite S1; cbn [i_due opt app]; left; reflexivity|]. split; [exact I|]. exact H.
        + exists pp. unfold irun. cbn [fold_left]. rewrite A. rewrite S1. cbn [i_held i_keep i_due opt app]. rewrite drop_one_head. split; [reflexivity|exact B].
      - exists made'. split; [intros l H; exact H|]. exists (i_pool s1). cbn [irun fold_left]. split; [rewrite S1; reflexivity|exact T1]. }
    destruct (R ([] ++ made)) as (made2 & R1 & p2 & R2 & R3). set (s2 := irun ms ps al s1 rel) in *. destruct (do_drop s2 t d) as (p3 & A & B); [rewrite R2; exact R3|]. replace (i_held s2) with (i_held s) in A by (rewrite R2; reflexivity). replace (i_keep s2) with (put h (Some d) (i_keep s)) in A by (rewrite R2; reflexivity). replace (i_due s2) with (i_due s) in A by (rewrite R2; reflexivity).
    set (s3 := Images p3 (drop_one d (i_held s)) (put h (Some d) (i_keep s)) (i_due s)) in *.
    assert (Q3 : Permutation (i_held s3) (r ++ rest)) by (cbn [i_held s3]; symmetry; apply perm_drop; [exact D|symmetry; exact Q]).
    assert (L3 : (h < length (i_keep s3))%nat) by (cbn [i_keep s3]; rewrite put_length; exact L).
    assert (K3 : kept_by (i_keep s3) h = Some d) by (cbn [i_keep s3]; apply kept_by_put; exact L).
    rewrite app_comm_cons. split.
    - cbn [app proper]. split; [exact D|]. fold s1. apply R1. cbn [app proper]. split; [rewrite R2; cbn [i_held]; exact D|]. split; [exact I|]. cbv zeta. rewrite A. apply (fun m => proj1 (IH (Some d) s3 m rest B L3 K3 Q3)).
    - destruct (IH (Some d) s3 [] rest B L3 K3 Q3) as [_ (H1 & H2 & H3 & H4)]. cbv zeta.
      assert (E : irun ms ps al s ((ISend t h d :: rel) ++ [IDrop t d; IStep t] ++ send_all t h (Some d) r) = irun ms ps al s3 (send_all t h (Some d) r)).
      { unfold irun. cbn [app fold_left]. fold s1. rewrite fold_left_app. change (fold_left (istep ms ps al) rel s1) with s2. cbn [fold_left]. rewrite A. reflexivity. }
      rewrite E. split; [exact H1|]. split; [exact H2|]. split; [|exact H4]. rewrite H3. cbn [i_keep s3]. destruct r as [|e r']; [reflexivity|].
      change (last (map Some (d :: e :: r')) None) with (last (map Some (e :: r')) None). pose proof (last_some r' e) as X. destruct (last (map Some (e :: r')) None); [apply put_put|congruence].
  Qed.
End Sends.
