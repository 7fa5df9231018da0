(** Delivery, catching up and fairness in the fan-out matrix. *)
From Verif.Base Require Import Prelude.
From Verif.Model Require Import Fanout.
From Verif.Spec Require Import FanoutSpec.
From Verif.Proofs Require Import FanoutProofs.

Definition slice {A} (b t : nat) (l : list A) : list A := firstn (t - b) (skipn b l).
Lemma slice_app {A} b t (l l' : list A) : t <= length l -> slice b t (l ++ l') = slice b t l.
Proof.
  intros. unfold slice. rewrite skipn_app, firstn_app, skipn_length.
  destruct (Nat.le_gt_cases b t).
  - replace (t - b - (length l - b)) with 0 by lia. cbn [firstn]. rewrite app_nil_r. auto.
  - replace (t - b) with 0 by lia. reflexivity.
Qed.
Lemma slice_nil {A} b (l : list A) : slice b b l = [].
Proof. unfold slice. rewrite Nat.sub_diag. auto. Qed.
Lemma slice_split {A} b m t (l : list A) : b <= m -> m <= t -> t <= length l -> slice b t l = slice b m l ++ slice m t l.
Proof.
  intros. unfold slice. replace (t - b) with ((m - b) + (t - m)) by lia.
  rewrite <- (firstn_skipn (m - b) (skipn b l)) at 1. rewrite skipn_skipn. replace (m - b + b) with m by lia.
  rewrite firstn_app, firstn_firstn, firstn_length, skipn_length. f_equal; f_equal; lia.
Qed.
Lemma slice_length {A} b t (l : list A) : t <= length l -> length (slice b t l) = t - b.
Proof. intros. unfold slice. rewrite firstn_length, skipn_length. lia. Qed.
Lemma slice_one {A} t (l : list A) a : nth_error l t = Some a -> slice t (S t) l = [a].
Proof.
  unfold slice. replace (S t - t) with 1 by lia. revert t. induction l as [|x l IH]; intros [|t] H; try discriminate.
  - injection H as ->. reflexivity.
  - apply IH. auto.
Qed.
Lemma slice_skipn {A} b t (l : list A) : b <= t -> skipn b l = slice b t l ++ skipn t l.
Proof.
  intros. unfold slice. replace (skipn t l) with (skipn (t - b) (skipn b l)) by (rewrite skipn_skipn; f_equal; lia).
  symmetry. apply firstn_skipn.
Qed.
Lemma filter_none {A} f (l : list A) : (forall a, In a l -> f a = false) -> filter f l = [].
Proof. induction l; intros H; auto. cbn. rewrite (H a) by (left; auto). apply IHl. intros; apply H; right; auto. Qed.
Lemma in_skipn {A} n (l : list A) a : In a (skipn n l) -> In a l.
Proof. intros H. rewrite <- (firstn_skipn n l). apply in_or_app. auto. Qed.
Lemma in_slice {A} b t (l : list A) a : In a (slice b t l) -> In a l.
Proof. unfold slice. intros H. apply (in_skipn b). rewrite <- (firstn_skipn (t - b)). apply in_or_app. auto. Qed.

Section D.
  Variables (M cap : nat) (pid_of : nat -> nat).
  Notation fsys := (fsys lmsg).
  Notation f_step := (f_step M cap pid_of).
  Notation f_final := (f_final M cap pid_of).
  Notation f_trace := (f_trace M cap pid_of).
  Hypothesis Hcap : 0 < cap.

  (** ** Counters stay inside the log *)
  Definition ch_ok (s : fsys) : Prop := forall p i, fc_tail (fs_chan s p i) <= length (fc_log (fs_chan s p i)).
  Lemma ch_ok_step s o : ch_ok s -> ch_ok (fst (f_step s o)).
  Proof.
    intros C. destruct o as [g a|g|g|pid]; cbn [Fanout.f_step].
    - destruct (f_send M pid_of g a s) as (s', ev) eqn:E. cbn [fst].
      destruct (send_cases _ _ _ _ _ _ _ E) as [(-> & _)|(p & pub & _ & _ & ->)]; auto.
      intros p' i'. cbn [fs_chan]. rewrite send_pod_spec. specialize (C p' i'). destruct (_ && _); auto.
      cbn [fc_send fc_tail fc_log]. rewrite app_length. lia.
    - destruct (f_recv M cap pid_of g s) as (s', ev) eqn:E. cbn [fst].
      destruct (recv_cases _ _ _ _ _ _ _ E) as [(-> & _)|(i & sub & ch & H & H2)]; auto.
      assert (C' : forall p i, fc_tail (ch p i) <= length (fc_log (ch p i))).
      { destruct H as [(_ & _ & ->)|(_ & _ & ->)]; auto. intros p' i'. unfold reset_sub. specialize (C p' i'). destruct (_ && _); auto. }
      destruct H2 as [(_ & _ & ->)|(a & p & c' & sk & Hr & _ & ->)]; auto.
      intros p' i'. cbn [fs_chan]. destruct (_ && _); auto.
      apply recv_loop_some in Hr. destruct Hr as (_ & Hr & _). apply fc_recv_some in Hr; auto.
      destruct Hr as (nx & _ & _ & _ & -> & L). cbn [fc_tail fc_log]. lia.
    - auto.
    - auto.
  Qed.
  Lemma ch_ok_reach (ops : list (fop lmsg)) : ch_ok (f_final ops).
  Proof.
    induction ops as [|o ops IH] using rev_ind; [intros p i; cbn; lia|]. rewrite final_snoc. apply ch_ok_step; auto.
  Qed.

  Section Pair.
  Variables (h h' : nat).
  Definition lab (a : lmsg) : bool := Nat.eqb (fst a) h.

  Definition owned (s : fsys) : Prop := forall p i a, In a (fc_log (fs_chan s p i)) -> fst a = h -> fs_hpub s h = Some p.

  Lemma owned_step s (o : fop lmsg) : owned s -> (forall g (a : lmsg), o = OSend g a -> fst a = g) -> ~ ends pid_of h o ->
    owned (fst (f_step s o)).
  Proof.
    intros Ow Hl He. destruct o as [g a|g|g|pid]; cbn [Fanout.f_step].
    - destruct (f_send M pid_of g a s) as (s', ev) eqn:E. cbn [fst].
      destruct (send_cases _ _ _ _ _ _ _ E) as [(-> & _)|(p & pub & _ & Hp & ->)]; auto.
      specialize (Hl g a eq_refl).
      intros p' i' x. cbn [fs_chan fs_hpub]. rewrite send_pod_spec.
      assert (Old : In x (fc_log (fs_chan s p' i')) -> fst x = h -> set1 (fs_hpub s) g (Some p) h = Some p').
      { intros Hx Hx2. pose proof (Ow _ _ _ Hx Hx2) as Ho. unfold set1. destruct (Nat.eqb_spec h g) as [->|]; auto.
        destruct Hp as [(Hp & _)|(Hp & _)]; congruence. }
      destruct (Nat.eqb_spec p' p) as [->|]; cbn [andb]; auto.
      destruct (_ && _); auto. cbn [fc_send fc_log]. rewrite in_app_iff. intros [Hx|[<-|[]]] Hx2; auto.
      replace h with g by congruence. apply set1_eq.
    - destruct (f_recv M cap pid_of g s) as (s', ev) eqn:E. cbn [fst].
      destruct (recv_cases _ _ _ _ _ _ _ E) as [(-> & _)|(i & sub & ch & H & H2)]; auto.
      assert (L : forall p i, fc_log (ch p i) = fc_log (fs_chan s p i)).
      { destruct H as [(_ & _ & ->)|(_ & _ & ->)]; auto. intros p' i'. unfold reset_sub. destruct (_ && _); auto. }
      assert (T : forall p i, fc_tail (ch p i) <= length (fc_log (ch p i)) \/ True) by auto.
      destruct H2 as [(_ & _ & ->)|(a & p & c' & sk & Hr & _ & ->)]; intros p' i' x; cbn [fs_chan fs_hpub]; [rewrite L; apply Ow|].
      destruct (Nat.eqb_spec p' p) as [->|]; cbn [andb]; [|rewrite L; apply Ow].
      destruct (Nat.eqb_spec i' i) as [->|]; [|rewrite L; apply Ow].
      apply recv_loop_some in Hr. destruct Hr as (_ & Hr & _). unfold fc_recv in Hr.
      destruct (nth_error _ _); [|discriminate]. injection Hr as <- <- <-. cbn [fc_log]. rewrite L. apply Ow.
    - cbn [fst]. intros p i x Hx Hx2. unfold f_drop in *. cbn [fs_chan fs_hpub] in *. rewrite set1_neq; [eapply Ow; eauto|].
      cbn in He. congruence.
    - cbn [fst]. intros p i x Hx Hx2. unfold f_crash in *. cbn [fs_chan fs_hpub] in *.
      destruct (Nat.eqb_spec (pid_of h) pid); [cbn in He; congruence|]. eapply Ow; eauto.
  Qed.

  (** Handles that have no slot have done nothing yet. *)
  Definition fresh_pub (tr : list (fevent lmsg)) (s : fsys) : Prop := fs_hpub s h = None -> f_sent h tr = [].
  Definition fresh_sub (tr : list (fevent lmsg)) (s : fsys) : Prop := fs_hsub s h' = None -> f_got h' tr = [].
  Lemma fresh_pub_step tr s o : fresh_pub tr s -> ~ ends pid_of h o -> fresh_pub (tr ++ snd (f_step s o)) (fst (f_step s o)).
  Proof.
    intros F He. unfold fresh_pub. rewrite f_sent_app. destruct o as [g a|g|g|pid]; cbn [Fanout.f_step].
    - destruct (f_send M pid_of g a s) as (s', ev) eqn:E. cbn [fst snd].
      destruct (send_cases _ _ _ _ _ _ _ E) as [(-> & -> & _)|(p & pub & -> & Hp & ->)].
      + cbn [f_sent]. rewrite app_nil_r. auto.
      + cbn [fs_hpub f_sent]. unfold set1. rewrite (Nat.eqb_sym h g). destruct (Nat.eqb_spec g h); [discriminate|]. rewrite app_nil_r. auto.
    - destruct (f_recv M cap pid_of g s) as (s', ev) eqn:E. cbn [fst snd].
      destruct (recv_cases _ _ _ _ _ _ _ E) as [(-> & -> & _)|(i & sub & ch & H & [(_ & -> & ->)|(a & p & c' & sk & Hr & -> & ->)])];
        cbn [f_sent fs_hpub]; rewrite app_nil_r; auto.
    - cbn [fst snd f_sent f_drop fs_hpub]. rewrite app_nil_r. unfold set1. destruct (Nat.eqb_spec h g); [cbn in He; congruence|auto].
    - cbn [fst snd f_sent f_crash fs_hpub]. rewrite app_nil_r. destruct (Nat.eqb_spec (pid_of h) pid); [cbn in He; congruence|auto].
  Qed.
  Lemma fresh_sub_step tr s o : fresh_sub tr s -> ~ ends pid_of h' o -> fresh_sub (tr ++ snd (f_step s o)) (fst (f_step s o)).
  Proof.
    intros F He. unfold fresh_sub. rewrite f_got_app. destruct o as [g a|g|g|pid]; cbn [Fanout.f_step].
    - destruct (f_send M pid_of g a s) as (s', ev) eqn:E. cbn [fst snd].
      destruct (send_cases _ _ _ _ _ _ _ E) as [(-> & -> & _)|(p & pub & -> & Hp & ->)];
      cbn [f_got fs_hsub]; rewrite app_nil_r; auto.
    - destruct (f_recv M cap pid_of g s) as (s', ev) eqn:E. cbn [fst snd].
      destruct (recv_cases _ _ _ _ _ _ _ E) as [(-> & -> & _)|(i & sub & ch & H & [(_ & -> & ->)|(a & p & c' & sk & Hr & -> & ->)])];
        cbn [f_got fs_hsub]; rewrite ?app_nil_r; auto.
      + unfold set1. destruct (Nat.eqb_spec h' g); [discriminate|auto].
      + unfold set1. rewrite (Nat.eqb_sym h' g). destruct (Nat.eqb_spec g h'); [discriminate|]. rewrite app_nil_r. auto.
    - cbn [fst snd f_got f_drop fs_hsub]. rewrite app_nil_r. unfold set1. destruct (Nat.eqb_spec h' g); [cbn in He; congruence|auto].
    - cbn [fst snd f_got f_crash fs_hsub]. rewrite app_nil_r. destruct (Nat.eqb_spec (pid_of h') pid); [cbn in He; congruence|auto].
  Qed.

  (** ** The flow from publisher [h] to subscriber [h'] *)
  Record flow (S0 : list lmsg) (tr : list (fevent lmsg)) (s : fsys) (i : nat) (b : nat -> nat) : Prop := Flow {
    d_sub : fs_hsub s h' = Some i;
    d_flow : forall p, p < M -> exists ms G,
       b p <= fc_tail (fs_chan s p i) /\
       passed (slice (b p) (fc_tail (fs_chan s p i)) (fc_log (fs_chan s p i))) ms G /\
       ms <= fs_missed s h' /\
       (fs_hpub s h = Some p -> filter lab (f_got h' tr) = filter lab G /\
                                f_sent h tr = S0 ++ filter lab (skipn (b p) (fc_log (fs_chan s p i))));
    d_none : fs_hpub s h = None -> filter lab (f_got h' tr) = [] /\ f_sent h tr = [] /\ S0 = []
  }.

  Lemma flow_step S0 tr s i b (o : fop lmsg) : flow S0 tr s i b -> reg_ok M pid_of s -> ch_ok s -> owned s ->
    (forall g (a : lmsg), o = OSend g a -> fst a = g) -> ~ ends pid_of h o -> ~ ends pid_of h' o ->
    flow S0 (tr ++ snd (f_step s o)) (fst (f_step s o)) i b.
  Proof.
    intros F R C Ow Hl He He'. destruct F as [Fs Ff Fn]. destruct R as (Rp & Rs).
    destruct (proj1 Rs _ _ Fs) as (Hi & Hlk & Hact & _).
    destruct o as [g a|g|g|pid]; cbn [Fanout.f_step].
    - destruct (f_send M pid_of g a s) as (s', ev) eqn:E. cbn [fst snd].
      destruct (send_cases _ _ _ _ _ _ _ E) as [(-> & -> & _)|(p & pub & -> & Hp & ->)].
      + constructor; auto; [intros p Hp; destruct (Ff p Hp) as (ms & G & A & B & D & K)|]; rewrite ?f_got_app, ?f_sent_app; cbn [f_got f_sent]; rewrite !app_nil_r; eauto 10.
      + specialize (Hl g a eq_refl). constructor; auto.
        * intros p' Hp'. destruct (Ff p' Hp') as (ms & G & A & B & D & K). exists ms, G.
          cbn [fs_chan fs_missed fs_hpub]. rewrite send_pod_spec. rewrite f_got_app, f_sent_app. cbn [f_got f_sent]. rewrite app_nil_r.
          assert (Hi2 : (i <? M) = true) by (apply Nat.ltb_lt; auto). rewrite Hi2, Hact, !andb_true_r.
          assert (Hno : fs_hpub s h = None -> filter lab (fc_log (fs_chan s p' i)) = []).
          { intros Hnone. apply filter_none. intros x Hx. unfold lab. apply Nat.eqb_neq. intros Hx2.
            pose proof (Ow _ _ _ Hx Hx2). congruence. }
          assert (Slice : forall c, c = (if p' =? p then fc_send a (fs_chan s p' i) else fs_chan s p' i) ->
             fc_tail c = fc_tail (fs_chan s p' i) /\ slice (b p') (fc_tail c) (fc_log c) = slice (b p') (fc_tail (fs_chan s p' i)) (fc_log (fs_chan s p' i))).
          { intros c ->. destruct (p' =? p); auto. cbn [fc_send fc_tail fc_log]. split; auto. apply slice_app. apply C. }
          destruct (Slice _ eq_refl) as (S1 & S2). rewrite S2, S1. repeat split; auto.
          -- unfold set1 in H. destruct (Nat.eqb_spec h g) as [<-|Hg]; [|apply K; auto].
             injection H as ->. destruct Hp as [(Hp & _)|(Hp & _)]; [apply K; auto|].
             destruct (Fn Hp) as (N1 & N2 & N3). rewrite N1. symmetry. apply filter_none. intros x Hx.
             pose proof (passed_in _ _ _ _ B Hx) as Hx1. apply in_slice in Hx1.
             unfold lab. apply Nat.eqb_neq. intros Hx2. pose proof (Ow _ _ _ Hx1 Hx2). congruence.
          -- unfold set1 in H. rewrite (Nat.eqb_sym g h). destruct (Nat.eqb_spec h g) as [<-|Hg].
             ++ injection H as ->. rewrite Nat.eqb_refl. cbn [fc_send fc_log].
                assert (La : lab a = true) by (unfold lab; rewrite Hl; apply Nat.eqb_refl).
                assert (Lb : b p' <= length (fc_log (fs_chan s p' i))) by (specialize (C p' i); lia).
                rewrite skipn_app. replace (b p' - length (fc_log (fs_chan s p' i))) with 0 by lia. cbn [skipn].
                rewrite filter_app. cbn [filter]. rewrite La. rewrite app_assoc. f_equal.
                destruct Hp as [(Hp & _)|(Hp & _)]; [apply K; auto|].
                destruct (Fn Hp) as (N1 & N2 & N3). rewrite N2, N3. cbn [app]. symmetry. apply filter_none. intros x Hx. apply in_skipn in Hx.
                unfold lab. apply Nat.eqb_neq. intros Hx2. pose proof (Ow _ _ _ Hx Hx2). congruence.
             ++ rewrite app_nil_r. destruct (K H) as (_ & ->). f_equal.
                destruct (p' =? p); auto. cbn [fc_send fc_log].
                assert (La : lab a = false) by (unfold lab; rewrite Hl; apply Nat.eqb_neq; auto).
                assert (Lb : b p' <= length (fc_log (fs_chan s p' i))) by (specialize (C p' i); lia).
                rewrite skipn_app. replace (b p' - length (fc_log (fs_chan s p' i))) with 0 by lia. cbn [skipn].
                rewrite filter_app. cbn [filter]. rewrite La, app_nil_r. auto.
        * cbn [fs_hpub]. unfold set1. rewrite f_got_app, f_sent_app. cbn [f_got f_sent]. rewrite app_nil_r. rewrite (Nat.eqb_sym g h).
          destruct (Nat.eqb_spec h g); [discriminate|]. rewrite app_nil_r. auto.
    - destruct (f_recv M cap pid_of g s) as (s', ev) eqn:E. cbn [fst snd].
      destruct (recv_cases _ _ _ _ _ _ _ E) as [(-> & -> & _)|(i2 & sub & ch & H & H2)].
      { constructor; auto; [intros p Hp; destruct (Ff p Hp) as (ms & G & A & B & D & K)|]; rewrite ?f_got_app, ?f_sent_app; cbn [f_got f_sent]; rewrite !app_nil_r; eauto 10. }
      destruct (Nat.eq_dec g h') as [->|Hg].
      + destruct H as [(H & -> & ->)|(H & _)]; [|congruence]. assert (i2 = i) by congruence. subst i2.
        destruct H2 as [(_ & -> & ->)|(a & p & c' & sk & Hr & -> & ->)].
        * constructor; cbn [fs_hsub fs_chan fs_missed fs_hpub]; rewrite ?f_got_app, ?f_sent_app; cbn [f_got f_sent]; rewrite ?app_nil_r; auto.
          apply set1_eq.
        * pose proof Hr as Hr0. apply recv_loop_some in Hr. destruct Hr as (_ & Hr & (j & _ & Hj & _)).
          assert (HpM : p < M) by (rewrite Hj; apply Nat.mod_upper_bound; lia).
          apply fc_recv_some in Hr; [|apply C]. destruct Hr as (nx & N1 & -> & N3 & -> & N5).
          assert (La : forall p0, fs_hpub s h = Some p0 -> p0 <> p -> lab a = false).
          { intros p0 Hp0 Hne. unfold lab. apply Nat.eqb_neq. intros Hx2.
            pose proof (Ow _ _ _ (nth_error_In _ _ N3) Hx2). congruence. }
          constructor; cbn [fs_hsub fs_chan fs_missed fs_hpub]; rewrite ?f_got_app, ?f_sent_app; cbn [f_got f_sent]; rewrite ?Nat.eqb_refl, ?app_nil_r.
          -- apply set1_eq.
          -- intros p' Hp'. destruct (Ff p' Hp') as (ms & G & A & B & D & K). rewrite set1_eq.
             destruct (Nat.eqb_spec p' p) as [->|Hne]; cbn [andb].
             ++ exists (ms + (nx - fc_tail (fs_chan s p i))), (G ++ [a]). rewrite ?Nat.eqb_refl. cbn [fc_tail fc_log].
                split; [lia|]. split.
                { rewrite (slice_split (b p) nx (S nx)) by lia. rewrite (slice_one nx _ a) by auto. apply passed_take.
                  rewrite (slice_split (b p) (fc_tail (fs_chan s p i)) nx) by lia.
                  rewrite <- (slice_length (fc_tail (fs_chan s p i)) nx (fc_log (fs_chan s p i))) by lia.
                  apply passed_skip. auto. }
                split; [lia|]. intros Hh. destruct (K Hh) as (K1 & K2). split; [|auto].
                rewrite !filter_app, K1. auto.
             ++ exists ms, G. split; auto. split; auto. split; [lia|]. intros Hh. destruct (K Hh) as (K1 & K2). split; [|auto].
                rewrite filter_app. cbn [filter]. rewrite (La p' Hh Hne), app_nil_r. auto.
          -- intros Hn. destruct (Fn Hn) as (F1 & F2 & F3). split; [|auto]. rewrite filter_app, F1. cbn [filter].
             replace (lab a) with false; auto. symmetry. unfold lab. apply Nat.eqb_neq. intros Hx2.
             pose proof (Ow _ _ _ (nth_error_In _ _ N3) Hx2). congruence.
      + assert (Hi2 : i2 <> i).
        { intros ->. destruct H as [(H & _)|(_ & H & _)].
          - apply (proj1 Rs) in H. destruct H as (_ & H & _). congruence.
          - apply claim_some in H. destruct H as (_ & H & _). congruence. }
        assert (Hch : forall p, ch p i = fs_chan s p i).
        { intros p. destruct H as [(_ & _ & ->)|(_ & _ & ->)]; auto. unfold reset_sub.
          destruct (Nat.eqb_spec i i2); [congruence|auto]. }
        assert (Hg' : forall a : lmsg, f_got h' [FGot g a] = []) by (intros; cbn; destruct (Nat.eqb_spec g h'); [contradiction|auto]).
        destruct H2 as [(_ & -> & ->)|(a & p & c' & sk & Hr & -> & ->)];
          constructor; cbn [fs_hsub fs_chan fs_missed fs_hpub]; rewrite ?f_got_app, ?f_sent_app, ?Hg'; cbn [f_got f_sent]; rewrite ?app_nil_r; rewrite ?set1_neq by auto; auto.
        * intros p' Hp'. rewrite Hch. auto.
        * intros p' Hp'. destruct (Nat.eqb_spec i i2); [congruence|]. rewrite andb_false_r, Hch. auto.
    - cbn [fst snd]. rewrite app_nil_r. cbn in He, He'.
      constructor; cbn [f_drop fs_hsub fs_chan fs_missed fs_hpub]; rewrite ?set1_neq by congruence; auto.
    - cbn [fst snd]. rewrite app_nil_r. cbn in He, He'.
      constructor; cbn [f_crash fs_hsub fs_chan fs_missed fs_hpub]; destruct (Nat.eqb_spec (pid_of h) pid); try congruence;
        destruct (Nat.eqb_spec (pid_of h') pid); try congruence; auto.
  Qed.

  Lemma pre_reach (ops : list (fop lmsg)) : labelled ops -> stays pid_of h ops -> stays pid_of h' ops ->
    owned (f_final ops) /\ fresh_pub (f_trace ops) (f_final ops) /\ fresh_sub (f_trace ops) (f_final ops).
  Proof.
    induction ops as [|o ops IH] using rev_ind; intros L S1 S2.
    - repeat split; try (intros ?; reflexivity). intros p i a [].
    - apply Forall_app in S1, S2. destruct S1 as (S1 & S1'), S2 as (S2 & S2'). inversion S1'; inversion S2'; subst.
      destruct IH as (A & B & C); auto. { intros g a Hin. apply L. apply in_or_app; auto. }
      rewrite final_snoc, trace_snoc. split; [|split].
      + apply owned_step; auto. intros g a ->. apply L. apply in_or_app. right. left. auto.
      + apply fresh_pub_step; auto.
      + apply fresh_sub_step; auto.
  Qed.

  Lemma flow_reach (pre post : list (fop lmsg)) : labelled (pre ++ ORecv h' :: post) ->
    stays pid_of h (pre ++ ORecv h' :: post) -> stays pid_of h' (pre ++ ORecv h' :: post) ->
    joins_at M cap pid_of h' pre ->
    exists i b, flow (f_sent h (f_trace pre)) (f_trace (pre ++ ORecv h' :: post)) (f_final (pre ++ ORecv h' :: post)) i b /\
                owned (f_final (pre ++ ORecv h' :: post)) /\ 
                (forall p, p < M -> b p = length (fc_log (fs_chan (f_final pre) p i))).
  Proof.
    intros L S1 S2 (J1 & J2).
    assert (Base : exists i b, flow (f_sent h (f_trace pre)) (f_trace (pre ++ [ORecv h'])) (f_final (pre ++ [ORecv h'])) i b /\
                owned (f_final (pre ++ [ORecv h'])) /\ (forall p, p < M -> b p = length (fc_log (fs_chan (f_final pre) p i)))).
    { assert (L0 : labelled pre) by (intros g a Hin; apply L; apply in_or_app; auto).
      apply Forall_app in S1, S2. destruct S1 as (S1 & _), S2 as (S2 & _).
      destruct (pre_reach pre L0 S1 S2) as (A & B & C).
      pose proof (reg_reach M cap pid_of pre) as R. pose proof (ch_ok_reach pre) as K.
      assert (Ow' : owned (f_final (pre ++ [ORecv h']))).
      { rewrite final_snoc. apply owned_step; auto; intros; discriminate. }
      rewrite final_snoc in *. rewrite trace_snoc. set (s := f_final pre) in *.
      cbn [Fanout.f_step] in *. destruct (f_recv M cap pid_of h' s) as (s', ev) eqn:E. cbn [fst snd] in *.
      destruct (recv_cases _ _ _ _ _ _ _ E) as [(-> & _)|(i & sub & ch & H & H2)]; [congruence|].
      destruct H as [(H & _)|(_ & H & ->)]; [congruence|].
      assert (Hi : i < M) by (apply claim_some in H; lia).
      assert (Emp : forall p, p < M -> fc_recv cap (reset_sub M i (fs_chan s) p i) = None).
      { intros p Hp. assert (Hpm : (p <? M) = true) by (apply Nat.ltb_lt; auto).
        unfold reset_sub. rewrite Nat.eqb_refl, Hpm. cbn [andb]. apply fc_recv_none; auto; cbn [fc_reset fc_tail fc_log]; auto. }
      destruct H2 as [(_ & -> & ->)|(a & p & c' & sk & Hr & _ & _)].
      - exists i, (fun p => length (fc_log (fs_chan s p i))). split; [|auto]. constructor; cbn [fs_hsub fs_chan fs_missed fs_hpub].
        + apply set1_eq.
        + intros p Hp. exists 0, []. assert (Hpm : (p <? M) = true) by (apply Nat.ltb_lt; auto).
          unfold reset_sub. rewrite Nat.eqb_refl, Hpm. cbn [andb fc_reset fc_tail fc_log].
          rewrite slice_nil. split; auto. split; [constructor|]. split; [lia|].
          rewrite f_got_app, f_sent_app. cbn [f_got f_sent filter]. rewrite !app_nil_r, (C J1). cbn [filter].
          intros _. split; auto. rewrite skipn_all. cbn [filter]. rewrite app_nil_r. auto.
        + rewrite f_got_app, f_sent_app. cbn [f_got f_sent]. rewrite !app_nil_r, (C J1). intros Hn. rewrite (B Hn). auto.
      - exfalso. apply recv_loop_some in Hr. destruct Hr as (_ & Hr & (j & _ & -> & _)).
        rewrite Emp in Hr by (apply Nat.mod_upper_bound; lia). discriminate. }
    destruct Base as (i & b & F & Ow & Hb). exists i, b.
    revert F Ow L S1 S2. replace (pre ++ ORecv h' :: post) with ((pre ++ [ORecv h']) ++ post) by (rewrite <- app_assoc; auto).
    induction post as [|o post IH] using rev_ind; intros F Ow L S1 S2.
    - rewrite app_nil_r. auto.
    - rewrite app_assoc in *. apply Forall_app in S1, S2. destruct S1 as (S1 & S1'), S2 as (S2 & S2'). inversion S1'; inversion S2'; subst.
      assert (L' : labelled ((pre ++ [ORecv h']) ++ post)) by (intros g a Hin; apply L; apply in_or_app; auto).
      assert (Lo : forall g (a : lmsg), o = OSend g a -> fst a = g) by (intros g a ->; apply L; apply in_or_app; right; left; auto).
      destruct IH as (F2 & Ow2 & _); auto.
      rewrite trace_snoc, final_snoc. split; [|split; auto].
      + apply flow_step; auto. apply reg_reach. apply ch_ok_reach.
      + apply owned_step; auto.
  Qed.

  Lemma got_from_lab tr : got_from h h' tr = filter lab (f_got h' tr).
  Proof. reflexivity. Qed.

  Lemma flow_seen S0 tr s i b : flow S0 tr s i b -> reg_ok M pid_of s ->
    exists seen ahead missed, f_sent h tr = S0 ++ seen ++ ahead /\
      passed seen missed (got_from h h' tr) /\ missed <= fs_missed s h' /\
      (forall p, fs_hpub s h = Some p -> fc_tail (fs_chan s p i) = length (fc_log (fs_chan s p i)) -> ahead = []) /\
      (fs_hpub s h = None -> ahead = []).
  Proof.
    intros [Fs Ff Fn] (Rp & _). destruct (fs_hpub s h) as [p|] eqn:Ep.
    - destruct (proj1 Rp _ _ Ep) as (Hp & _). destruct (Ff p Hp) as (ms & G & A & B & D & K). destruct (K eq_refl) as (K1 & K2).
      destruct (passed_filter lab _ _ _ B) as (n' & N1 & N2).
      exists (filter lab (slice (b p) (fc_tail (fs_chan s p i)) (fc_log (fs_chan s p i)))), (filter lab (skipn (fc_tail (fs_chan s p i)) (fc_log (fs_chan s p i)))), n'.
      rewrite K2, (slice_skipn (b p) (fc_tail (fs_chan s p i))) by auto. rewrite filter_app. split; auto.
      split; [rewrite got_from_lab, K1; auto|]. split; [lia|].
      split; [|discriminate]. intros p0 H; injection H as <-. intros ->. rewrite skipn_all. auto.
    - destruct (Fn eq_refl) as (A & B & ->). exists [], [], 0. rewrite B. split; auto. split; [|split; [lia|auto]].
      rewrite got_from_lab, A. constructor.
  Qed.

  (** A poll that finds nothing proves that nothing is left from a registered publisher. *)
  Lemma poll_none s i p : fs_hsub s h' = Some i -> reg_ok M pid_of s -> ch_ok s -> fs_hpub s h = Some p ->
    snd (f_recv M cap pid_of h' s) = [FNone h'] ->
    fc_tail (fs_chan s p i) = length (fc_log (fs_chan s p i)) /\ fs_chan (fst (f_recv M cap pid_of h' s)) = fs_chan s.
  Proof.
    intros Hs (Rp & _) C Hp E. destruct (f_recv M cap pid_of h' s) as (s', ev) eqn:E2. cbn [snd fst] in *. subst ev.
    destruct (recv_cases _ _ _ _ _ _ _ E2) as [(_ & _ & H & _)|(i2 & sub & ch & H & H2)]; [congruence|].
    destruct H as [(H & -> & ->)|(H & _)]; [|congruence]. assert (i2 = i) by congruence. subst i2.
    destruct H2 as [(Hr & _ & ->)|(a & p' & c' & sk & _ & E3 & _)]; [|discriminate]. split; [|auto].
    destruct (proj1 Rp _ _ Hp) as (P1 & P2 & P3 & P4).
    destruct (all_slots M (fs_cursor s h' mod M) p P1) as (j & Hj & <-).
    apply (fc_recv_none cap); auto. eapply recv_loop_none; eauto.
  Qed.

  (** One poll of [h'] either finds nothing or takes at least one message off its channels. *)
  Definition left_over (s : fsys) (i : nat) : nat :=
    list_sum (map (fun p => length (fc_log (fs_chan s p i)) - fc_tail (fs_chan s p i)) (seq 0 M)).
  Lemma sum_dec (f g : nat -> nat) p l : In p l -> NoDup l -> g p < f p -> (forall q, q <> p -> g q = f q) ->
    list_sum (map g l) < list_sum (map f l).
  Proof.
    induction l as [|x l IH]; intros Hin Hn Hp Hq; [destruct Hin|]. inversion Hn; subst. cbn [map list_sum fold_right].
    fold (list_sum (map g l)). fold (list_sum (map f l)).
    destruct Hin as [->|Hin].
    - assert (map g l = map f l) as ->; [|lia]. apply map_ext_in. intros y Hy. apply Hq. intros ->. contradiction.
    - assert (x <> p) by (intros ->; contradiction). rewrite (Hq x) by auto. specialize (IH Hin H2 Hp Hq). lia.
  Qed.
  Lemma poll_progress s i : fs_hsub s h' = Some i -> ch_ok s ->
    snd (f_recv M cap pid_of h' s) = [FNone h'] \/
    (fs_hsub (fst (f_recv M cap pid_of h' s)) h' = Some i /\ left_over (fst (f_recv M cap pid_of h' s)) i < left_over s i).
  Proof.
    intros Hs C. destruct (f_recv M cap pid_of h' s) as (s', ev) eqn:E2. cbn [snd fst].
    destruct (recv_cases _ _ _ _ _ _ _ E2) as [(_ & -> & _)|(i2 & sub & ch & H & H2)]; [auto|].
    destruct H as [(H & -> & ->)|(H & _)]; [|congruence]. assert (i2 = i) by congruence. subst i2.
    destruct H2 as [(_ & -> & _)|(a & p & c' & sk & Hr & -> & ->)]; [auto|]. right. cbn [fs_hsub]. rewrite set1_eq. split; auto.
    apply recv_loop_some in Hr. destruct Hr as (_ & Hr & (j & J1 & Hj & _)).
    apply fc_recv_some in Hr; [|apply C]. destruct Hr as (nx & N1 & -> & N3 & -> & N5).
    unfold left_over. apply (sum_dec _ _ p).
    - apply in_seq. rewrite Hj. pose proof (Nat.mod_upper_bound (fs_cursor s h' mod M + j) M). lia.
    - apply seq_NoDup.
    - cbn [fs_chan]. rewrite !Nat.eqb_refl. cbn [andb fc_log fc_tail]. lia.
    - intros q Hq. cbn [fs_chan]. destruct (Nat.eqb_spec q p); [contradiction|auto].
  Qed.

  Lemma drains (ops : list (fop lmsg)) i : fs_hsub (f_final ops) h' = Some i ->
    exists n, snd (f_step (f_final (ops ++ repeat (ORecv h') n)) (ORecv h')) = [FNone h'].
  Proof.
    remember (left_over (f_final ops) i) as k eqn:Ek. revert ops Ek.
    induction k as [k IH] using lt_wf_ind. intros ops -> Hs.
    destruct (poll_progress _ _ Hs (ch_ok_reach ops)) as [H|(H1 & H2)].
    - exists 0. cbn [repeat]. rewrite app_nil_r. auto.
    - assert (F : f_final (ops ++ [ORecv h']) = fst (f_recv M cap pid_of h' (f_final ops))) by (rewrite final_snoc; auto).
      rewrite <- F in *. destruct (IH _ H2 _ eq_refl H1) as (n & Hn). exists (S n).
      cbn [repeat]. replace (ops ++ ORecv h' :: repeat (ORecv h') n) with ((ops ++ [ORecv h']) ++ repeat (ORecv h') n) by (rewrite <- app_assoc; auto). auto.
  Qed.

  (** ** No loss while the subscriber is not too far behind *)
  Definition sends {A} (ops : list (fop A)) : nat := length (filter (fun o => match o with OSend _ _ => true | _ => false end) ops).
  Record close (n : nat) (i : nat) (b : nat -> nat) (m0 : nat) (s : fsys) : Prop := Close {
    cl_sub : fs_hsub s h' = Some i;
    cl_len : forall p, p < M -> length (fc_log (fs_chan s p i)) <= b p + n /\ b p <= fc_tail (fs_chan s p i);
    cl_mis : n <= cap -> fs_missed s h' = m0
  }.
  Lemma close_step n i b m0 s o : close n i b m0 s -> reg_ok M pid_of s -> ch_ok s -> ~ ends pid_of h' o ->
    close (n + sends [o]) i b m0 (fst (f_step s o)).
  Proof.
    intros [K1 K2 K3] (Rp & Rs) C He'. destruct (proj1 Rs _ _ K1) as (Hi & Hlk & Hact & _).
    assert (Mono : forall o' : fop lmsg, n + sends [o'] <= cap -> n <= cap) by (intros; lia).
    destruct o as [g a|g|g|pid]; cbn [Fanout.f_step].
    - destruct (f_send M pid_of g a s) as (s', ev) eqn:E. cbn [fst]. change (sends [OSend g a]) with 1.
      destruct (send_cases _ _ _ _ _ _ _ E) as [(-> & -> & _)|(p & pub & -> & Hp & ->)].
      + constructor; auto. { intros p Hp. specialize (K2 p Hp). lia. } intros; apply K3; lia.
      + constructor; cbn [fs_hsub fs_chan fs_missed]; auto; [|intros; apply K3; lia]. intros p' Hp'. rewrite send_pod_spec.
        specialize (K2 p' Hp'). destruct (_ && _); [|lia]. cbn [fc_send fc_log fc_tail]. rewrite app_length. cbn [length]. lia.
    - change (sends [ORecv g]) with 0. rewrite Nat.add_0_r. destruct (f_recv M cap pid_of g s) as (s', ev) eqn:E. cbn [fst].
      destruct (recv_cases _ _ _ _ _ _ _ E) as [(-> & -> & _)|(i2 & sub & ch & H & H2)]; [constructor; auto|].
      destruct (Nat.eq_dec g h') as [->|Hg].
      + destruct H as [(H & -> & ->)|(H & _)]; [|congruence]. assert (i2 = i) by congruence. subst i2.
        destruct H2 as [(_ & -> & ->)|(a & p & c' & sk & Hr & -> & ->)]; constructor; cbn [fs_hsub fs_chan fs_missed]; rewrite ?set1_eq; auto.
        * intros p' Hp'. specialize (K2 p' Hp'). destruct (Nat.eqb_spec p' p) as [->|]; cbn [andb]; [|auto]. rewrite Nat.eqb_refl.
          apply recv_loop_some in Hr. destruct Hr as (_ & Hr & _).
          apply fc_recv_some in Hr; [|apply C]. destruct Hr as (nx & N1 & -> & N3 & -> & N5). cbn [fc_log fc_tail]. lia.
        * intros Hn. rewrite (K3 Hn). assert (sk = 0); [|lia].
          apply recv_loop_some in Hr. destruct Hr as (_ & Hr & (j & _ & Hj & _)).
          assert (HpM : p < M) by (rewrite Hj; apply Nat.mod_upper_bound; lia).
          destruct (K2 p HpM) as (L1 & L2). unfold fc_recv in Hr. destruct (nth_error _ _); [|discriminate]. injection Hr as <- <- <-.
          destruct (Nat.ltb_spec cap (length (fc_log (fs_chan s p i)) - fc_tail (fs_chan s p i))); lia.
      + assert (Hi2 : i2 <> i).
        { intros ->. destruct H as [(H & _)|(_ & H & _)].
          - apply (proj1 Rs) in H. destruct H as (_ & H & _). congruence.
          - apply claim_some in H. destruct H as (_ & H & _). congruence. }
        assert (Hch : forall p, ch p i = fs_chan s p i).
        { intros p. destruct H as [(_ & _ & ->)|(_ & _ & ->)]; auto. unfold reset_sub.
          destruct (Nat.eqb_spec i i2); [congruence|auto]. }
        destruct H2 as [(_ & -> & ->)|(a & p & c' & sk & Hr & -> & ->)]; constructor; cbn [fs_hsub fs_chan fs_missed]; rewrite ?set1_neq by auto; auto.
        * intros p' Hp'. rewrite Hch. auto.
        * intros p' Hp'. destruct (Nat.eqb_spec i i2); [congruence|]. rewrite andb_false_r, Hch. auto.
    - cbn [fst]. change (sends [ODrop g]) with 0. rewrite Nat.add_0_r. cbn in He'.
      constructor; cbn [f_drop fs_hsub fs_chan fs_missed]; rewrite ?set1_neq by congruence; auto.
    - cbn [fst]. change (sends [OCrash pid]) with 0. rewrite Nat.add_0_r. cbn in He'.
      constructor; cbn [f_crash fs_hsub fs_chan fs_missed]; destruct (Nat.eqb_spec (pid_of h') pid); try congruence; auto.
  Qed.
  Lemma sends_app {A} (a b : list (fop A)) : sends (a ++ b) = sends a + sends b.
  Proof. unfold sends. rewrite filter_app, app_length. auto. Qed.

  Lemma close_reach (pre post : list (fop lmsg)) :
    stays pid_of h' (pre ++ ORecv h' :: post) -> joins_at M cap pid_of h' pre -> sends post <= cap ->
    fs_missed (f_final (pre ++ ORecv h' :: post)) h' = fs_missed (f_final pre) h'.
  Proof.
    intros S2 (J1 & J2) Hn.
    assert (Base : exists i b, close 0 i b (fs_missed (f_final pre) h') (f_final (pre ++ [ORecv h']))).
    { rewrite final_snoc in *. set (s := f_final pre) in *. cbn [Fanout.f_step] in *.
      destruct (f_recv M cap pid_of h' s) as (s', ev) eqn:E. cbn [fst snd] in *.
      destruct (recv_cases _ _ _ _ _ _ _ E) as [(-> & _)|(i & sub & ch & H & H2)]; [congruence|].
      destruct H as [(H & _)|(_ & H & ->)]; [congruence|].
      assert (Hi : i < M) by (apply claim_some in H; lia).
      exists i, (fun p => length (fc_log (fs_chan s p i))).
      destruct H2 as [(_ & -> & ->)|(a & p & c' & sk & Hr & _ & _)].
      - constructor; cbn [fs_hsub fs_chan fs_missed]; auto; [apply set1_eq|].
        intros p Hp. assert (Hpm : (p <? M) = true) by (apply Nat.ltb_lt; auto).
        unfold reset_sub. rewrite Nat.eqb_refl, Hpm. cbn [andb fc_reset fc_tail fc_log]. lia.
      - exfalso. apply recv_loop_some in Hr. destruct Hr as (_ & Hr & (j & _ & -> & _)).
        assert (HM : M <> 0) by lia. pose proof (Nat.mod_upper_bound (fs_cursor s h' mod M + j) M HM) as Hpm. apply Nat.ltb_lt in Hpm.
        unfold reset_sub in Hr. rewrite Nat.eqb_refl, Hpm in Hr. cbn [andb] in Hr.
        assert (X : forall c : fch lmsg, fc_recv cap (fc_reset c) = None) by (intros c; apply fc_recv_none; auto; cbn; lia).
        rewrite X in Hr. discriminate. }
    destruct Base as (i & b & F).
    assert (G : close (sends post) i b (fs_missed (f_final pre) h') (f_final (pre ++ ORecv h' :: post))).
    { clear Hn. revert S2. replace (pre ++ ORecv h' :: post) with ((pre ++ [ORecv h']) ++ post) by (rewrite <- app_assoc; auto).
      induction post as [|o post IH] using rev_ind; intros S2; [rewrite app_nil_r; auto|].
      rewrite app_assoc in *. apply Forall_app in S2. destruct S2 as (S2 & S2'). inversion S2'; subst.
      rewrite final_snoc, sends_app. apply close_step; auto. apply reg_reach. apply ch_ok_reach. }
    apply (cl_mis _ _ _ _ _ G Hn).
  Qed.
  End Pair.

  (** ** Fairness *)
  Definition dist (p c : nat) : nat := (p + (M - c mod M)) mod M.
  Lemma dist_offset p c : p < M -> (c mod M + dist p c) mod M = p /\ dist p c < M.
  Proof.
    intros Hp. unfold dist. assert (HM : M <> 0) by lia. pose proof (Nat.mod_upper_bound c M HM). split.
    - rewrite Nat.add_mod_idemp_r by auto.
      replace (c mod M + (p + (M - c mod M))) with (p + 1 * M) by lia. rewrite Nat.mod_add by auto. apply Nat.mod_small; auto.
    - apply Nat.mod_upper_bound; auto.
  Qed.
  Lemma offset_unique c p j : p < M -> j < M -> (c mod M + j) mod M = p -> j = dist p c.
  Proof.
    intros Hp Hj E. assert (HM : M <> 0) by lia. pose proof (Nat.mod_upper_bound c M HM). destruct (dist_offset p c Hp) as (E2 & L).
    set (d := dist p c) in *. clearbody d. set (x := c mod M) in *. clearbody x.
    destruct (Nat.lt_ge_cases (x + j) M) as [H1|H1]; destruct (Nat.lt_ge_cases (x + d) M) as [H2|H2].
    - rewrite Nat.mod_small in E, E2 by auto. lia.
    - rewrite Nat.mod_small in E by auto. replace (x + d) with ((x + d - M) + 1 * M) in E2 by lia.
      rewrite Nat.mod_add, Nat.mod_small in E2 by lia. lia.
    - rewrite (Nat.mod_small (x + d)) in E2 by auto. replace (x + j) with ((x + j - M) + 1 * M) in E by lia.
      rewrite Nat.mod_add, Nat.mod_small in E by lia. lia.
    - replace (x + j) with ((x + j - M) + 1 * M) in E by lia. replace (x + d) with ((x + d - M) + 1 * M) in E2 by lia.
      rewrite Nat.mod_add, Nat.mod_small in E, E2 by lia. lia.
  Qed.
  (** Serving slot [q] before reaching [p] brings the cursor closer to [p]. *)
  Lemma dist_closer p q c : p < M -> q < M -> dist q c < dist p c -> dist p (S q) < dist p c.
  Proof.
    intros Hp Hq L. assert (HM : M <> 0) by lia. pose proof (Nat.mod_upper_bound c M HM).
    destruct (dist_offset p c Hp) as (Ep & Lp), (dist_offset q c Hq) as (Eq & Lq).
    assert (dist p (S q) = dist p c - dist q c - 1); [|lia]. symmetry.
    apply offset_unique; auto; [lia|].
    set (dp := dist p c) in *. set (dq := dist q c) in *. clearbody dp dq.
    rewrite Nat.add_mod_idemp_l by auto. rewrite <- Ep.
    replace (S q + (dp - dq - 1)) with (q + (dp - dq)) by lia. rewrite <- Eq.
    rewrite Nat.add_mod_idemp_l by auto. f_equal. lia.
  Qed.

  (** Publisher [h] in slot [p] has something unread for subscriber [h'] in slot [i]. *)
  Record waiting (h h' p i : nat) (s : fsys) : Prop := Waiting {
    w_pub : fs_hpub s h = Some p;
    w_sub : fs_hsub s h' = Some i;
    w_un : fc_tail (fs_chan s p i) < length (fc_log (fs_chan s p i));
    w_pure : forall a, In a (fc_log (fs_chan s p i)) -> fst a = h
  }.
  Definition polls {A} (h : nat) (ops : list (fop A)) : nat :=
    length (filter (fun o => match o with ORecv g => Nat.eqb g h | _ => false end) ops).

  Lemma waiting_step h h' p i s (o : fop lmsg) : waiting h h' p i s -> reg_ok M pid_of s -> ch_ok s ->
    (forall g (a : lmsg), o = OSend g a -> fst a = g) -> ~ ends pid_of h o -> ~ ends pid_of h' o ->
    got_from h h' (snd (f_step s o)) <> [] \/
    (waiting h h' p i (fst (f_step s o)) /\ dist p (fs_cursor (fst (f_step s o)) h') + polls h' [o] <= dist p (fs_cursor s h')).
  Proof.
    intros [W1 W2 W3 W4] (Rp & Rs) C Hl He He'. destruct (proj1 Rs _ _ W2) as (Hi & Hlk & Hact & _).
    destruct (proj1 Rp _ _ W1) as (HpM & Hplk & Hpact & _).
    destruct o as [g a|g|g|pid]; cbn [Fanout.f_step].
    - right. change (polls h' [OSend g a]) with 0. rewrite Nat.add_0_r. destruct (f_send M pid_of g a s) as (s', ev) eqn:E. cbn [fst].
      destruct (send_cases _ _ _ _ _ _ _ E) as [(-> & -> & _)|(q & pub & -> & Hp & ->)]; [split; [constructor; auto|lia]|].
      cbn [fs_cursor]. split; [|lia]. specialize (Hl g a eq_refl). 
      constructor; cbn [fs_hpub fs_hsub fs_chan]; auto.
      + unfold set1. destruct (Nat.eqb_spec h g) as [<-|]; auto. destruct Hp as [(Hp & _)|(Hp & _)]; congruence.
      + rewrite send_pod_spec. destruct (_ && _); auto. cbn [fc_send fc_log fc_tail]. rewrite app_length. cbn [length]. lia.
      + intros x. rewrite send_pod_spec. destruct (Nat.eqb_spec p q) as [<-|]; cbn [andb]; auto. destruct (_ && _); auto.
        cbn [fc_send fc_log]. rewrite in_app_iff. intros [Hx|[<-|[]]]; auto. rewrite Hl.
        destruct Hp as [(Hp & _)|(_ & Hp)].
        * apply (proj1 Rp) in Hp. destruct Hp as (_ & Hp & _). congruence.
        * apply claim_some in Hp. destruct Hp as (_ & Hp & _). congruence.
    - destruct (f_recv M cap pid_of g s) as (s', ev) eqn:E. cbn [fst snd].
      destruct (recv_cases _ _ _ _ _ _ _ E) as [(-> & -> & N1 & _)|(i2 & sub & ch & H & H2)].
      { right. assert (g <> h') by congruence. split; [constructor; auto|].
        unfold polls. cbn [filter]. destruct (Nat.eqb_spec g h'); [contradiction|]. cbn. lia. }
      destruct (Nat.eq_dec g h') as [->|Hg].
      + destruct H as [(H & -> & ->)|(H & _)]; [|congruence]. assert (i2 = i) by congruence. subst i2.
        assert (Pn : polls h' [@ORecv lmsg h'] = 1) by (unfold polls; cbn [filter]; rewrite Nat.eqb_refl; auto).
        assert (Some1 : fc_recv cap (fs_chan s p i) <> None).
        { rewrite fc_recv_none; auto. lia. }
        destruct (dist_offset p (fs_cursor s h') HpM) as (D1 & D2).
        destruct H2 as [(Hr & -> & ->)|(a & q & c' & sk & Hr & -> & ->)].
        * exfalso. apply Some1. rewrite <- D1. refine (recv_loop_none _ _ _ _ _ _ _ _ Hr _ _ _); [lia|rewrite D1; auto].
        * apply recv_loop_some in Hr. destruct Hr as (Qa & Hr & (j & J1 & Hj & J2)).
          assert (HM : M <> 0) by lia.
          assert (HqM : q < M) by (rewrite Hj; apply Nat.mod_upper_bound; auto).
          assert (Hjd : j = dist q (fs_cursor s h')) by (apply offset_unique; auto; lia).
          destruct (Nat.eq_dec q p) as [->|Hq].
          -- left. apply fc_recv_some in Hr; [|apply C]. destruct Hr as (nx & N1 & -> & N3 & -> & N5).
             unfold got_from. cbn [f_got]. rewrite Nat.eqb_refl. cbn [filter]. rewrite (W4 a) by (eapply nth_error_In; eauto).
             rewrite Nat.eqb_refl. discriminate.
          -- right. assert (Lt : dist q (fs_cursor s h') < dist p (fs_cursor s h')).
             { destruct (Nat.lt_ge_cases (dist p (fs_cursor s h')) j) as [L|L].
               - exfalso. apply Some1. rewrite <- D1. apply J2; [lia|]. rewrite D1; auto.
               - assert (j <> dist p (fs_cursor s h')); [|lia]. intros ->. congruence. }
             split.
             ++ constructor; cbn [fs_hpub fs_hsub fs_chan]; auto; [apply set1_eq| |];
                  (destruct (Nat.eqb_spec p q); [congruence|cbn [andb]; auto]).
             ++ cbn [fs_cursor]. rewrite set1_eq, Pn. pose proof (dist_closer p q _ HpM HqM Lt). lia.
      + right. assert (Hi2 : i2 <> i).
        { intros ->. destruct H as [(H & _)|(_ & H & _)].
          - apply (proj1 Rs) in H. destruct H as (_ & H & _). congruence.
          - apply claim_some in H. destruct H as (_ & H & _). congruence. }
        assert (Hch : forall p, ch p i = fs_chan s p i).
        { intros p0. destruct H as [(_ & _ & ->)|(_ & _ & ->)]; auto. unfold reset_sub.
          destruct (Nat.eqb_spec i i2); [congruence|auto]. }
        assert (Pn : polls h' [@ORecv lmsg g] = 0) by (unfold polls; cbn [filter]; destruct (Nat.eqb_spec g h'); [contradiction|auto]).
        rewrite Pn, Nat.add_0_r.
        destruct H2 as [(_ & -> & ->)|(a & q & c' & sk & Hr & -> & ->)]; (split; [constructor|]); cbn [fs_hsub fs_hpub fs_chan fs_cursor]; rewrite ?set1_neq by auto; auto.
        * rewrite Hch. auto.
        * rewrite Hch. auto.
        * destruct (Nat.eqb_spec i i2); [congruence|]. rewrite andb_false_r, Hch. auto.
        * destruct (Nat.eqb_spec i i2); [congruence|]. rewrite andb_false_r, Hch. auto.
    - right. change (polls h' [@ODrop lmsg g]) with 0. rewrite Nat.add_0_r. cbn in He, He'. cbn [fst f_drop fs_cursor]. split; [|lia].
      constructor; cbn [f_drop fs_hsub fs_hpub fs_chan]; rewrite ?set1_neq by congruence; auto.
    - right. change (polls h' [@OCrash lmsg pid]) with 0. rewrite Nat.add_0_r. cbn in He, He'. cbn [fst f_crash fs_cursor]. split; [|lia].
      constructor; cbn [f_crash fs_hsub fs_hpub fs_chan]; auto; destruct (Nat.eqb_spec (pid_of h) pid); try congruence;
        destruct (Nat.eqb_spec (pid_of h') pid); try congruence; auto.
  Qed.

  Lemma reach_ok_step s (o : fop lmsg) : reg_ok M pid_of s /\ ch_ok s -> reg_ok M pid_of (fst (f_step s o)) /\ ch_ok (fst (f_step s o)).
  Proof. intros (A & B). split; [apply reg_step; auto|apply ch_ok_step; auto]. Qed.

  Lemma got_from_app h h' a b : got_from h h' (a ++ b) = got_from h h' a ++ got_from h h' b.
  Proof. unfold got_from. rewrite f_got_app, filter_app. auto. Qed.

  Lemma waiting_served h h' p i (post : list (fop lmsg)) : forall s, waiting h h' p i s -> reg_ok M pid_of s -> ch_ok s ->
    labelled post -> stays pid_of h post -> stays pid_of h' post -> dist p (fs_cursor s h') < polls h' post ->
    got_from h h' (snd (f_run M cap pid_of s post)) <> [].
  Proof.
    induction post as [|o post IH]; intros s W R C L S1 S2 Hn; [cbn in Hn; lia|].
    inversion S1; inversion S2; subst. cbn [f_run].
    destruct (reach_ok_step s o (conj R C)) as (R' & C').
    assert (Lo : forall g (a : lmsg), o = OSend g a -> fst a = g) by (intros g a ->; apply L; left; auto).
    pose proof (waiting_step h h' p i s o W R C Lo H1 H5) as Hst.
    destruct (f_step s o) as (s1, e1). cbn [fst snd] in *.
    destruct (f_run M cap pid_of s1 post) as (s2, e2) eqn:E. cbn [snd]. rewrite got_from_app.
    destruct Hst as [Hg|(W' & Hd)].
    - intros E2. apply app_eq_nil in E2. tauto.
    - specialize (IH s1 W' R' C'). rewrite E in IH. cbn [snd] in IH. intros E2. apply app_eq_nil in E2.
      apply IH; try tauto. { intros g a Hin; apply L; right; auto. }
      unfold polls in *. cbn [filter] in Hn, Hd. destruct (match o with ORecv g => g =? h' | _ => false end); cbn [length] in *; lia.
  Qed.

  (** ** Where received messages come from *)
  Definition sourced (tr : list (fevent lmsg)) (s : fsys) : Prop :=
    (forall p i a, In a (fc_log (fs_chan s p i)) -> In a (f_sent (fst a) tr)) /\
    (forall g a, In a (f_got g tr) -> In a (f_sent (fst a) tr)).
  Lemma sourced_step tr s (o : fop lmsg) : sourced tr s -> (forall g (a : lmsg), o = OSend g a -> fst a = g) ->
    sourced (tr ++ snd (f_step s o)) (fst (f_step s o)).
  Proof.
    intros (A & B) Hl.
    assert (Up : forall e (a : lmsg), In a (f_sent (fst a) tr) -> In a (f_sent (fst a) (tr ++ e))).
    { intros e a H. rewrite f_sent_app. apply in_or_app; auto. }
    destruct o as [g a|g|g|pid]; cbn [Fanout.f_step].
    - destruct (f_send M pid_of g a s) as (s', ev) eqn:E. cbn [fst snd].
      destruct (send_cases _ _ _ _ _ _ _ E) as [(-> & -> & _)|(q & pub & -> & Hp & ->)].
      + split; [intros p i x Hx; eauto|]. intros g2 x. rewrite f_got_app. cbn [f_got]. rewrite app_nil_r. eauto.
      + specialize (Hl g a eq_refl). split.
        * intros p i x. cbn [fs_chan]. rewrite send_pod_spec. destruct (_ && _); [|eauto].
          cbn [fc_send fc_log]. rewrite in_app_iff. intros [Hx|[<-|[]]]; [eauto|].
          rewrite f_sent_app. apply in_or_app. right. cbn [f_sent]. rewrite Hl, Nat.eqb_refl. left; auto.
        * intros g2 x. rewrite f_got_app. cbn [f_got]. rewrite app_nil_r. eauto.
    - destruct (f_recv M cap pid_of g s) as (s', ev) eqn:E. cbn [fst snd].
      destruct (recv_cases _ _ _ _ _ _ _ E) as [(-> & -> & N1 & _)|(i2 & sub & ch & H & H2)].
      { split; [intros p i x Hx; eauto|]. intros g2 x. rewrite f_got_app. cbn [f_got]. rewrite app_nil_r. eauto. }
      assert (L : forall p i, fc_log (ch p i) = fc_log (fs_chan s p i)).
      { destruct H as [(_ & _ & ->)|(_ & _ & ->)]; auto. intros p' i'. unfold reset_sub. destruct (_ && _); auto. }
      destruct H2 as [(_ & -> & ->)|(a & q & c' & sk & Hr & -> & ->)].
      + split; [intros p i x; cbn [fs_chan]; rewrite L; eauto|]. intros g2 x. rewrite f_got_app. cbn [f_got]. rewrite app_nil_r. eauto.
      + apply recv_loop_some in Hr. destruct Hr as (_ & Hr & _). unfold fc_recv in Hr.
        destruct (nth_error _ _) as [y|] eqn:En; [|discriminate]. injection Hr as <- <- <-.
        apply nth_error_In in En. rewrite L in En. split.
        * intros p i x. cbn [fs_chan]. destruct (_ && _); cbn [fc_log]; rewrite L; eauto.
        * intros g2 x. rewrite f_got_app, in_app_iff. intros [Hx|Hx]; [eauto|]. cbn [f_got] in Hx.
          destruct (Nat.eqb g g2); [|destruct Hx]. destruct Hx as [<-|[]]. eauto.
    - cbn [fst snd]. rewrite app_nil_r. split; auto.
    - cbn [fst snd]. rewrite app_nil_r. split; auto.
  Qed.
  Lemma sourced_reach (ops : list (fop lmsg)) : labelled ops -> sourced (f_trace ops) (f_final ops).
  Proof.
    induction ops as [|o ops IH] using rev_ind; intros L.
    - split; [intros p i a []|intros g a []].
    - rewrite trace_snoc, final_snoc. apply sourced_step.
      + apply IH. intros g a Hin. apply L. apply in_or_app; auto.
      + intros g a ->. apply L. apply in_or_app. right. left. auto.
  Qed.
End D.

(** ** Which slots are free *)
Section Slots.
  Variables (M cap : nat) (pid_of : nat -> nat).
  Definition crashed {A} (ops : list (fop A)) (pid : nat) : Prop := In (OCrash pid) ops.
  Definition stale_ok {A} (ops : list (fop A)) (sd : side) : Prop :=
    (forall i, sd_lock sd i = None -> sd_active sd i = true -> crashed ops (sd_pid sd i)) /\
    (forall i h, sd_lock sd i = Some h -> sd_pid sd i = pid_of h).
  Lemma stale_mono {A} (ops : list (fop A)) o sd : stale_ok ops sd -> stale_ok (ops ++ [o]) sd.
  Proof. intros (A1 & A2). split; auto. intros. apply in_or_app. left. apply A1; auto. Qed.
  Lemma stale_claim {A} (ops : list (fop A)) h sd j sd' : stale_ok ops sd -> claim_endpoint M pid_of h sd = (Some j, sd') -> stale_ok ops sd'.
  Proof.
    intros (A1 & A2) H. apply claim_some in H. destruct H as (_ & _ & ->). split; cbn [sd_lock sd_active sd_pid]; unfold set1; intros i.
    - destruct (Nat.eqb i j); [discriminate|auto].
    - intros g. destruct (Nat.eqb i j); [congruence|auto].
  Qed.
  Lemma stale_drop {A} (ops : list (fop A)) i sd : stale_ok ops sd -> stale_ok ops (deregister i sd).
  Proof.
    intros (A1 & A2). split; cbn [deregister sd_lock sd_active sd_pid]; unfold set1; intros j.
    - destruct (Nat.eqb j i); [discriminate|auto].
    - intros g. destruct (Nat.eqb j i); [discriminate|auto].
  Qed.
  Lemma stale_reach (ops : list (fop lmsg)) : stale_ok ops (fs_pub (f_final M cap pid_of ops)) /\ stale_ok ops (fs_sub (f_final M cap pid_of ops)).
  Proof.
    induction ops as [|o ops (IHp & IHs)] using rev_ind.
    - split; split; cbn; intros; discriminate.
    - rewrite final_snoc. set (s := f_final M cap pid_of ops) in *.
      pose proof (stale_mono _ o _ IHp) as Kp. pose proof (stale_mono _ o _ IHs) as Ks.
      destruct o as [g a|g|g|pid]; cbn [Fanout.f_step].
      + destruct (f_send M pid_of g a s) as (s', ev) eqn:E. cbn [fst].
        destruct (send_cases _ _ _ _ _ _ _ E) as [(-> & _)|(p & pub & _ & [(H1 & ->)|(H1 & H2)] & ->)]; cbn [fs_pub fs_sub]; auto.
        split; auto. exact (stale_claim _ _ _ _ _ Kp H2).
      + destruct (f_recv M cap pid_of g s) as (s', ev) eqn:E. cbn [fst].
        destruct (recv_cases _ _ _ _ _ _ _ E) as [(-> & _)|(i & sub & ch & H & H2)]; auto.
        assert (S' : stale_ok (ops ++ [ORecv g]) sub).
        { destruct H as [(H0 & -> & _)|(H0 & H1 & _)]; auto. exact (stale_claim _ _ _ _ _ Ks H1). }
        destruct H2 as [(_ & _ & ->)|(a & p & c' & sk & _ & _ & ->)]; split; auto.
      + cbn [fst f_drop fs_pub fs_sub]. destruct (fs_hpub s g), (fs_hsub s g); split; auto using stale_drop.
      + cbn [fst f_crash fs_pub fs_sub].
        assert (K : forall sd, stale_ok ops sd -> stale_ok (ops ++ [OCrash pid]) sd -> stale_ok (ops ++ [OCrash pid]) (unlock pid_of pid sd)).
        { intros sd (B1 & B2) (A1 & A2). split; cbn [unlock sd_lock sd_active sd_pid]; intros i.
          - destruct (sd_lock sd i) as [g|] eqn:E; [|intros; apply A1; auto].
            destruct (Nat.eqb_spec (pid_of g) pid) as [Hp|]; [|discriminate]. intros _ _. rewrite (B2 _ _ E), Hp. apply in_or_app. right. left. auto.
          - intros h. destruct (sd_lock sd i) as [g|] eqn:E; [|discriminate]. destruct (Nat.eqb_spec (pid_of g) pid); [discriminate|].
            intros X; injection X as <-. auto. }
        split; auto.
  Qed.
  Lemma full_side (ops : list (fop lmsg)) h sd hs : side_ok M pid_of sd hs -> stale_ok ops sd ->
    fst (claim_endpoint M pid_of h sd) = None -> ~ crashed ops (pid_of h) ->
    forall j, j < M -> exists g, hs g = Some j.
  Proof.
    intros (S1 & S2) (K1 & K2) H Hc j Hj. unfold claim_endpoint in H.
    destruct (claim_from pid_of M 0 h sd) as [[x|] sd'] eqn:E; [discriminate|]. apply claim_none in E. destruct E as (_ & E).
    destruct (E j ltac:(lia)) as [L|(P & Q)].
    - destruct (sd_lock sd j) as [g|] eqn:El; [|congruence]. exists g. auto.
    - destruct (sd_lock sd j) as [g|] eqn:El; [exists g; auto|]. exfalso. apply Hc. rewrite <- P. auto.
  Qed.
End Slots.

(** ** A publisher that was dropped *)
Section Gone.
  Variables (M cap : nat) (pid_of : nat -> nat) (h : nat).
  Definition cut_off (s : fsys lmsg) : Prop :=
    forall q i a, In a (fc_log (fs_chan s q i)) -> fst a = h -> sd_active (fs_pub s) q = false.
  Lemma cut_off_recv s g : cut_off s -> cut_off (fst (f_recv M cap pid_of g s)) /\
    forall h', got_from h h' (snd (f_recv M cap pid_of g s)) = [].
  Proof.
    intros K. destruct (f_recv M cap pid_of g s) as (s', ev) eqn:E. cbn [fst snd].
    destruct (recv_cases _ _ _ _ _ _ _ E) as [(-> & -> & N1 & _)|(i2 & sub & ch & H & H2)]; [auto|].
    assert (L : forall p i, fc_log (ch p i) = fc_log (fs_chan s p i)).
    { destruct H as [(_ & _ & ->)|(_ & _ & ->)]; auto. intros p' i'. unfold reset_sub. destruct (_ && _); auto. }
    destruct H2 as [(_ & -> & ->)|(a & q & c' & sk & Hr & -> & ->)].
    - split; auto. intros p i x. cbn [fs_chan fs_pub]. rewrite L. apply K.
    - apply recv_loop_some in Hr. destruct Hr as (Qa & Hr & _). unfold fc_recv in Hr.
      destruct (nth_error _ _) as [y|] eqn:En; [|discriminate]. injection Hr as <- <- <-.
      apply nth_error_In in En. rewrite L in En. split.
      + intros p i x. cbn [fs_chan fs_pub]. destruct (_ && _) eqn:E2; cbn [fc_log]; rewrite L; [|apply K].
        apply andb_true_iff in E2. rewrite !Nat.eqb_eq in E2. destruct E2 as (-> & ->). apply K.
      + intros h'. unfold got_from. cbn [f_got]. destruct (Nat.eqb g h'); auto. cbn [filter].
        destruct (Nat.eqb_spec (fst y) h); auto. rewrite (K _ _ _ En) in Qa by auto. discriminate.
  Qed.
  Lemma cut_off_polls post : Forall (fun o : fop lmsg => exists g, o = ORecv g) post -> forall s, cut_off s ->
    forall h', got_from h h' (snd (f_run M cap pid_of s post)) = [].
  Proof.
    induction 1 as [|o post (g & ->) Hp IH]; intros s K h'; auto. cbn [f_run f_step].
    destruct (cut_off_recv s g K) as (K1 & K2). destruct (f_recv M cap pid_of g s) as (s1, e1). cbn [fst snd] in *.
    specialize (IH s1 K1 h'). destruct (f_run M cap pid_of s1 post) as (s2, e2). cbn [snd] in *. rewrite got_from_app, K2, IH. auto.
  Qed.
  Lemma cut_off_drop s : owned h s -> cut_off (f_drop h s).
  Proof.
    intros O q i a Hi Ha. cbn [f_drop fs_chan fs_pub] in *. rewrite (O _ _ _ Hi Ha). cbn [deregister sd_active]. apply set1_eq.
  Qed.
End Gone.
