(** Proofs about services. *)
From Coq Require Import String Permutation.
From Verif.Base Require Import Prelude Bytes AMap Str Decimal.
From Verif.Model Require Import Service.
From Verif.Spec Require Import ServiceSpec.
Local Open Scope N_scope.
Local Open Scope list_scope.

Lemma mix_inj p n p' n' : process_id_mix p n = process_id_mix p' n' -> p = p' /\ n mod 2 ^ 32 = n' mod 2 ^ 32.
Proof.
  unfold process_id_mix. intros H. pose proof (N.mod_lt n (2 ^ 32)). pose proof (N.mod_lt n' (2 ^ 32)).
  assert (p = p'); [|subst; lia]. assert (A : (p * 2 ^ 32 + n mod 2 ^ 32) / 2 ^ 32 = p).
  { rewrite N.div_add_l by discriminate. rewrite N.div_small by lia. lia. }
  assert (B : (p' * 2 ^ 32 + n' mod 2 ^ 32) / 2 ^ 32 = p').
  { rewrite N.div_add_l by discriminate. rewrite N.div_small by lia. lia. }
  congruence.
Qed.
Lemma NoDup_snoc {A} (l : list A) x : NoDup l -> ~ In x l -> NoDup (l ++ [x]).
Proof.
  intros H Hx. induction l as [|y l IH]; cbn [app]; [constructor; auto; constructor|]. inversion H; subst. constructor.
  - rewrite in_app_iff. intros [|[->|[]]]; auto. apply Hx. left; auto.
  - apply IH; auto. intros ?. apply Hx. right; auto.
Qed.
Lemma NoDup_right {A} (l l' : list A) : NoDup (l ++ l') -> NoDup l'.
Proof. induction l as [|x l IH]; auto. cbn [app]. intros H. inversion H; auto. Qed.
Lemma insert_get {V} k k' (v d : V) m :
  match lookup N.eqb k (insert N.eqb k' v m) with Some x => x | None => d end =
  if k =? k' then v else match lookup N.eqb k m with Some x => x | None => d end.
Proof.
  destruct (k =? k') eqn:E.
  - apply N.eqb_eq in E. subst. rewrite lookup_insert_eq by apply N.eqb_eq. reflexivity.
  - rewrite lookup_insert_neq; auto; [apply N.eqb_eq|]. intros ->. rewrite N.eqb_refl in E. discriminate.
Qed.

Lemma calls_by_app {Req} pid (h1 h2 : list (sev Req)) : calls_by pid (h1 ++ h2) = calls_by pid h1 + calls_by pid h2.
Proof. induction h1 as [|e h1 IH]; cbn [app calls_by]; [lia|]. destruct e; cbn [calls_by]; rewrite ?IH; lia. Qed.

Section Proofs.
  Context {Req Res : Type}.
  Variable handler : nat -> Req -> HOut Res.
  Variable can_create : bytes -> bool.
  Variable svc : bytes.
  Notation step := (sstep handler can_create svc).
  Notation run := (srun handler can_create svc).
  Implicit Types (s : Sys Req Res) (c : Call Req) (h : list (sev Req)).

  Lemma counter_insert pid k n m : counter pid (insert N.eqb k n m) = if pid =? k then n else counter pid m.
  Proof. apply insert_get. Qed.
  Lemma box_insert s a b (q : list (SReq Req)) t l o r cs cl u :
    box (mkSys a b q (insert beqb t l (s_box s)) o r cs cl) u = if beqb u t then l else box s u.
  Proof.
    unfold box. cbn [s_box]. destruct (beqb u t) eqn:E.
    - apply beqb_spec in E. subst. rewrite lookup_insert_eq by apply beqb_spec. reflexivity.
    - rewrite lookup_insert_neq; auto; [apply beqb_spec|]. intros ->. assert (beqb t t = true) by (apply beqb_spec; auto). congruence.
  Qed.
  Lemma run_app h1 h2 s : run s (h1 ++ h2) = let '(s1, o1) := run s h1 in let '(s2, o2) := run s1 h2 in (s2, o1 ++ o2).
  Proof.
    revert s. induction h1 as [|e h1 IH]; intros s; cbn [app srun].
    - destruct (run s h2); reflexivity.
    - destruct (step s e) as [s1 o]. rewrite IH. destruct (run s1 h1) as [s2 o1]. destruct (run s2 h2); reflexivity.
  Qed.
  Lemma run_length h s : length (snd (run s h)) = length h.
  Proof.
    revert s. induction h as [|e h IH]; intros s; [reflexivity|]. cbn [srun]. destruct (step s e) as [s1 o].
    specialize (IH s1). destruct (run s1 h). cbn [snd length] in *. congruence.
  Qed.
  Lemma run_nth h : forall s i o, nth_error (snd (run s h)) i = Some o ->
    exists e, nth_error h i = Some e /\ snd (step (fst (run s (firstn i h))) e) = o.
  Proof.
    induction h as [|e h IH]; intros s i o H.
    - destruct i; discriminate H.
    - cbn [srun] in H. destruct (step s e) as [s1 o1] eqn:E. destruct (run s1 h) as [s2 os] eqn:Er. cbn [snd] in H.
      destruct i as [|i].
      + cbn [nth_error] in H. injection H as <-. exists e. split; [reflexivity|]. cbn [firstn srun fst]. rewrite E. reflexivity.
      + cbn [nth_error] in H. destruct (IH s1 i o) as (e' & A & B). { rewrite Er. exact H. }
        exists e'. split; [exact A|]. cbn [firstn srun]. rewrite E. destruct (run s1 (firstn i h)); exact B.
  Qed.

  (** What always holds: every request, run and response goes back to one call. *)
  Definition owned s (id : N) (req : Req) (t : bytes) : Prop := exists c, In c (s_calls s) /\ ca_id c = id /\ ca_req c = req /\ ca_topic c = t.
  Record Inv s : Prop := {
    inv_ids : NoDup (map ca_id (s_calls s));
    inv_issued : forall c, In c (s_calls s) -> exists pid n, ca_id c = process_id_mix pid n /\ n < counter pid (s_next_req s);
    inv_small : forall pid, counter pid (s_next_req s) <= 2 ^ 32;
    inv_moving : NoDup (map rq_id (s_queue s) ++ map fst (s_runs s));
    inv_queue : forall rq, In rq (s_queue s) -> exists t, rq_topic rq = Some t /\ owned s (rq_id rq) (rq_payload rq) t;
    inv_runs : forall n id req, nth_error (s_runs s) n = Some (id, req) -> exists t, owned s id req t;
    inv_box : forall t p, In p (box s t) -> exists n req, nth_error (s_runs s) n = Some (rp_id p, req) /\
                owned s (rp_id p) req t /\ p = response_of (rp_id p) (handler n req);
    inv_boxes : forall t, NoDup (map rp_id (box s t)) }.

  Lemma Inv_0 : Inv sys0.
  Proof.
    constructor; cbn; try (intros; contradiction); try constructor.
    - intros pid. unfold counter. cbn. lia.
    - intros n id req H. destruct n; discriminate.
  Qed.

  Definition fits s h : Prop := (forall pid, ~ In (SRestart pid) h) /\ (forall pid, counter pid (s_next_req s) + calls_by pid h <= 2 ^ 32).
  Lemma fits_0 h : fresh_ids h -> fits sys0 h.
  Proof. intros (A & B & _). split; auto. intros pid. specialize (B pid). unfold counter. cbn. lia. Qed.
  Lemma serve_next srv d s : s_next_req (serve handler can_create svc srv d s) = s_next_req s.
  Proof. unfold serve. destruct (s_queue s) as [|rq q]; auto. destruct (rq_topic rq); reflexivity. Qed.
  Lemma check_next c now s : s_next_req (fst (check c now s)) = s_next_req s.
  Proof. unfold check. destruct (_ <=? _); auto. destruct (box s _); reflexivity. Qed.
  Lemma fits_step s e h : fits s (e :: h) -> fits (fst (step s e)) h.
  Proof.
    intros [A B]. split. { intros pid H. eapply A. right. exact H. }
    intros pid. specialize (B pid). destruct e; cbn [sstep fst] in *; cbn [calls_by] in B.
    - exact B.
    - cbn [start_call fst s_next_req]. rewrite counter_insert. rewrite N.eqb_sym in B. destruct (pid =? pid0) eqn:E; [|lia].
      apply N.eqb_eq in E. subst. lia.
    - rewrite serve_next. exact B.
    - rewrite check_next. exact B.
    - exfalso. eapply A. left. reflexivity.
  Qed.
  Lemma owned_mono s s' id req t : (forall c, In c (s_calls s) -> In c (s_calls s')) -> owned s id req t -> owned s' id req t.
  Proof. intros H (c & A & B). exists c. auto. Qed.
  Lemma owned_fun s id req t req' t' : NoDup (map ca_id (s_calls s)) -> owned s id req t -> owned s id req' t' -> req = req' /\ t = t'.
  Proof.
    intros N (c & A & A1 & A2 & A3) (c' & B & B1 & B2 & B3). assert (c = c'); [|subst; auto].
    clear A2 A3 B2 B3. revert N A B. generalize (s_calls s). induction l as [|x l IH]; intros N A B; [destruct A|].
    cbn [map] in N. inversion N; subst. destruct A as [->|A], B as [->|B]; auto.
    - exfalso. apply H1. rewrite <- B1. apply in_map. auto.
    - exfalso. apply H1. rewrite B1. apply in_map. auto.
  Qed.

  Lemma Inv_call pid t req now timeout d s : Inv s -> counter pid (s_next_req s) + 1 <= 2 ^ 32 ->
    Inv (fst (start_call pid t req now timeout d s)).
  Proof.
    intros I Hc. unfold start_call. cbn [fst]. set (n := counter pid (s_next_req s)) in *. set (id := process_id_mix pid n).
    assert (New : forall c, In c (s_calls s) -> ca_id c <> id).
    { intros c Hin E. destruct (inv_issued s I c Hin) as (p & m & E2 & Lt). rewrite E2 in E. apply mix_inj in E as [-> E].
      fold n in Lt. rewrite !N.mod_small in E by lia. lia. }
    assert (Mono : forall c, In c (s_calls s) -> In c (s_calls s ++ [mkCall id t now timeout req])) by (intros; apply in_app_iff; auto).
    constructor; cbn [s_calls s_next_req s_queue s_runs].
    - rewrite map_app. apply NoDup_snoc; [apply (inv_ids s I)|]. cbn. intros H. apply in_map_iff in H as (c & E & Hin). apply (New c Hin). auto.
    - intros c H. apply in_app_iff in H as [H|[<-|[]]].
      + destruct (inv_issued s I c H) as (p & m & E & Lt). exists p, m. split; auto. rewrite counter_insert. destruct (p =? pid) eqn:Ep; auto.
        apply N.eqb_eq in Ep. subst p. unfold n. lia.
      + exists pid, n. split; auto. rewrite counter_insert, N.eqb_refl. lia.
    - intros p. rewrite counter_insert. destruct (p =? pid); [exact Hc|]. apply (inv_small s I).
    - destruct d; [|apply (inv_moving s I)]. rewrite map_app. cbn [map rq_id]. rewrite <- app_assoc. cbn [app].
      apply NoDup_Add with (a := id) (l := map rq_id (s_queue s) ++ map fst (s_runs s)).
      + apply Add_app.
      + split; [apply (inv_moving s I)|]. intros H. apply in_app_iff in H as [H|H].
        * apply in_map_iff in H as (rq & E & Hin). destruct (inv_queue s I rq Hin) as (u & _ & c & A & B & _). apply (New c A). congruence.
        * apply in_map_iff in H as (ir & E & Hin). destruct ir as [i r]. apply In_nth_error in Hin as (k & Hk). destruct (inv_runs s I k i r Hk) as (u & c & A & B & _).
          apply (New c A). cbn in E. congruence.
    - intros rq H.
      assert (H' : In rq (s_queue s) \/ rq = mkReq id req (Some t)).
      { destruct d; [|auto]. apply in_app_iff in H as [H|[<-|[]]]; auto. }
      destruct H' as [H'| ->].
      + destruct (inv_queue s I rq H') as (u & E & O). exists u. split; auto. eapply owned_mono; [|exact O]. exact Mono.
      + exists t. split; auto. exists (mkCall id t now timeout req). split; [apply in_app_iff; right; left; reflexivity|auto].
    - intros k i r H. destruct (inv_runs s I k i r H) as (u & O). exists u. eapply owned_mono; [|exact O]. exact Mono.
    - intros u p H. destruct (inv_box s I u p H) as (k & r & A & O & E). exists k, r. split; auto. split; auto. eapply owned_mono; [|exact O]. exact Mono.
    - intros u. apply (inv_boxes s I u).
  Qed.
  Lemma Inv_check c now s : Inv s -> Inv (fst (check c now s)).
  Proof.
    intros I. unfold check. destruct (_ <=? _); auto. destruct (box s (ca_topic c)) as [|p rest] eqn:Eb; auto.
    assert (Bx : forall u q, In q (if beqb u (ca_topic c) then rest else box s u) -> In q (box s u)).
    { intros u q H. destruct (beqb u (ca_topic c)) eqn:E; auto. apply beqb_spec in E. subst. rewrite Eb. right; auto. }
    constructor; cbn [fst s_calls s_next_req s_queue s_runs]; try (apply I).
    - intros u q H. rewrite box_insert in H. apply (inv_box s I u q (Bx u q H)).
    - intros u. rewrite box_insert. destruct (beqb u (ca_topic c)) eqn:E; [|apply (inv_boxes s I)].
      pose proof (inv_boxes s I (ca_topic c)) as H. rewrite Eb in H. inversion H; auto.
  Qed.
  Lemma box_post s a b (q : list (SReq Req)) t l p o r cs cl u d :
    box (mkSys a b q (if existsb (beqb t) l then post d t p (s_box s) else s_box s) o r cs cl) u =
    if existsb (beqb t) l && d && beqb u t then box s t ++ [p] else box s u.
  Proof.
    destruct (existsb (beqb t) l); cbn [andb]; [|reflexivity]. unfold post. destruct d; cbn [andb]; [|reflexivity].
    rewrite box_insert. reflexivity.
  Qed.
  Lemma serve_eq srv d s rq q t : s_queue s = rq :: q -> rq_topic rq = Some t ->
    let p := response_of (rq_id rq) (handler (length (s_runs s)) (rq_payload rq)) in
    let l := open_topic can_create t (opened s srv) in
    serve handler can_create svc srv d s =
    mkSys (s_next_req s) (s_next_client s) q (if existsb (beqb t) l then post d t p (s_box s) else s_box s) (insert N.eqb srv l (s_open s))
      (s_runs s ++ [(rq_id rq, rq_payload rq)]) (s_calls s) (s_clients s).
  Proof. intros E Et p l. unfold serve. rewrite E, Et. reflexivity. Qed.
  Lemma Inv_serve srv d s : Inv s -> Inv (serve handler can_create svc srv d s).
  Proof.
    intros I. destruct (s_queue s) as [|rq q] eqn:Eq. { unfold serve. rewrite Eq. exact I. }
    destruct (inv_queue s I rq) as (t & Et & Ow). { rewrite Eq. left; auto. }
    rewrite (serve_eq srv d s rq q t Eq Et). cbv zeta. set (p := response_of _ _). set (l := open_topic _ _ _).
    assert (Last : nth_error (s_runs s ++ [(rq_id rq, rq_payload rq)]) (length (s_runs s)) = Some (rq_id rq, rq_payload rq)).
    { rewrite nth_error_app2, Nat.sub_diag by lia. reflexivity. }
    assert (Old : forall n x, nth_error (s_runs s) n = Some x -> nth_error (s_runs s ++ [(rq_id rq, rq_payload rq)]) n = Some x).
    { intros n x H. rewrite nth_error_app1; auto. apply nth_error_Some. congruence. }
    assert (Pid : rp_id p = rq_id rq) by (unfold p, response_of; destruct (handler _ _); reflexivity).
    assert (Mv : NoDup (rq_id rq :: map rq_id q ++ map fst (s_runs s))).
    { pose proof (inv_moving s I) as M. rewrite Eq in M. exact M. }
    constructor; cbn [s_calls s_next_req s_queue s_runs]; try (apply I).
    - rewrite map_app. cbn [map fst]. rewrite app_assoc. inversion Mv; subst. apply NoDup_snoc; auto.
    - intros rq' H. destruct (inv_queue s I rq') as (u & A & B); [rewrite Eq; right; auto|]. exists u. auto.
    - intros n id req H. destruct (Nat.lt_ge_cases n (length (s_runs s))) as [Hl|Hl].
      + rewrite nth_error_app1 in H by auto. apply (inv_runs s I n id req H).
      + rewrite nth_error_app2 in H by auto. destruct (n - length (s_runs s))%nat as [|k]; [|destruct k; discriminate].
        cbn in H. injection H as <- <-. exists t. exact Ow.
    - intros u p' H. rewrite box_post in H.
      assert (H' : In p' (box s u) \/ (u = t /\ p' = p)).
      { destruct (existsb _ l && d && beqb u t) eqn:E; auto. apply andb_prop in E as [_ E]. apply beqb_spec in E. subst u.
        apply in_app_iff in H as [H|[<-|[]]]; auto. }
      destruct H' as [H'|[-> ->]].
      + destruct (inv_box s I u p' H') as (n & req & A & B & C). exists n, req. auto.
      + exists (length (s_runs s)), (rq_payload rq). rewrite Pid. split; [exact Last|]. split; [exact Ow|reflexivity].
    - intros u. rewrite box_post. destruct (existsb _ l && d && beqb u t); [|apply (inv_boxes s I)].
      rewrite map_app. cbn [map]. apply NoDup_snoc; [apply (inv_boxes s I)|]. rewrite Pid. intros H. apply in_map_iff in H as (p' & E & Hin).
      destruct (inv_box s I t p' Hin) as (n & req & A & _). inversion Mv; subst. apply H1. apply in_app_iff. right.
      apply in_map_iff. exists (rp_id p', req). split; [exact E|]. eapply nth_error_In; eauto.
  Qed.
  Lemma Inv_step s e h : Inv s -> fits s (e :: h) -> Inv (fst (step s e)).
  Proof.
    intros I [F1 F2]. destruct e; cbn [sstep fst].
    - constructor; cbn [new_client fst s_calls s_next_req s_queue s_runs]; try apply I.
    - apply Inv_call; auto. specialize (F2 pid). cbn [calls_by] in F2. rewrite N.eqb_refl in F2. lia.
    - apply Inv_serve; auto.
    - apply Inv_check; auto.
    - exfalso. eapply F1. left. reflexivity.
  Qed.
  Lemma Inv_run h : forall s, Inv s -> fits s h -> Inv (fst (run s h)).
  Proof.
    induction h as [|e h IH]; intros s I F; [exact I|]. cbn [srun].
    pose proof (Inv_step s e h I F). pose proof (fits_step s e h F). destruct (step s e) as [s1 o]. cbn [fst] in *.
    specialize (IH s1 H H0). destruct (run s1 h). exact IH.
  Qed.
  Lemma fits_prefix s h1 h2 : fits s (h1 ++ h2) -> fits s h1.
  Proof.
    intros [A B]. split. { intros pid H. apply (A pid). apply in_app_iff. auto. }
    intros pid. specialize (B pid). rewrite calls_by_app in B. lia.
  Qed.
  Lemma fits_suffix h1 : forall s h2, fits s (h1 ++ h2) -> fits (fst (run s h1)) h2.
  Proof.
    induction h1 as [|e h1 IH]; intros s h2 F; [exact F|]. cbn [app] in F. apply fits_step in F. cbn [srun]. destruct (step s e) as [s1 o]. cbn [fst] in F.
    specialize (IH s1 h2 F). destruct (run s1 h1). exact IH.
  Qed.

  (** Runs and calls are only ever added. *)
  Lemma step_runs s e : exists l, s_runs (fst (step s e)) = s_runs s ++ l.
  Proof.
    destruct e; cbn [sstep fst]; try (exists []; rewrite app_nil_r; reflexivity).
    - unfold serve. destruct (s_queue s) as [|rq q]; [exists []; rewrite app_nil_r; reflexivity|]. destruct (rq_topic rq); eexists; reflexivity.
    - exists []. rewrite app_nil_r. unfold check. destruct (_ <=? _); auto. destruct (box s _); reflexivity.
  Qed.
  Lemma run_runs h : forall s, exists l, s_runs (fst (run s h)) = s_runs s ++ l.
  Proof.
    induction h as [|e h IH]; intros s. { exists []. rewrite app_nil_r. reflexivity. }
    cbn [srun]. destruct (step_runs s e) as [l E]. destruct (step s e) as [s1 o]. cbn [fst] in E. destruct (IH s1) as [l' E'].
    destruct (run s1 h). cbn [fst] in *. exists (l ++ l'). rewrite E', E, app_assoc. reflexivity.
  Qed.
  Lemma rp_id_of id (o : HOut Res) : rp_id (response_of id o) = id. Proof. destruct o; reflexivity. Qed.
  Lemma reports_result id (o : HOut Res) : reports o (result_of (response_of id o)).
  Proof. destruct o; reflexivity. Qed.

  Lemma check_answer c now s r : Inv s -> In c (s_calls s) -> snd (check c now s) = Some r ->
    (r = Err Timeout /\ expired c now) \/ (~ expired c now /\ exists n o, run_for handler s c n o /\ reports o r).
  Proof.
    intros I Hc. unfold check, expired. destruct (ca_timeout c <=? now - ca_sent c) eqn:E.
    - apply N.leb_le in E. cbn [snd]. intros H. injection H as <-. auto.
    - apply N.leb_gt in E. destruct (box s (ca_topic c)) as [|p rest] eqn:Eb; [discriminate|]. cbn [snd].
      destruct (rp_id p =? ca_id c) eqn:Ei; [|discriminate]. apply N.eqb_eq in Ei. intros H. injection H as <-. right. split; [lia|].
      destruct (inv_box s I (ca_topic c) p) as (n & req & A & O & Ep). { rewrite Eb. left; auto. }
      assert (O' : owned s (rp_id p) (ca_req c) (ca_topic c)) by (exists c; auto).
      destruct (owned_fun s _ _ _ _ _ (inv_ids s I) O O') as [-> _]. exists n, (handler n (ca_req c)). split.
      + split; [rewrite A; congruence|reflexivity].
      + rewrite Ep. apply reports_result.
  Qed.

  (** A response that was thrown away does not come back. *)
  Definition lost s (id : N) : Prop := In id (map fst (s_runs s)) /\ forall t p, In p (box s t) -> rp_id p <> id.
  Lemma lost_step s e h id : Inv s -> fits s (e :: h) -> lost s id -> lost (fst (step s e)) id.
  Proof.
    intros I F [L1 L2]. split.
    { destruct (step_runs s e) as [l ->]. rewrite map_app. apply in_app_iff. auto. }
    destruct e; cbn [sstep fst]; auto.
    - intros t p. destruct (s_queue s) as [|rq q] eqn:Eq. { unfold serve. rewrite Eq. apply L2. }
      destruct (inv_queue s I rq) as (u & Et & Ow). { rewrite Eq. left; auto. }
      rewrite (serve_eq srv delivered s rq q u Eq Et). cbv zeta. rewrite box_post. destruct (existsb _ _ && delivered && beqb t u); [|apply L2].
      intros H. apply in_app_iff in H as [H|[<-|[]]]; [eapply L2; eauto|]. rewrite rp_id_of.
      intros <-. pose proof (inv_moving s I) as M. rewrite Eq in M. cbn [map app] in M. inversion M; subst. apply H1. apply in_app_iff. auto.
    - intros t p. unfold check. destruct (_ <=? _); [apply L2|]. destruct (box s (ca_topic c)) as [|x rest] eqn:Eb; [apply L2|]. cbn [fst].
      rewrite box_insert. destruct (beqb t (ca_topic c)) eqn:E; [|apply L2]. intros H. apply (L2 (ca_topic c)). rewrite Eb. right; auto.
  Qed.
  Lemma lost_run h id : forall s, Inv s -> fits s h -> lost s id -> lost (fst (run s h)) id.
  Proof.
    induction h as [|e h IH]; intros s I F L; [exact L|]. cbn [srun].
    pose proof (Inv_step s e h I F). pose proof (fits_step s e h F). pose proof (lost_step s e h id I F L). destruct (step s e) as [s1 o]. cbn [fst] in *.
    specialize (IH s1 H H0 H1). destruct (run s1 h). exact IH.
  Qed.
  Lemma lost_check s c now : lost s (ca_id c) -> snd (check c now s) = None \/ snd (check c now s) = Some (Err Timeout).
  Proof.
    intros [_ L]. unfold check. destruct (_ <=? _); auto. destruct (box s (ca_topic c)) as [|p rest] eqn:Eb; auto. cbn [snd].
    destruct (rp_id p =? ca_id c) eqn:E; auto. apply N.eqb_eq in E. exfalso. apply (L (ca_topic c) p); [rewrite Eb; left|]; auto.
  Qed.
  Lemma lost_never s h id : Inv s -> fits s h -> lost s id -> never_answered h (snd (run s h)) (fun c => ca_id c = id).
  Proof.
    intros I F L i c now o Hc Hh Ho. apply run_nth in Ho as (e & He & Ho). rewrite Hh in He. injection He as <-. cbn [sstep] in Ho. subst o id.
    apply lost_check. apply lost_run; auto. rewrite <- (firstn_skipn i h) in F. eapply fits_prefix; eauto.
  Qed.

  (** The cap on response topics. *)
  Lemma opened_serve s srv srv' d : opened (serve handler can_create svc srv d s) srv' =
    match s_queue s with
    | rq :: _ => match rq_topic rq with
                 | Some t => if srv' =? srv then open_topic can_create t (opened s srv) else opened s srv'
                 | None => opened s srv'
                 end
    | [] => opened s srv'
    end.
  Proof.
    unfold serve. destruct (s_queue s) as [|rq q]; auto. destruct (rq_topic rq) as [t|]; auto. unfold opened at 1. cbn [s_open].
    rewrite insert_get. reflexivity.
  Qed.
  Definition refused s (srv : N) (t : bytes) : Prop := (64 <= length (opened s srv))%nat /\ ~ In t (opened s srv) /\ box s t = [] /\
    (forall rq, In rq (s_queue s) -> rq_topic rq <> None).
  Lemma existsb_In t l : existsb (beqb t) l = true <-> In t l.
  Proof.
    rewrite existsb_exists. split.
    - intros (x & A & B). apply beqb_spec in B. subst. auto.
    - intros H. exists t. split; auto. apply beqb_spec. auto.
  Qed.
  Lemma refused_step s e srv t : refused s srv t -> (forall srv' d, e = SServe srv' d -> srv' = srv) -> refused (fst (step s e)) srv t.
  Proof.
    intros (R1 & R2 & R3 & R4) Hs. destruct e; cbn [sstep fst].
    - split; auto.
    - split; [auto|]. split; [auto|]. split; [auto|]. cbn [start_call fst s_queue]. intros rq H. destruct delivered; [|auto].
      apply in_app_iff in H as [H|[<-|[]]]; auto. discriminate.
    - specialize (Hs srv0 delivered eq_refl). subst srv0. unfold refused. rewrite opened_serve.
      destruct (s_queue s) as [|rq q] eqn:Eq. { unfold serve. rewrite Eq. split; auto. split; auto. split; auto. intros rq H. rewrite Eq in H. destruct H. }
      destruct (rq_topic rq) as [u|] eqn:Et. 2:{ exfalso. apply (R4 rq); [left|]; auto. }
      rewrite N.eqb_refl. unfold open_topic. unfold MAX_CLIENT_RESPONSE_TOPICS. rewrite (proj2 (Nat.leb_le 64 _) R1).
      assert (Ol : (if existsb (beqb u) (opened s srv) then opened s srv else opened s srv) = opened s srv) by (destruct (existsb _ _); reflexivity).
      rewrite Ol. split; auto. split; auto. rewrite (serve_eq srv delivered s rq q u Eq Et). cbv zeta. split.
      + rewrite box_post. unfold open_topic, MAX_CLIENT_RESPONSE_TOPICS. rewrite (proj2 (Nat.leb_le 64 _) R1), Ol.
        destruct (existsb (beqb u) (opened s srv) && delivered && beqb t u) eqn:E; auto.
        apply andb_prop in E as [E E1]. apply andb_prop in E as [E _]. apply beqb_spec in E1. subst u. apply existsb_In in E. contradiction.
      + cbn [s_queue]. intros rq' H. apply R4. right. auto.
    - unfold check. destruct (_ <=? _); [split; auto|]. destruct (box s (ca_topic c)) as [|x rest] eqn:Eb; [split; auto|]. cbn [fst].
      split; auto. split; auto. split; [|auto]. rewrite box_insert. destruct (beqb t (ca_topic c)) eqn:E; auto. apply beqb_spec in E. subst. congruence.
    - split; auto.
  Qed.
  Lemma refused_run h srv t : forall s, refused s srv t -> (forall srv' d, In (SServe srv' d) h -> srv' = srv) -> refused (fst (run s h)) srv t.
  Proof.
    induction h as [|e h IH]; intros s R Hs; [exact R|]. cbn [srun].
    assert (R' : refused (fst (step s e)) srv t). { apply refused_step; auto. intros srv' d ->. apply (Hs srv' d). left. reflexivity. }
    destruct (step s e) as [s1 o]. cbn [fst] in *. specialize (IH s1 R'). destruct (run s1 h). apply IH. intros srv' d H. apply (Hs srv' d). right. auto.
  Qed.
  Lemma refused_never s h srv t : refused s srv t -> (forall srv' d, In (SServe srv' d) h -> srv' = srv) ->
    never_answered h (snd (run s h)) (fun c => ca_topic c = t).
  Proof.
    intros R Hs i c now o Hc Hh Ho. apply run_nth in Ho as (e & He & Ho). rewrite Hh in He. injection He as <-. cbn [sstep] in Ho. subst o.
    destruct (refused_run (firstn i h) srv t s R) as (_ & _ & B & _).
    { intros srv' d H. apply (Hs srv' d). rewrite <- (firstn_skipn i h). apply in_app_iff. auto. }
    unfold check. destruct (_ <=? _); auto. rewrite Hc, B. auto.
  Qed.
End Proofs.

Section Answering.
  Context {Req Res : Type}.
  Variable handler : nat -> Req -> HOut Res.
  Variable can_create : bytes -> bool.
  Variable svc : bytes.
  Notation step := (sstep handler can_create svc).
  Notation run := (srun handler can_create svc).
  Notation turn := (serve handler can_create svc).
  Notation pass := (serve_pass handler can_create svc).
  Implicit Types (s : Sys Req Res) (c : Call Req) (h : list (sev Req)).

  Variable names : list bytes.
  Hypothesis names_few : (length names <= 64)%nat.
  Hypothesis names_ok : forall t, In t names -> can_create t = true.
  Definition Few s : Prop :=
    (forall rq t, In rq (s_queue s) -> rq_topic rq = Some t -> In t names) /\
    (forall srv, NoDup (opened s srv) /\ incl (opened s srv) names).
  Lemma open_topic_few t l : In t names -> NoDup l -> incl l names ->
    In t (open_topic can_create t l) /\ NoDup (open_topic can_create t l) /\ incl (open_topic can_create t l) names.
  Proof.
    intros Ht Hn Hi. unfold open_topic. destruct (existsb (beqb t) l) eqn:E. { apply existsb_In in E. auto. }
    assert (Ni : ~ In t l) by (rewrite <- existsb_In; congruence).
    assert (Hl : (length l < 64)%nat).
    { assert (H : (length (t :: l) <= length names)%nat); [|cbn in H; lia]. apply NoDup_incl_length; [constructor; auto|]. intros x [<-|Hx]; auto. }
    unfold MAX_CLIENT_RESPONSE_TOPICS. rewrite (proj2 (Nat.leb_gt 64 _) Hl), (names_ok t Ht). split; [left; auto|].
    split; [constructor; auto|]. intros x [<-|Hx]; auto.
  Qed.
  Lemma Few_serve srv d s : Few s -> Few (turn srv d s).
  Proof.
    intros [F1 F2]. split.
    - intros rq t H. apply F1. unfold serve in H. destruct (s_queue s) as [|rq' q] eqn:Eq; [rewrite Eq in H; exact H|]. destruct (rq_topic rq'); right; exact H.
    - intros srv'. rewrite opened_serve. destruct (s_queue s) as [|rq q] eqn:Eq; [apply F2|]. destruct (rq_topic rq) as [t|] eqn:Et; [|apply F2].
      destruct (srv' =? srv) eqn:E; [|apply F2]. destruct (F2 srv). apply open_topic_few; auto. apply (F1 rq); auto. left; auto.
  Qed.
  Lemma Few_run h : forall s, Few s -> (forall pid t req now timeout d, In (SCall pid t req now timeout d) h -> In t names) -> Few (fst (run s h)).
  Proof.
    induction h as [|e h IH]; intros s F H; [exact F|]. cbn [srun]. destruct (step s e) as [s1 o] eqn:Es.
    assert (F' : Few s1).
    { change s1 with (fst (s1, o)). rewrite <- Es. destruct e; cbn [sstep fst].
      - exact F.
      - destruct F as [F1 F2]. split; [|exact F2]. cbn [start_call fst s_queue]. intros rq t. destruct delivered; [|apply F1].
        intros Hin Et. apply in_app_iff in Hin as [Hin|[<-|[]]]; [eapply F1; eauto|]. cbn in Et. injection Et as <-. eapply H. left. reflexivity.
      - apply Few_serve, F.
      - unfold check. destruct (_ <=? _); auto. destruct (box s _); exact F.
      - exact F. }
    specialize (IH s1 F'). destruct (run s1 h). apply IH. intros. eapply H. right. eassumption.
  Qed.
  Lemma Few_0 : Few sys0.
  Proof. split; [intros ? ? []|]. intros srv. split; [constructor|intros ? []]. Qed.

  Lemma serve_keeps srv d s t p : Inv handler s -> In p (box s t) -> In p (box (turn srv d s) t).
  Proof.
    intros I H. destruct (s_queue s) as [|rq q] eqn:Eq. { unfold serve. rewrite Eq. exact H. }
    destruct (inv_queue handler s I rq) as (u & Et & _). { rewrite Eq. left; auto. }
    rewrite (serve_eq handler can_create svc srv d s rq q u Eq Et). cbv zeta. rewrite box_post. destruct (_ && _ && beqb t u) eqn:E; auto.
    apply andb_prop in E as [_ E]. apply beqb_spec in E. subst u. apply in_app_iff. auto.
  Qed.
  Lemma pass_keeps srv d : forall k s t p n x, Inv handler s -> In p (box s t) -> nth_error (s_runs s) n = Some x ->
    In p (box (pass srv k d s) t) /\ nth_error (s_runs (pass srv k d s)) n = Some x.
  Proof.
    intros k. revert d. induction k as [|k IH]; intros d s t p n x I H Hn; [auto|]. cbn [serve_pass]. apply IH.
    - apply Inv_serve; auto.
    - apply serve_keeps; auto.
    - destruct (step_runs handler can_create svc s (SServe srv (d 0%nat))) as [l E]. cbn [sstep fst] in E. rewrite E. rewrite nth_error_app1; auto.
      apply nth_error_Some. congruence.
  Qed.
  Lemma pass_answers srv : forall k s c pre post, Inv handler s -> Few s ->
    s_queue s = pre ++ mkReq (ca_id c) (ca_req c) (Some (ca_topic c)) :: post -> (length pre < k)%nat ->
    exists n, nth_error (s_runs (pass srv k (fun _ => true) s)) n = Some (ca_id c, ca_req c) /\
      In (response_of (ca_id c) (handler n (ca_req c))) (box (pass srv k (fun _ => true) s) (ca_topic c)).
  Proof.
    induction k as [|k IH]; intros s c pre post I F Eq Hk; [lia|]. cbn [serve_pass]. destruct pre as [|rq pre].
    - cbn [app] in Eq. exists (length (s_runs s)). rewrite <- and_comm. apply pass_keeps.
      + apply Inv_serve; auto.
      + rewrite (serve_eq handler can_create svc srv true s _ post (ca_topic c) Eq eq_refl). cbv zeta. rewrite box_post.
        destruct F as [F1 F2]. destruct (F2 srv) as [Fa Fb].
        destruct (open_topic_few (ca_topic c) (opened s srv)) as (A & _); auto. { eapply F1; [rewrite Eq; left; reflexivity|reflexivity]. }
        apply existsb_In in A. rewrite A. cbn [andb]. rewrite (proj2 (beqb_spec _ _) eq_refl). apply in_app_iff. right. left. reflexivity.
      + rewrite (serve_eq handler can_create svc srv true s _ post (ca_topic c) Eq eq_refl). cbn [s_runs rq_id rq_payload]. rewrite nth_error_app2, Nat.sub_diag by lia. reflexivity.
    - cbn [app] in Eq. apply (IH (turn srv true s) c pre post).
      + apply Inv_serve; auto.
      + apply Few_serve; auto.
      + unfold serve. rewrite Eq. destruct (rq_topic rq); reflexivity.
      + cbn [length] in Hk. lia.
  Qed.
  Lemma pass_Inv srv d : forall k s, Inv handler s -> Inv handler (pass srv k d s).
  Proof. intros k. revert d. induction k as [|k IH]; intros d s I; [exact I|]. cbn [serve_pass]. apply IH, Inv_serve, I. Qed.
  Lemma checks_find c p after : forall before times s, box s (ca_topic c) = before ++ p :: after -> rp_id p = ca_id c ->
    (forall q, In q before -> rp_id q <> ca_id c) -> length times = S (length before) -> (forall now, In now times -> ~ expired c now) ->
    snd (run s (map (SCheck c) times)) = repeat None (length before) ++ [Some (result_of p)].
  Proof.
    induction before as [|q before IH]; intros times s Eb Ep Hn Hl Ht.
    - destruct times as [|now [|? ?]]; try discriminate. cbn [map srun sstep]. unfold check.
      specialize (Ht now (or_introl eq_refl)). unfold expired in Ht. rewrite (proj2 (N.leb_gt _ _)) by lia. rewrite Eb. cbn [app].
      rewrite Ep, N.eqb_refl. reflexivity.
    - destruct times as [|now times]; [discriminate|]. cbn [map srun sstep]. unfold check.
      pose proof (Ht now (or_introl eq_refl)) as Hx. unfold expired in Hx. rewrite (proj2 (N.leb_gt _ _)) by lia. rewrite Eb. cbn [app].
      rewrite (proj2 (N.eqb_neq _ _) (Hn q (or_introl eq_refl))).
      set (s1 := mkSys _ _ _ _ _ _ _ _).
      specialize (IH times s1). destruct (run s1 (map (SCheck c) times)) as [s2 os] eqn:Er. cbn [snd length repeat app] in *. f_equal. apply IH; auto.
      + unfold s1. rewrite box_insert, (proj2 (beqb_spec _ _) eq_refl). reflexivity.
      + intros q' Hq. apply Hn. right; auto.
      + intros now' Hw. apply Ht. right; auto.
  Qed.
  Lemma split_response l id (p : SResp Res) : NoDup (map rp_id l) -> In p l -> rp_id p = id ->
    exists before after, l = before ++ p :: after /\ forall q, In q before -> rp_id q <> id.
  Proof.
    intros Hn Hi He. apply in_split in Hi as (b & a & ->). exists b, a. split; auto. intros q Hq E.
    rewrite map_app in Hn. cbn [map] in Hn. apply NoDup_remove_2 in Hn. apply Hn. apply in_app_iff. left. apply in_map_iff. exists q. split; congruence.
  Qed.
End Answering.

Section Clients.
  Context {Req Res : Type}.
  Variable handler : nat -> Req -> HOut Res.
  Variable can_create : bytes -> bool.
  Variable svc : bytes.
  Notation step := (sstep handler can_create svc).
  Notation run := (srun handler can_create svc).
  Implicit Types (s : Sys Req Res) (h : list (sev Req)).
  Lemma client_topic_inj a b : client_topic svc a = client_topic svc b -> a = b.
  Proof. unfold client_topic. intros H. apply app_inv_head in H. apply app_inv_head in H. apply dec_inj. exact H. Qed.
  Definition CInv s : Prop := NoDup (s_clients s) /\
    forall t, In t (s_clients s) -> exists pid n, t = client_topic svc (process_id_mix pid n) /\ n < counter pid (s_next_client s).
  Lemma serve_clients srv d s : s_clients (serve handler can_create svc srv d s) = s_clients s /\ s_next_client (serve handler can_create svc srv d s) = s_next_client s.
  Proof. unfold serve. destruct (s_queue s) as [|rq q]; auto. destruct (rq_topic rq); auto. Qed.
  Lemma CInv_run h : forall s, CInv s -> (forall pid, ~ In (SRestart pid) h) -> (forall pid, counter pid (s_next_client s) + clients_by pid h <= 2 ^ 32) ->
    CInv (fst (run s h)).
  Proof.
    induction h as [|e h IH]; intros s I R C; [exact I|]. cbn [srun]. destruct (step s e) as [s1 o] eqn:Es.
    assert (X : CInv s1 /\ forall pid, counter pid (s_next_client s1) + clients_by pid h <= 2 ^ 32).
    { change s1 with (fst (s1, o)). rewrite <- Es. clear Es. destruct e; cbn [sstep fst]; cbn [clients_by] in C.
      - cbn [new_client fst]. destruct I as [I1 I2]. split.
        + split; cbn [s_clients s_next_client].
          * apply NoDup_snoc; auto. intros H. destruct (I2 _ H) as (p & m & E & Lt). apply client_topic_inj in E. apply mix_inj in E as [<- E].
            pose proof (C pid) as Cp. rewrite N.eqb_refl in Cp. rewrite !N.mod_small in E by lia. lia.
          * intros t H. apply in_app_iff in H as [H|[<-|[]]].
            -- destruct (I2 t H) as (p & m & E & Lt). exists p, m. split; auto. rewrite counter_insert. destruct (p =? pid) eqn:Ep; auto.
               apply N.eqb_eq in Ep. subst. lia.
            -- exists pid, (counter pid (s_next_client s)). split; auto. rewrite counter_insert, N.eqb_refl. lia.
        + intros p. specialize (C p). cbn [s_next_client]. rewrite counter_insert. rewrite N.eqb_sym in C. destruct (p =? pid) eqn:Ep; [|lia].
          apply N.eqb_eq in Ep. subst. lia.
      - auto.
      - unfold CInv. destruct (serve_clients srv delivered s) as [-> ->]. auto.
      - unfold check. destruct (_ <=? _); auto. destruct (box s _); auto.
      - exfalso. eapply R. left. reflexivity. }
    destruct X as [X1 X2]. specialize (IH s1 X1 (fun pid H => R pid (or_intror H)) X2). destruct (run s1 h). exact IH.
  Qed.
End Clients.
  Lemma resilient_spec {Res} max : forall (attempts : nat -> Result Res) r n, call_resilient max attempts = (r, n) ->
    (1 <= n <= S max)%nat /\ r = attempts (n - 1)%nat /\ (forall i, (i < n - 1)%nat -> exists e, attempts i = Err e /\ is_transient e = true) /\
    (n = S max \/ (exists v, r = Ok v) \/ (exists e, r = Err e /\ is_transient e = false)).
  Proof.
    induction max as [|max IH]; intros attempts r n; cbn [call_resilient]; destruct (attempts 0%nat) as [v|e] eqn:E.
    - intros H. injection H as <- <-. split; [lia|]. split; [auto|]. split; [intros; lia|]. right. left. eauto.
    - intros H. injection H as <- <-. split; [lia|]. split; [auto|]. split; [intros; lia|]. auto.
    - intros H. injection H as <- <-. split; [lia|]. split; [auto|]. split; [intros; lia|]. right. left. eauto.
    - destruct (is_transient e) eqn:Et; cbn [negb].
      + destruct (call_resilient max (fun i => attempts (S i))) as [r' n'] eqn:Er. apply IH in Er as (A & B & C & D).
        intros H. injection H as <- <-. split; [lia|]. split; [rewrite B; f_equal; lia|]. split.
        * intros [|i] Hi; [eauto|]. apply C. lia.
        * destruct D as [->|D]; auto.
      + intros H. injection H as <- <-. split; [lia|]. split; [auto|]. split; [intros; lia|]. right. right. eauto.
  Qed.

(** ** Each sent request is in the queue or has been run, whatever happens to the ids *)
Section Always.
  Context {Req Res : Type}.
  Variable handler : nat -> Req -> HOut Res.
  Variable can_create : bytes -> bool.
  Variable svc : bytes.
  Definition asked (c : Call Req) : N * Req := (ca_id c, ca_req c).
  Definition queued (rq : SReq Req) : N * Req := (rq_id rq, rq_payload rq).
  Definition Accounted (s : Sys Req Res) : Prop := exists lost, Permutation (map asked (s_calls s)) (s_runs s ++ map queued (s_queue s) ++ lost).
  Lemma Accounted_step s e : Accounted s -> Accounted (fst (sstep handler can_create svc s e)).
  Proof.
    intros (lost & P). unfold Accounted. destruct e; cbn [sstep].
    - exists lost. exact P.
    - unfold start_call. cbn [fst s_calls s_runs s_queue]. rewrite map_app. cbn [map]. unfold asked at 2. cbn [ca_id ca_req].
      set (x := (process_id_mix _ _, req)). destruct delivered.
      + exists lost. rewrite map_app. cbn [map]. unfold queued at 2. cbn [rq_id rq_payload]. fold x.
        rewrite <- Permutation_cons_append, P, <- app_assoc. cbn [app]. rewrite !app_assoc. apply Permutation_middle.
      + exists (x :: lost). rewrite <- Permutation_cons_append, P. rewrite !app_assoc. apply Permutation_middle.
    - exists lost. cbn [fst]. unfold serve. destruct (s_queue s) as [|rq q] eqn:Eq; [rewrite Eq; exact P|]. cbn [map app] in P.
      assert (X : Permutation (map asked (s_calls s)) ((s_runs s ++ [queued rq]) ++ map queued q ++ lost)) by (rewrite <- app_assoc; exact P).
      destruct (rq_topic rq); exact X.
    - exists lost. unfold check. destruct (_ <=? _); [exact P|]. destruct (box s _); exact P.
    - exists lost. exact P.
  Qed.
  Lemma Accounted_run h : forall s, Accounted s -> Accounted (fst (srun handler can_create svc s h)).
  Proof.
    induction h as [|e h IH]; intros s A; [exact A|]. cbn [srun]. pose proof (Accounted_step s e A) as B. destruct (sstep handler can_create svc s e) as [s1 o].
    specialize (IH s1 B). destruct (srun handler can_create svc s1 h). exact IH.
  Qed.
End Always.
