(** Proofs about the command line's file gateway. *)
From Verif.Base Require Import Prelude Bytes AMap.
From Verif.Model Require Import Gateway.
From Verif.Spec Require Import GatewaySpec.
Local Open Scope N_scope.

Lemma gname_eqb_spec a b : gname_eqb a b = true <-> a = b.
Proof. destruct a, b; cbn; rewrite ?N.eqb_eq; split; intros H; try congruence; try discriminate. Qed.
Lemma gname_dec (a b : gname) : {a = b} + {a <> b}.
Proof. destruct (gname_eqb a b) eqn:E; [left; apply gname_eqb_spec; auto|right; intros H; apply gname_eqb_spec in H; congruence]. Qed.
Lemma prefix_app {A} (a b : list A) : firstn (length a) (a ++ b) = a.
Proof. rewrite firstn_app, Nat.sub_diag, firstn_all. cbn. apply app_nil_r. Qed.

Section Proofs.
  Context {Req Resp : Type}.
  Variable parse_req : bytes -> option (N * Req).
  Variable enc_resp : N -> Resp -> bytes.
  Variable parse_resp : bytes -> option Resp.
  Variable handler : nat -> Req -> Resp.
  Notation step := (gstep parse_req enc_resp parse_resp handler).
  Notation run := (grun parse_req enc_resp parse_resp handler).
  Notation claim := (srv_claim parse_req enc_resp handler).
  Implicit Types (s : GS Req Resp) (h : list gev).

  Notation at_file n s := (lookup gname_eqb n (g_files s)).
  Lemma clear_at n id files : lookup gname_eqb n (clear id files) = if gname_eqb n (RequestFile id) || gname_eqb n (ResponseFile id) then None else lookup gname_eqb n files.
  Proof.
    unfold clear. destruct (gname_dec n (ResponseFile id)) as [->|H1].
    - rewrite lookup_remove_eq by apply gname_eqb_spec. rewrite (proj2 (gname_eqb_spec _ _) eq_refl), orb_true_r. reflexivity.
    - rewrite lookup_remove_neq by (auto; apply gname_eqb_spec). destruct (gname_dec n (RequestFile id)) as [->|H2].
      + rewrite lookup_remove_eq by apply gname_eqb_spec. rewrite (proj2 (gname_eqb_spec _ _) eq_refl). reflexivity.
      + rewrite lookup_remove_neq by (auto; apply gname_eqb_spec).
        replace (gname_eqb n (RequestFile id)) with false by (symmetry; apply not_true_iff_false; rewrite gname_eqb_spec; auto).
        replace (gname_eqb n (ResponseFile id)) with false by (symmetry; apply not_true_iff_false; rewrite gname_eqb_spec; auto). reflexivity.
  Qed.
  Lemma clear_some n id files d : lookup gname_eqb n (clear id files) = Some d -> lookup gname_eqb n files = Some d.
  Proof. rewrite clear_at. destruct (_ || _); congruence. Qed.
  Lemma append_at n m d files : lookup gname_eqb n (append m d files) =
    match lookup gname_eqb n files with Some old => Some (if gname_eqb n m then old ++ d else old) | None => None end.
  Proof.
    unfold append. destruct (lookup gname_eqb m files) as [old|] eqn:E.
    - destruct (gname_dec n m) as [->|H].
      + rewrite lookup_insert_eq by apply gname_eqb_spec. rewrite E, (proj2 (gname_eqb_spec _ _) eq_refl). reflexivity.
      + rewrite lookup_insert_neq by (auto; apply gname_eqb_spec). destruct (lookup gname_eqb n files); auto.
        replace (gname_eqb n m) with false by (symmetry; apply not_true_iff_false; rewrite gname_eqb_spec; auto). reflexivity.
    - destruct (lookup gname_eqb n files) eqn:E2; auto. destruct (gname_eqb n m) eqn:E3; auto. apply gname_eqb_spec in E3. congruence.
  Qed.
  Lemma create_at n m files files' : create_new m files = Some files' ->
    lookup gname_eqb m files = None /\ lookup gname_eqb n files' = if gname_eqb n m then Some [] else lookup gname_eqb n files.
  Proof.
    unfold create_new. destruct (lookup gname_eqb m files) eqn:E; [discriminate|]. intros H. injection H as <-. split; auto.
    destruct (gname_dec n m) as [->|H].
    - rewrite lookup_insert_eq by apply gname_eqb_spec. rewrite (proj2 (gname_eqb_spec _ _) eq_refl). reflexivity.
    - rewrite lookup_insert_neq by (auto; apply gname_eqb_spec).
      replace (gname_eqb n m) with false by (symmetry; apply not_true_iff_false; rewrite gname_eqb_spec; auto). reflexivity.
  Qed.
  Lemma ninsert {V} k k' (v : V) m : lookup N.eqb k (insert N.eqb k' v m) = if k =? k' then Some v else lookup N.eqb k m.
  Proof.
    destruct (k =? k') eqn:E.
    - apply N.eqb_eq in E. subst. apply lookup_insert_eq. apply N.eqb_eq.
    - apply lookup_insert_neq; [apply N.eqb_eq|]. intros ->. rewrite N.eqb_refl in E. discriminate.
  Qed.
  Lemma server_insert v w x s a b r : server v (@mkGS Req Resp a b (insert N.eqb w x (g_srvs s)) r) = if v =? w then x else server v s.
  Proof. unfold server. cbn [g_srvs]. rewrite ninsert. destruct (v =? w); reflexivity. Qed.

  (** Calls are only made by the calling event. *)
  Lemma clis_step s e id : (forall j, e <> GCall id j) -> lookup N.eqb id (g_clis s) = None -> lookup N.eqb id (g_clis (step s e)) = None.
  Proof.
    intros He H. destruct e; cbn [gstep].
    - unfold cli_start. assert (id =? id0 = false). { apply N.eqb_neq. intros ->. eapply He. reflexivity. } destruct (create_new _ _); cbn [g_clis]; rewrite ninsert, H0; auto.
    - unfold cli_write. destruct (lookup N.eqb id0 (g_clis s)) as [[rest| |r| |]|] eqn:Ei; auto. cbn [g_clis]. rewrite ninsert. destruct (id =? id0) eqn:E; auto.
      apply N.eqb_eq in E. congruence.
    - unfold cli_poll. destruct (lookup N.eqb id0 (g_clis s)) as [[rest| |r| |]|] eqn:Ei; auto.
      assert (E : id =? id0 = false). { apply N.eqb_neq. intros ->. congruence. }
      destruct expired; [cbn [g_clis]; rewrite ninsert, E; auto|]. destruct (lookup gname_eqb _ _); auto. destruct (parse_resp _); cbn [g_clis]; rewrite ?ninsert, ?E; auto.
    - unfold srv_read. destruct (server v s); auto. destruct (lookup gname_eqb _ _); auto.
    - unfold srv_claim. destruct (server v s); auto. destruct (lookup gname_eqb _ _); auto. destruct (parse_req _) as [[k r]|]; auto. destruct (create_new _ _); auto.
    - unfold srv_write. destruct (server v s); auto.
  Qed.
  Lemma clis_run h id : forall s, ~ In id (call_ids h) -> lookup N.eqb id (g_clis s) = None -> lookup N.eqb id (g_clis (run s h)) = None.
  Proof.
    induction h as [|e h IH]; intros s Hn H; [exact H|]. unfold grun. cbn [fold_left]. apply IH.
    - intros X. apply Hn. unfold call_ids. cbn [flat_map]. apply in_app_iff. right. exact X.
    - apply clis_step; auto. intros j ->. apply Hn. left. reflexivity.
  Qed.
  (** A request file belongs to a call whose handler has not run; no assumption on the text. *)
  Definition OInv s : Prop :=
    (forall id d, at_file (RequestFile id) s = Some d -> lookup N.eqb id (g_clis s) <> None /\ ~ In id (map fst (g_runs s))) /\
    (forall id, In id (map fst (g_runs s)) -> lookup N.eqb id (g_clis s) <> None) /\ NoDup (map fst (g_runs s)).
  Lemma OInv_step s e : OInv s -> (forall id j, e = GCall id j -> lookup N.eqb id (g_clis s) = None) -> OInv (step s e).
  Proof.
    intros (F & R & O) Hf. assert (Up : forall (m : list (N * cli Resp)) i x k, lookup N.eqb k m <> None -> lookup N.eqb k (insert N.eqb i x m) <> None).
    { intros m i x k H. rewrite ninsert. destruct (k =? i); [discriminate|auto]. }
    unfold OInv. destruct e; cbn [gstep].
    - specialize (Hf id json eq_refl). unfold cli_start. destruct (create_new _ _) as [files|] eqn:Ec; cbn [g_files g_clis g_runs].
      + split; [|split; auto]. intros k d. destruct (create_at (RequestFile k) _ _ _ Ec) as [_ ->]. cbn [gname_eqb]. destruct (k =? id) eqn:E.
        * apply N.eqb_eq in E. subst. intros _. rewrite ninsert, N.eqb_refl. split; [discriminate|]. intros X. apply R in X. contradiction.
        * intros H. destruct (F k d H). auto.
      + split; [|split; auto]. intros k d H. destruct (F k d H). auto.
    - unfold cli_write. destruct (lookup N.eqb id (g_clis s)) as [[rest| |r| |]|] eqn:Ei; try (split; [|split]; auto; fail). cbn [g_files g_clis g_runs].
      split; [|split; auto]. intros k d. rewrite append_at. destruct (at_file (RequestFile k) s) as [old|] eqn:E; [|discriminate]. intros _. destruct (F k old E). auto.
    - unfold cli_poll. destruct (lookup N.eqb id (g_clis s)) as [[rest| |r| |]|] eqn:Ei; try (split; [|split]; auto; fail).
      destruct expired.
      + cbn [g_files g_clis g_runs]. split; [|split; auto]. intros k d H. apply clear_some in H. destruct (F k d H). auto.
      + destruct (at_file (ResponseFile id) s) as [d|]; [|split; [|split]; auto]. destruct (parse_resp d); cbn [g_files g_clis g_runs]; (split; [|split; auto]);
          intros k d' H; apply clear_some in H; destruct (F k d' H); auto.
    - unfold srv_read. destruct (server v s); try (split; [|split]; auto; fail). destruct (at_file (RequestFile id) s); (split; [|split]; auto).
    - unfold srv_claim. destruct (server v s) as [|id data|]; try (split; [|split]; auto; fail).
      destruct (at_file (RequestFile id) s) as [now|] eqn:Ed; [|split; [|split]; auto]. destruct (F id now Ed) as [Fc Fr].
      assert (Rm : forall k d, lookup gname_eqb (RequestFile k) (remove gname_eqb (RequestFile id) (g_files s)) = Some d -> k <> id /\ at_file (RequestFile k) s = Some d).
      { intros k d H. destruct (N.eq_dec k id) as [->|X]; [rewrite lookup_remove_eq in H by apply gname_eqb_spec; discriminate|].
        split; auto. rewrite lookup_remove_neq in H; auto; [apply gname_eqb_spec|congruence]. }
      assert (Nd : forall req : Req, NoDup (map fst (g_runs s ++ [(id, req)]))).
      { intros req. rewrite map_app. cbn [map fst]. apply NoDup_rev in O. rewrite <- (rev_involutive (map fst (g_runs s) ++ [id])).
        apply NoDup_rev. rewrite rev_app_distr. cbn [rev app]. constructor; auto. rewrite <- in_rev. exact Fr. }
      assert (Rr : forall (req : Req) k, In k (map fst (g_runs s ++ [(id, req)])) -> lookup N.eqb k (g_clis s) <> None).
      { intros req k H. rewrite map_app in H. apply in_app_iff in H as [H|[H|[]]]; auto. cbn in H. subst. exact Fc. }
      assert (Fn : forall (req : Req) k d, lookup gname_eqb (RequestFile k) (remove gname_eqb (RequestFile id) (g_files s)) = Some d ->
                lookup N.eqb k (g_clis s) <> None /\ ~ In k (map fst (g_runs s ++ [(id, req)]))).
      { intros req k d H. apply Rm in H as [X H]. destruct (F k d H) as [A B]. split; auto. rewrite map_app, in_app_iff. intros [Y|[Y|[]]]; auto. }
      destruct (parse_req data) as [[k req]|].
      + destruct (create_new (ResponseFile k) _) as [files|] eqn:Ec; cbn [g_files g_clis g_runs]; (split; [|split; eauto]).
        * intros k' d. destruct (create_at (RequestFile k') _ _ _ Ec) as [_ ->]. cbn [gname_eqb]. apply Fn.
        * apply Fn.
      + cbn [g_files g_clis g_runs]. split; [|split; auto]. intros k d H. apply Rm in H as [X H]. apply (F k d H).
    - unfold srv_write. destruct (server v s); try (split; [|split]; auto; fail). cbn [g_files g_clis g_runs]. split; [|split; auto].
      intros k d. rewrite append_at. destruct (at_file (RequestFile k) s) as [old|] eqn:E; [|discriminate]. intros _. apply (F k old E).
  Qed.

  Lemma OInv_run h : forall s, OInv s -> NoDup (call_ids h) -> (forall id, In id (call_ids h) -> lookup N.eqb id (g_clis s) = None) -> OInv (run s h).
  Proof.
    induction h as [|e h IH]; intros s I Nd Fr; [exact I|]. unfold grun. cbn [fold_left]. apply IH.
    - apply OInv_step; auto. intros id j ->. apply Fr. left. reflexivity.
    - destruct e; auto. cbn in Nd. inversion Nd; auto.
    - intros id H. apply clis_step.
      + intros j ->. cbn in Nd. inversion Nd; subst. contradiction.
      + apply Fr. unfold call_ids. cbn [flat_map]. apply in_app_iff. right. exact H.
  Qed.

  (** What always holds, given the calls made so far. *)
  Variable jsons : list (N * bytes).
  Definition Known id json : Prop := In (id, json) jsons.
  Hypothesis whole : forall id json n k r, Known id json -> parse_req (firstn n json) = Some (k, r) -> k = id /\ firstn n json = json.
  Definition runs_for s k n req : Prop := nth_error (g_runs s) n = Some (k, req).
  Record GInv s : Prop := {
    gi_file : forall id d, at_file (RequestFile id) s = Some d -> lookup N.eqb id (g_clis s) <> None /\ ~ In id (map fst (g_runs s));
    gi_text : forall id d, at_file (RequestFile id) s = Some d -> exists json, Known id json /\
        (lookup N.eqb id (g_clis s) = Some CliWaiting /\ d = json \/ exists rest, lookup N.eqb id (g_clis s) = Some (CliWriting rest) /\ json = d ++ rest);
    gi_started : forall id rest, lookup N.eqb id (g_clis s) = Some (CliWriting rest) -> exists json w, Known id json /\ json = w ++ rest;
    gi_holds : forall v id d, server v s = SrvHolds id d -> exists json m, Known id json /\ d = firstn m json;
    gi_runs : forall n id req, runs_for s id n req -> lookup N.eqb id (g_clis s) <> None /\ exists json, Known id json /\ parse_req json = Some (id, req);
    gi_once : NoDup (map fst (g_runs s));
    gi_resp : forall k d, at_file (ResponseFile k) s = Some d -> exists n req m, runs_for s k n req /\ d = firstn m (enc_resp k (handler n req));
    gi_writing : forall v k rest, server v s = SrvWriting k rest -> exists n req w, runs_for s k n req /\ enc_resp k (handler n req) = w ++ rest /\
        forall d, at_file (ResponseFile k) s = Some d -> d = w;
    gi_writer : forall v w k a b, server v s = SrvWriting k a -> server w s = SrvWriting k b -> v = w;
    gi_printed : whole_responses enc_resp parse_resp -> forall id r, printed s id r -> exists n req, runs_for s id n req /\ r = handler n req }.

  Lemma GInv_0 : GInv gs0.
  Proof.
    constructor; cbn; try discriminate; try (intros; discriminate).
    - intros n id req H. destruct n; discriminate H.
    - constructor.
  Qed.
  Definition admissible s e : Prop :=
    match e with GCall id json => lookup N.eqb id (g_clis s) = None /\ Known id json | _ => True end.

  Lemma prefix_len {A} (l : list A) k : exists m, firstn k l = firstn m l /\ (m <= length l)%nat.
  Proof. exists (Nat.min k (length l)). split; [|lia]. destruct (Nat.le_gt_cases k (length l)); [rewrite Nat.min_l by lia; auto|]. rewrite Nat.min_r by lia. rewrite firstn_all, firstn_all2 by lia. reflexivity. Qed.

  Lemma GInv_call id json s : GInv s -> lookup N.eqb id (g_clis s) = None -> Known id json -> GInv (cli_start id json s).
  Proof.
    intros I Hn Hk. unfold cli_start.
    assert (Nf : at_file (RequestFile id) s = None).
    { destruct (at_file (RequestFile id) s) eqn:E; auto. destruct (gi_file s I id _ E). congruence. }
    assert (Ne : forall id', lookup N.eqb id' (g_clis s) <> None -> (id' =? id) = false).
    { intros id' H. apply N.eqb_neq. intros ->. congruence. }
    assert (Nr : ~ In id (map fst (g_runs s))).
    { intros H. apply in_map_iff in H as ([i r] & E & H). cbn in E. subst i. apply In_nth_error in H as (n & H). destruct (gi_runs s I n id r H). congruence. }
    destruct (create_new (RequestFile id) (g_files s)) as [files|] eqn:Ec; [|unfold create_new in Ec; rewrite Nf in Ec; discriminate].
    assert (Fa : forall n, lookup gname_eqb n files = if gname_eqb n (RequestFile id) then Some [] else lookup gname_eqb n (g_files s)).
    { intros n. apply (create_at n _ _ _ Ec). }
    constructor; cbn [g_files g_clis g_srvs g_runs].
    - intros id' d. rewrite Fa. destruct (gname_eqb (RequestFile id') (RequestFile id)) eqn:E.
      + apply gname_eqb_spec in E. injection E as ->. intros _. rewrite ninsert, N.eqb_refl. split; [discriminate|]. exact Nr.
      + intros H. destruct (gi_file s I id' d H) as [A B]. rewrite ninsert, (Ne id' A). auto.
    - intros id' d. rewrite Fa. destruct (gname_eqb (RequestFile id') (RequestFile id)) eqn:E.
      + apply gname_eqb_spec in E. injection E as ->. intros H. injection H as <-. exists json. split; auto. right. exists json. rewrite ninsert, N.eqb_refl. auto.
      + intros H. destruct (gi_file s I id' d H) as [A _]. rewrite ninsert, (Ne id' A). apply (gi_text s I id' d H).
    - intros id' rest. rewrite ninsert. destruct (id' =? id) eqn:E; [|apply (gi_started s I)]. apply N.eqb_eq in E. subst. intros H. injection H as <-.
      exists json, []. auto.
    - apply (gi_holds s I).
    - intros n id' req H. destruct (gi_runs s I n id' req H) as [A B]. rewrite ninsert, (Ne id' A). auto.
    - apply (gi_once s I).
    - intros k d. rewrite Fa. cbn [gname_eqb]. apply (gi_resp s I).
    - intros v k rest H. destruct (gi_writing s I v k rest H) as (n & req & w & A & B & C). exists n, req, w. split; auto. split; auto. intros d. rewrite Fa. cbn [gname_eqb]. apply C.
    - apply (gi_writer s I).
    - intros W id' r. unfold printed. cbn [g_clis]. rewrite ninsert. destruct (id' =? id); [discriminate|]. apply (gi_printed s I W).
  Qed.
  Lemma GInv_cli_write id n s : GInv s -> GInv (cli_write id n s).
  Proof.
    intros I. unfold cli_write. destruct (lookup N.eqb id (g_clis s)) as [[rest| |r| |]|] eqn:Ei; auto.
    assert (Some' : forall id', lookup N.eqb id' (g_clis s) <> None -> lookup N.eqb id' (insert N.eqb id (match skipn n rest with [] => CliWaiting | r => CliWriting r end) (g_clis s)) <> None).
    { intros id' H. rewrite ninsert. destruct (id' =? id); [discriminate|auto]. }
    constructor; cbn [g_files g_clis g_srvs g_runs].
    - intros id' d. rewrite append_at. destruct (at_file (RequestFile id') s) as [old|] eqn:E; [|discriminate]. intros _. destruct (gi_file s I id' old E). auto.
    - intros id' d. rewrite append_at. destruct (at_file (RequestFile id') s) as [old|] eqn:E; [|discriminate]. destruct (gi_text s I id' old E) as (json & K & T).
      rewrite ninsert. destruct (id' =? id) eqn:Eq.
      + apply N.eqb_eq in Eq. subst id'. rewrite (proj2 (gname_eqb_spec _ _) eq_refl). intros H. injection H as <-. rewrite Ei in T.
        destruct T as [[T _]|(rest' & T & J)]; [discriminate|]. injection T as <-. exists json. split; auto.
        pose proof (firstn_skipn n rest) as S. destruct (skipn n rest) as [|x r] eqn:Es.
        * left. split; auto. rewrite app_nil_r in S. congruence.
        * right. eexists. split; [reflexivity|]. rewrite <- app_assoc, S. exact J.
      + replace (gname_eqb (RequestFile id') (RequestFile id)) with false by (symmetry; cbn; exact Eq). intros H. injection H as <-. exists json. auto.
    - intros id' rest'. rewrite ninsert. destruct (id' =? id) eqn:Eq; [|apply (gi_started s I)]. apply N.eqb_eq in Eq. subst.
      destruct (gi_started s I id rest Ei) as (json & w & K & J). pose proof (firstn_skipn n rest) as S.
      destruct (skipn n rest) as [|x r] eqn:Es; [discriminate|]. intros H. injection H as <-. exists json, (w ++ firstn n rest). split; auto. rewrite <- app_assoc, S. exact J.
    - apply (gi_holds s I).
    - intros m id' req H. destruct (gi_runs s I m id' req H) as [A B]. auto.
    - apply (gi_once s I).
    - intros k d. rewrite append_at. cbn [gname_eqb]. destruct (at_file (ResponseFile k) s) as [old|] eqn:E; [|discriminate]. intros H. injection H as <-. apply (gi_resp s I k old E).
    - intros v k rest' H. destruct (gi_writing s I v k rest' H) as (m & req & w & A & B & C). exists m, req, w. split; auto. split; auto. intros d.
      rewrite append_at. cbn [gname_eqb]. destruct (at_file (ResponseFile k) s) as [old|] eqn:E; [|discriminate]. intros X. injection X as <-. apply C. auto.
    - apply (gi_writer s I).
    - intros W id' r. unfold printed. cbn [g_clis]. rewrite ninsert. destruct (id' =? id); [destruct (skipn n rest); discriminate|]. apply (gi_printed s I W).
  Qed.
  Lemma GInv_end id x s : GInv s -> lookup N.eqb id (g_clis s) = Some CliWaiting -> (forall r, x <> CliWriting r) ->
    (whole_responses enc_resp parse_resp -> forall r, x = CliPrinted r -> exists n req, runs_for s id n req /\ r = handler n req) ->
    GInv (mkGS (clear id (g_files s)) (insert N.eqb id x (g_clis s)) (g_srvs s) (g_runs s)).
  Proof.
    intros I Hw Hx Hp. assert (Some' : forall id', lookup N.eqb id' (g_clis s) <> None -> lookup N.eqb id' (insert N.eqb id x (g_clis s)) <> None).
    { intros id' H. rewrite ninsert. destruct (id' =? id); [discriminate|auto]. }
    constructor; cbn [g_files g_clis g_srvs g_runs].
    - intros id' d H. apply clear_some in H. destruct (gi_file s I id' d H). auto.
    - intros id' d H. rewrite clear_at in H. destruct (gname_eqb (RequestFile id') (RequestFile id)) eqn:E; [discriminate|].
      cbn [gname_eqb orb] in H. rewrite ninsert. cbn [gname_eqb] in E. rewrite E. apply (gi_text s I id' d H).
    - intros id' rest. rewrite ninsert. destruct (id' =? id) eqn:E; [|apply (gi_started s I)]. intros H. injection H as H. exfalso. eapply Hx; eauto.
    - apply (gi_holds s I).
    - intros m id' req H. destruct (gi_runs s I m id' req H) as [A B]. auto.
    - apply (gi_once s I).
    - intros k d H. apply clear_some in H. apply (gi_resp s I k d H).
    - intros v k rest' H. destruct (gi_writing s I v k rest' H) as (m & req & w & A & B & C). exists m, req, w. split; auto. split; auto. intros d X.
      apply clear_some in X. auto.
    - apply (gi_writer s I).
    - intros W id' r. unfold printed. cbn [g_clis]. rewrite ninsert. destruct (id' =? id) eqn:E; [|apply (gi_printed s I W)].
      apply N.eqb_eq in E. subst. intros H. injection H as H. apply Hp; auto.
  Qed.
  Lemma insert_same id (x : cli Resp) m k : lookup N.eqb id m = Some x -> lookup N.eqb k (insert N.eqb id x m) = lookup N.eqb k m.
  Proof. intros H. rewrite ninsert. destruct (k =? id) eqn:E; auto. apply N.eqb_eq in E. subst. auto. Qed.
  Lemma GInv_poll id x s : GInv s -> GInv (cli_poll parse_resp id x s).
  Proof.
    intros I. unfold cli_poll. destruct (lookup N.eqb id (g_clis s)) as [[rest| |r| |]|] eqn:Ei; auto.
    destruct x. { apply GInv_end; auto; try discriminate. }
    destruct (at_file (ResponseFile id) s) as [d|] eqn:Ed; auto. destruct (parse_resp d) as [r|] eqn:Ep.
    - apply GInv_end; auto; try discriminate. intros W r' H. injection H as <-. destruct (gi_resp s I id d Ed) as (n & req & m & A & B).
      exists n, req. split; auto. rewrite B in Ep. apply W in Ep. tauto.
    - pose proof (GInv_end id CliWaiting s I Ei) as E. specialize (E (fun r H => ltac:(discriminate)) (fun _ r H => ltac:(discriminate))).
      destruct E as [E1 E2 E3 E4 E5 E6 E7 E8 E9 E10]. unfold printed, runs_for, server in *. cbn [g_files g_clis g_srvs g_runs] in *.
      constructor; unfold printed, runs_for, server; cbn [g_files g_clis g_srvs g_runs]; auto.
      + intros k d' H. specialize (E1 k d' H). rewrite (insert_same id CliWaiting) in E1; auto.
      + intros k d' H. specialize (E2 k d' H). rewrite (insert_same id CliWaiting) in E2; auto.
      + intros k d' H. apply (E3 k d'). rewrite (insert_same id CliWaiting); auto.
      + intros n k d' H. specialize (E5 n k d' H). rewrite (insert_same id CliWaiting) in E5; auto.
      + intros W k r H. apply (E10 W k r). rewrite (insert_same id CliWaiting); auto.
  Qed.
  Lemma GInv_read v id s : GInv s -> GInv (srv_read v id s).
  Proof.
    intros I. unfold srv_read. destruct (server v s) eqn:Ev; auto. destruct (at_file (RequestFile id) s) as [d|] eqn:Ed; auto.
    constructor; cbn [g_files g_clis g_srvs g_runs]; try apply I.
    - intros w k d'. rewrite server_insert. destruct (w =? v) eqn:E; [|apply (gi_holds s I)]. intros H. injection H as <- <-.
      destruct (gi_text s I id d Ed) as (json & K & [[_ ->]|(rest & _ & ->)]).
      + exists json, (length json). rewrite firstn_all. auto.
      + exists (d ++ rest), (length d). rewrite prefix_app. auto.
    - intros w k rest. rewrite server_insert. destruct (w =? v); [discriminate|]. apply (gi_writing s I).
    - intros w w' k a b. rewrite !server_insert. destruct (w =? v); [discriminate|]. destruct (w' =? v); [discriminate|]. apply (gi_writer s I).
  Qed.
  Lemma GInv_srvs s x v : GInv s -> (forall k r, x <> SrvWriting k r) -> (forall k d, x <> SrvHolds k d) ->
    GInv (mkGS (g_files s) (g_clis s) (insert N.eqb v x (g_srvs s)) (g_runs s)).
  Proof.
    intros I H1 H2. constructor; cbn [g_files g_clis g_srvs g_runs]; try apply I.
    - intros w k d'. rewrite server_insert. destruct (w =? v) eqn:E; [|apply (gi_holds s I)]. intros H. exfalso. eapply H2; eauto.
    - intros w k rest. rewrite server_insert. destruct (w =? v); [|apply (gi_writing s I)]. intros H. exfalso. eapply H1; eauto.
    - intros w w' k a b. rewrite !server_insert. destruct (w =? v); [intros H; exfalso; eapply H1; eauto|]. destruct (w' =? v); [intros _ H; exfalso; eapply H1; eauto|]. apply (gi_writer s I).
  Qed.
  Lemma GInv_drop s id : GInv s -> GInv (mkGS (remove gname_eqb (RequestFile id) (g_files s)) (g_clis s) (g_srvs s) (g_runs s)).
  Proof.
    intros I. assert (R : forall n d, lookup gname_eqb n (remove gname_eqb (RequestFile id) (g_files s)) = Some d -> at_file n s = Some d).
    { intros n d H. destruct (gname_dec n (RequestFile id)) as [->|X].
      - rewrite lookup_remove_eq in H by apply gname_eqb_spec. discriminate.
      - rewrite lookup_remove_neq in H by (auto; apply gname_eqb_spec). exact H. }
    constructor; cbn [g_files g_clis g_srvs g_runs]; try apply I.
    - intros id' d H. apply R in H. apply (gi_file s I id' d H).
    - intros id' d H. apply R in H. apply (gi_text s I id' d H).
    - intros k d H. apply R in H. apply (gi_resp s I k d H).
    - intros v k rest H. destruct (gi_writing s I v k rest H) as (m & req & w & A & B & C). exists m, req, w. split; [auto|]. split; [auto|]. intros d X. apply R in X. auto.
  Qed.
  Lemma GInv_claim v s : GInv s -> GInv (claim v s).
  Proof.
    intros I. unfold srv_claim. destruct (server v s) as [|id data|] eqn:Ev; auto.
    destruct (at_file (RequestFile id) s) as [now|] eqn:Ed. 2:{ apply GInv_srvs; auto; discriminate. }
    pose proof (GInv_drop s id I) as I1. destruct (parse_req data) as [[k req]|] eqn:Ep. 2:{ apply (GInv_srvs _ SrvIdle v I1); discriminate. }
    destruct (gi_file s I id now Ed) as [Hc Hr]. destruct (gi_holds s I v id data Ev) as (json & m & K & ->).
    destruct (whole id json m k req K Ep) as [-> Ej]. rewrite Ej in Ep.
    assert (Old : forall n x, nth_error (g_runs s) n = Some x -> nth_error (g_runs s ++ [(id, req)]) n = Some x).
    { intros n x H. rewrite nth_error_app1; auto. apply nth_error_Some. congruence. }
    assert (Last : nth_error (g_runs s ++ [(id, req)]) (length (g_runs s)) = Some (id, req)).
    { rewrite nth_error_app2, Nat.sub_diag by lia. reflexivity. }
    assert (Nr : at_file (ResponseFile id) s = None).
    { destruct (at_file (ResponseFile id) s) eqn:E; auto. destruct (gi_resp s I id _ E) as (n & r & _ & A & _). exfalso. apply Hr.
      apply in_map_iff. exists (id, r). split; auto. eapply nth_error_In; eauto. }
    destruct (create_new (ResponseFile id) _) as [files|] eqn:Ec.
    2:{ unfold create_new in Ec. rewrite lookup_remove_neq in Ec by (try discriminate; apply gname_eqb_spec). rewrite Nr in Ec. discriminate. }
    assert (Fa : forall n, lookup gname_eqb n files = if gname_eqb n (ResponseFile id) then Some [] else if gname_eqb n (RequestFile id) then None else at_file n s).
    { intros n. destruct (create_at n _ _ _ Ec) as [_ ->]. destruct (gname_eqb n (ResponseFile id)); auto. destruct (gname_eqb n (RequestFile id)) eqn:E.
      - apply gname_eqb_spec in E. subst. apply lookup_remove_eq.
      - apply lookup_remove_neq; [apply gname_eqb_spec|]. intros ->. rewrite (proj2 (gname_eqb_spec _ _) eq_refl) in E. discriminate. }
    assert (Nw : forall w a, server w s <> SrvWriting id a).
    { intros w a H. destruct (gi_writing s I w id a H) as (n & r & _ & A & _). apply Hr. apply in_map_iff. exists (id, r). split; auto. eapply nth_error_In; eauto. }
    constructor; unfold runs_for, printed; cbn [g_files g_clis g_srvs g_runs].
    - intros id' d. rewrite Fa. cbn [gname_eqb]. destruct (id' =? id) eqn:E; [discriminate|]. intros H. destruct (gi_file s I id' d H) as [A B]. split; auto.
      rewrite map_app. cbn [map fst]. rewrite in_app_iff. intros [X|[X|[]]]; auto. subst. rewrite N.eqb_refl in E. discriminate.
    - intros id' d. rewrite Fa. cbn [gname_eqb]. destruct (id' =? id) eqn:E; [discriminate|]. apply (gi_text s I).
    - apply (gi_started s I).
    - intros w k d. rewrite server_insert. destruct (w =? v); [discriminate|]. apply (gi_holds s I).
    - intros n id' r H. destruct (Nat.lt_ge_cases n (length (g_runs s))) as [Hl|Hl].
      + rewrite nth_error_app1 in H by auto. apply (gi_runs s I n id' r H).
      + rewrite nth_error_app2 in H by auto. destruct (n - length (g_runs s))%nat as [|j]; [|destruct j; discriminate]. cbn in H. injection H as <- <-.
        split; auto. exists json. auto.
    - rewrite map_app. cbn [map fst]. pose proof (gi_once s I) as O. apply NoDup_rev in O. rewrite <- (rev_involutive (map fst (g_runs s) ++ [id])).
      apply NoDup_rev. rewrite rev_app_distr. cbn [rev app]. constructor; auto. rewrite <- in_rev. exact Hr.
    - intros k d. rewrite Fa. cbn [gname_eqb]. destruct (k =? id) eqn:E.
      + apply N.eqb_eq in E. subst. intros H. injection H as <-. exists (length (g_runs s)), req, 0%nat. auto.
      + intros H. destruct (gi_resp s I k d H) as (n & r & j & A & B). exists n, r, j. split; [apply Old; auto|auto].
    - intros w k rest. rewrite server_insert. destruct (w =? v).
      + intros H. injection H as <- <-. exists (length (g_runs s)), req, []. split; auto. split; auto. intros d. rewrite Fa. rewrite (proj2 (gname_eqb_spec _ _) eq_refl). congruence.
      + intros H. destruct (gi_writing s I w k rest H) as (n & r & x & A & B & C). exists n, r, x. split; [apply Old; auto|]. split; auto. intros d. rewrite Fa. cbn [gname_eqb].
        destruct (k =? id) eqn:E; [apply N.eqb_eq in E; subst; exfalso; eapply Nw; eauto|apply C].
    - intros w w' k a b. rewrite !server_insert. destruct (w =? v) eqn:E1, (w' =? v) eqn:E2.
      + apply N.eqb_eq in E1, E2. congruence.
      + intros H H'. injection H as <- <-. exfalso. eapply Nw; eauto.
      + intros H H'. injection H' as <- <-. exfalso. eapply Nw; eauto.
      + apply (gi_writer s I).
    - intros W id' r H. destruct (gi_printed s I W id' r H) as (n & q & A & B). exists n, q. split; [apply Old; auto|auto].
  Qed.
  Lemma GInv_srv_write v n s : GInv s -> GInv (srv_write v n s).
  Proof.
    intros I. unfold srv_write. destruct (server v s) as [| |k rest] eqn:Ev; auto.
    destruct (gi_writing s I v k rest Ev) as (m & req & w & A & B & C).
    constructor; unfold runs_for, printed; cbn [g_files g_clis g_srvs g_runs]; try apply I.
    - intros id d. rewrite append_at. cbn [gname_eqb]. destruct (at_file (RequestFile id) s) as [old|] eqn:E; [|discriminate]. intros _. apply (gi_file s I id old E).
    - intros id d. rewrite append_at. cbn [gname_eqb]. destruct (at_file (RequestFile id) s) as [old|] eqn:E; [|discriminate]. intros X. injection X as <-. apply (gi_text s I id old E).
    - intros x id d. rewrite server_insert. destruct (x =? v); [destruct (skipn n rest); discriminate|]. apply (gi_holds s I).
    - intros k' d. rewrite append_at. cbn [gname_eqb]. destruct (at_file (ResponseFile k') s) as [old|] eqn:E; [|discriminate]. intros X. injection X as <-.
      destruct (k' =? k) eqn:Ek; [|apply (gi_resp s I k' old E)]. apply N.eqb_eq in Ek. subst k'. rewrite (C old E). exists m, req, (length (w ++ firstn n rest)).
      split; auto. rewrite B. rewrite <- (firstn_skipn n rest) at 3. rewrite (app_assoc w). rewrite prefix_app. reflexivity.
    - intros x k' rest'. rewrite server_insert. destruct (x =? v) eqn:Ex.
      + pose proof (firstn_skipn n rest) as S. destruct (skipn n rest) as [|y r] eqn:Es; [discriminate|]. intros H. injection H as <- <-.
        exists m, req, (w ++ firstn n rest). split; auto. split; [rewrite <- app_assoc, S; exact B|]. intros d. rewrite append_at.
        destruct (at_file (ResponseFile k) s) as [old|] eqn:E; [|discriminate]. rewrite (proj2 (gname_eqb_spec _ _) eq_refl). intros X. injection X as <-. rewrite (C old eq_refl). reflexivity.
      + intros H. destruct (gi_writing s I x k' rest' H) as (m' & req' & w' & A' & B' & C'). exists m', req', w'. split; auto. split; auto. intros d.
        rewrite append_at. destruct (at_file (ResponseFile k') s) as [old|] eqn:E; [|discriminate]. cbn [gname_eqb]. destruct (k' =? k) eqn:Ek; [|intros X; injection X as <-; apply C'; auto].
        apply N.eqb_eq in Ek. subst k'. rewrite (gi_writer s I x v k rest' rest H Ev) in Ex. rewrite N.eqb_refl in Ex. discriminate.
    - intros x y k' a b. rewrite !server_insert. destruct (x =? v) eqn:E1, (y =? v) eqn:E2.
      + apply N.eqb_eq in E1, E2. congruence.
      + destruct (skipn n rest) eqn:Es; [discriminate|]. intros H H'. injection H as <- <-. rewrite (gi_writer s I y v k b rest H' Ev) in E2. rewrite N.eqb_refl in E2. discriminate.
      + destruct (skipn n rest) eqn:Es; [discriminate|]. intros H H'. injection H' as <- <-. rewrite (gi_writer s I x v k a rest H Ev) in E1. rewrite N.eqb_refl in E1. discriminate.
      + apply (gi_writer s I).
  Qed.
  Lemma GInv_step s e : GInv s -> admissible s e -> GInv (step s e).
  Proof.
    intros I A. destruct e; cbn [gstep].
    - destruct A. apply GInv_call; auto.
    - apply GInv_cli_write; auto.
    - apply GInv_poll; auto.
    - apply GInv_read; auto.
    - apply GInv_claim; auto.
    - apply GInv_srv_write; auto.
  Qed.
  Lemma GInv_run h : forall s, GInv s -> NoDup (call_ids h) -> (forall id, In id (call_ids h) -> lookup N.eqb id (g_clis s) = None) ->
    (forall id json, In (GCall id json) h -> Known id json) -> GInv (run s h).
  Proof.
    induction h as [|e h IH]; intros s I Nd Fr Kn; [exact I|]. unfold grun. cbn [fold_left]. apply IH.
    - apply GInv_step; auto. destruct e; cbn [admissible]; auto. split; [apply Fr; left; reflexivity|apply Kn; left; reflexivity].
    - destruct e; auto. cbn in Nd. inversion Nd; auto.
    - intros id H. apply clis_step.
      + intros j ->. cbn in Nd. inversion Nd; subst. contradiction.
      + apply Fr. unfold call_ids. cbn [flat_map]. apply in_app_iff. right. exact H.
    - intros id json H. apply Kn. right. exact H.
  Qed.
  (** A request with neither file left is given up. *)
  Definition gone s id : Prop := at_file (RequestFile id) s = None /\ at_file (ResponseFile id) s = None /\ forall r, ~ printed s id r.
  Lemma gone_step s e id : GInv s -> gone s id -> (forall j, e <> GCall id j) ->
    gone (step s e) id /\ forall req, In (id, req) (g_runs (step s e)) -> In (id, req) (g_runs s).
  Proof.
    intros I (G1 & G2 & G3) He. unfold gone, printed in *. destruct e; cbn [gstep].
    - assert (E : id =? id0 = false). { apply N.eqb_neq. intros ->. eapply He. reflexivity. }
      unfold cli_start. destruct (create_new _ _) as [files|] eqn:Ec; cbn [g_files g_clis g_runs].
      + pose proof (create_at (RequestFile id) _ _ _ Ec) as [_ ->]. pose proof (create_at (ResponseFile id) _ _ _ Ec) as [_ ->]. cbn [gname_eqb]. rewrite E.
        split; [|auto]. split; [auto|]. split; [auto|]. intros r. rewrite ninsert, E. apply G3.
      + split; [|auto]. split; [auto|]. split; [auto|]. intros r. rewrite ninsert, E. apply G3.
    - unfold cli_write. destruct (lookup N.eqb id0 (g_clis s)) as [[rest| |r| |]|] eqn:Ei; auto. cbn [g_files g_clis g_runs]. rewrite !append_at, G1, G2.
      split; [|auto]. split; [auto|]. split; [auto|]. intros r. rewrite ninsert. destruct (id =? id0); [destruct (skipn n rest); discriminate|apply G3].
    - unfold cli_poll. destruct (lookup N.eqb id0 (g_clis s)) as [[rest| |r| |]|] eqn:Ei; auto.
      destruct expired.
      + cbn [g_files g_clis g_runs]. rewrite !clear_at, G1, G2. split; [|auto]. split; [destruct (_ || _); auto|]. split; [destruct (_ || _); auto|].
        intros r. rewrite ninsert. destruct (id =? id0); [discriminate|apply G3].
      + destruct (at_file (ResponseFile id0) s) as [d|] eqn:Ed; auto. destruct (parse_resp d); cbn [g_files g_clis g_runs]; rewrite !clear_at, G1, G2.
        * split; [|auto]. split; [destruct (_ || _); auto|]. split; [destruct (_ || _); auto|]. intros r'. rewrite ninsert. destruct (id =? id0) eqn:E; [|apply G3].
          apply N.eqb_eq in E. congruence.
        * split; [|auto]. split; [destruct (_ || _); auto|]. split; [destruct (_ || _); auto|]. exact G3.
    - unfold srv_read. destruct (server v s); auto. destruct (at_file (RequestFile id0) s); auto.
    - unfold srv_claim. destruct (server v s) as [|id1 data|] eqn:Ev; auto. destruct (at_file (RequestFile id1) s) as [d|] eqn:Ed; auto.
      assert (Ne : id <> id1) by congruence.
      assert (R1 : lookup gname_eqb (RequestFile id) (remove gname_eqb (RequestFile id1) (g_files s)) = None).
      { rewrite lookup_remove_neq; auto; [apply gname_eqb_spec|]. congruence. }
      assert (R2 : lookup gname_eqb (ResponseFile id) (remove gname_eqb (RequestFile id1) (g_files s)) = None).
      { rewrite lookup_remove_neq; auto; [apply gname_eqb_spec|]. congruence. }
      destruct (parse_req data) as [[k req]|] eqn:Ep; [|cbn [g_files g_clis g_runs]; auto].
      destruct (gi_holds s I v id1 data Ev) as (json & m & K & ->). destruct (whole id1 json m k req K Ep) as [-> _].
      assert (Rn : forall r, In (id, r) (g_runs s ++ [(id1, req)]) -> In (id, r) (g_runs s)).
      { intros r H. apply in_app_iff in H as [H|[H|[]]]; auto. congruence. }
      destruct (create_new _ _) as [files|] eqn:Ec; cbn [g_files g_clis g_runs]; [|auto].
      pose proof (create_at (RequestFile id) _ _ _ Ec) as [_ ->]. pose proof (create_at (ResponseFile id) _ _ _ Ec) as [_ ->]. cbn [gname_eqb].
      rewrite (proj2 (N.eqb_neq _ _) Ne). auto.
    - unfold srv_write. destruct (server v s); auto. cbn [g_files g_clis g_runs]. rewrite !append_at, G1, G2. auto.
  Qed.
  Lemma gone_run id h : forall s, GInv s -> gone s id -> NoDup (call_ids h) -> (forall i, In i (call_ids h) -> lookup N.eqb i (g_clis s) = None) ->
    (forall i json, In (GCall i json) h -> Known i json) -> ~ In id (call_ids h) ->
    gone (run s h) id /\ forall req, In (id, req) (g_runs (run s h)) -> In (id, req) (g_runs s).
  Proof.
    induction h as [|e h IH]; intros s I G Nd Fr Kn Hn; [split; [exact G|auto]|]. unfold grun. cbn [fold_left].
    assert (Hc : forall j, e <> GCall id j) by (intros j ->; apply Hn; left; reflexivity).
    destruct (gone_step s e id I G Hc) as [G1 R1].
    assert (I1 : GInv (step s e)).
    { apply GInv_step; auto. destruct e; cbn [admissible]; auto. split; [apply Fr; left; reflexivity|apply Kn; left; reflexivity]. }
    destruct (IH (step s e) I1 G1) as [G2 R2].
    - destruct e; auto. cbn in Nd. inversion Nd; auto.
    - intros i H. apply clis_step.
      + intros j ->. cbn in Nd. inversion Nd; subst. contradiction.
      + apply Fr. unfold call_ids. cbn [flat_map]. apply in_app_iff. right. exact H.
    - intros i json H. apply Kn. right. exact H.
    - intros H. apply Hn. unfold call_ids. cbn [flat_map]. apply in_app_iff. right. exact H.
    - split; [exact G2|]. intros req H. apply R1, R2, H.
  Qed.
End Proofs.

(** The calls of a history with their text. *)
Definition texts (h : list gev) : list (N * bytes) := flat_map (fun e => match e with GCall id j => [(id, j)] | _ => [] end) h.
Lemma texts_in h id j : In (GCall id j) h <-> In (id, j) (texts h).
Proof.
  unfold texts. rewrite in_flat_map. split.
  - intros H. eexists. split; [exact H|]. left. reflexivity.
  - intros (e & H & X). destruct e; cbn in X; try contradiction. destruct X as [X|[]]. injection X as -> ->. exact H.
Qed.
Lemma texts_app a b : texts (a ++ b) = texts a ++ texts b.
Proof. apply flat_map_app. Qed.
Lemma call_ids_app a b : call_ids (a ++ b) = call_ids a ++ call_ids b.
Proof. apply flat_map_app. Qed.
Lemma grun_app {Req Resp} pr er (ps : bytes -> option Resp) (hd : nat -> Req -> Resp) a b s : grun pr er ps hd s (a ++ b) = grun pr er ps hd (grun pr er ps hd s a) b.
Proof. apply fold_left_app. Qed.
Lemma NoDup_both {A} (a b : list A) : NoDup (a ++ b) -> NoDup a /\ NoDup b /\ forall x, In x b -> ~ In x a.
Proof.
  induction a as [|x a IH]; cbn; intros H; [split; [constructor|split; auto]|]. inversion H; subst. destruct (IH H3) as (P & Q & R).
  split; [constructor; auto; intros X; apply H2, in_app_iff; auto|]. split; auto. intros y Hy [->|X]; [apply H2, in_app_iff; auto|eapply R; eauto].
Qed.
Section Results.
  Context {Req Resp : Type}.
  Variable parse_req : bytes -> option (N * Req).
  Variable enc_resp : N -> Resp -> bytes.
  Variable parse_resp : bytes -> option Resp.
  Variable handler : nat -> Req -> Resp.
  Notation run := (grun parse_req enc_resp parse_resp handler).
  Notation Inv h := (GInv parse_req enc_resp parse_resp handler (texts h)).
  Lemma whole_texts h : whole_requests parse_req h -> forall id json n k r, Known (texts h) id json -> parse_req (firstn n json) = Some (k, r) -> k = id /\ firstn n json = json.
  Proof. intros W id json n k r K. apply W. apply texts_in. exact K. Qed.
  Lemma reach_inv h : distinct_calls h -> whole_requests parse_req h -> Inv h (run gs0 h).
  Proof.
    intros D W. apply GInv_run; auto using GInv_0; [apply whole_texts; exact W|].
    intros id json H. apply texts_in. exact H.
  Qed.
  Lemma reach_prefix a b : distinct_calls (a ++ b) -> whole_requests parse_req (a ++ b) -> Inv (a ++ b) (run gs0 a).
  Proof.
    intros D W. unfold distinct_calls in D. rewrite call_ids_app in D. apply NoDup_both in D as (D1 & D2 & D3).
    apply GInv_run; auto using GInv_0; [apply whole_texts; exact W|].
    intros id json H. unfold Known. rewrite texts_app. apply in_app_iff. left. apply texts_in. exact H.
  Qed.
  Lemma once h : distinct_calls h -> NoDup (map fst (g_runs (run gs0 h))).
  Proof.
    intros D. destruct (OInv_run parse_req enc_resp parse_resp handler h gs0) as (_ & _ & O); auto.
    split; [discriminate|]. split; [intros id []|constructor].
  Qed.
  Lemma unknown_id h id : ~ In id (call_ids h) -> lookup N.eqb id (g_clis (run gs0 h)) = None.
  Proof. intros H. apply clis_run; auto. Qed.
  Lemma gone_abandoned h1 id : In id (call_ids h1) -> gone (run gs0 h1) id -> abandoned parse_req enc_resp parse_resp handler h1 id.
  Proof.
    intros Hi G h2 D W. pose proof (reach_prefix h1 h2 D W) as I. unfold distinct_calls in D. rewrite call_ids_app in D. apply NoDup_both in D as (D1 & D2 & D3).
    rewrite grun_app.
    assert (Fr : forall i, In i (call_ids h2) -> lookup N.eqb i (g_clis (run gs0 h1)) = None).
    { intros i H. apply unknown_id. apply D3. exact H. }
    destruct (gone_run parse_req enc_resp parse_resp handler (texts (h1 ++ h2)) (whole_texts _ W) id h2 (run gs0 h1) I G D2 Fr) as [(_ & _ & P) R].
    - intros i json H. unfold Known. rewrite texts_app. apply in_app_iff. right. apply texts_in. exact H.
    - intros H. eapply D3; eauto.
    - split; auto.
  Qed.
  (** One call and one server's look at it, step by step. *)
  Lemma fresh_files h id : distinct_calls h -> whole_requests parse_req h -> ~ In id (call_ids h) ->
    lookup gname_eqb (RequestFile id) (g_files (run gs0 h)) = None /\ lookup gname_eqb (ResponseFile id) (g_files (run gs0 h)) = None /\ ~ In id (map fst (g_runs (run gs0 h))).
  Proof.
    intros D W N. pose proof (reach_inv h D W) as I. pose proof (unknown_id h id N) as U.
    assert (R : ~ In id (map fst (g_runs (run gs0 h)))).
    { intros H. apply in_map_iff in H as ([i r] & E & H). cbn in E. subst i. apply In_nth_error in H as (n & H). destruct (gi_runs _ _ _ _ _ _ I n id r H). congruence. }
    split; [|split; auto].
    - destruct (lookup gname_eqb (RequestFile id) _) eqn:E; auto. destruct (gi_file _ _ _ _ _ _ I id _ E). congruence.
    - destruct (lookup gname_eqb (ResponseFile id) _) eqn:E; auto. destruct (gi_resp _ _ _ _ _ _ I id _ E) as (n & r & _ & H & _). exfalso. apply R.
      apply in_map_iff. exists (id, r). split; auto. eapply nth_error_In; eauto.
  Qed.
End Results.

(** ** Goals *)
Section GoalProofs.
  Context {Goal : Type}.
  Variable enc_goal : Goal -> bytes.
  Variable parse_goal : bytes -> option Goal.
  Notation grun' := (goal_run enc_goal parse_goal).
  Lemma some_refl {A} (l : list A) : some_of l l.
  Proof. induction l; [apply some_nil|apply some_take; auto]. Qed.
  Lemma some_app {A} (a b c d : list A) : some_of a b -> some_of c d -> some_of (a ++ c) (b ++ d).
  Proof. induction 1; cbn; intros; [auto|apply some_skip; auto|apply some_take; auto]. Qed.
  Lemma some_nil_any {A} (l : list A) : some_of [] l.
  Proof. induction l; [apply some_nil|apply some_skip; auto]. Qed.
  Lemma goal_run_snoc b h e : grun' b (h ++ [e]) = goal_step enc_goal parse_goal (grun' b h) e.
  Proof. unfold goal_run. rewrite fold_left_app. reflexivity. Qed.
  Lemma goals_snoc (h : list (glev Goal)) e : goals_sent (h ++ [e]) = goals_sent h ++ goals_sent [e].
  Proof. apply flat_map_app. Qed.
  Hypothesis round : forall g, parse_goal (enc_goal g) = Some g.
  (** Either nothing is waiting, or what waits is the last goal sent. *)
  Lemma box_inv h : let b := grun' box0 h in
    (gb_file b = None /\ some_of (gb_taken b) (goals_sent h)) \/
    exists l g, gb_file b = Some (enc_goal g) /\ goals_sent h = l ++ [g] /\ some_of (gb_taken b) l.
  Proof.
    induction h as [|e h IH] using rev_ind; [left; split; [reflexivity|constructor]|]. cbv zeta. rewrite goal_run_snoc, goals_snoc.
    destruct e as [g|]; cbn [goal_step goals_sent flat_map app].
    - right. exists (goals_sent h), g. cbn [gb_file gb_taken]. split; [reflexivity|]. split; [reflexivity|].
      destruct IH as [[_ S]|(l & g' & _ & -> & S)]; auto. rewrite <- (app_nil_r (gb_taken _)). apply some_app; auto using some_nil_any.
    - rewrite app_nil_r. destruct IH as [[E S]|(l & g' & E & L & S)]; rewrite E; cbn [gb_file gb_taken].
      + left. auto.
      + left. split; [reflexivity|]. rewrite round, L. apply some_app; auto using some_refl.
  Qed.
  Lemma taken_some h : some_of (gb_taken (grun' box0 h)) (goals_sent h).
  Proof.
    destruct (box_inv h) as [[_ S]|(l & g & _ & -> & S)]; auto. rewrite <- (app_nil_r (gb_taken _)). apply some_app; auto using some_nil_any.
  Qed.
  Lemma one_prefix (h : list (glev Goal)) e : one_at_a_time (h ++ [e]) -> one_at_a_time h.
  Proof. intros H a g g' b E. apply (H a g g' (b ++ [e])). rewrite E, <- app_assoc. reflexivity. Qed.
  Lemma one_inv h : one_at_a_time h -> let b := grun' box0 h in
    (gb_file b = None /\ gb_taken b = goals_sent h) \/
    exists h0 g, h = h0 ++ [GoalSend g] /\ gb_file b = Some (enc_goal g) /\ gb_taken b = goals_sent h0.
  Proof.
    induction h as [|e h IH] using rev_ind; intros O; [left; split; reflexivity|]. cbv zeta. rewrite goal_run_snoc.
    specialize (IH (one_prefix _ _ O)). destruct e as [g|]; cbn [goal_step].
    - right. exists h, g. split; [reflexivity|]. cbn [gb_file gb_taken]. split; [reflexivity|]. destruct IH as [[_ S]|(h0 & g' & -> & _)]; auto.
      exfalso. apply (O h0 g' g []). rewrite <- app_assoc. reflexivity.
    - left. rewrite goals_snoc. cbn [goals_sent flat_map]. rewrite app_nil_r. destruct IH as [[E S]|(h0 & g' & -> & E & S)]; rewrite E; cbn [gb_file gb_taken]; [auto|].
      split; [reflexivity|]. rewrite round, S, goals_snoc. reflexivity.
  Qed.
  Lemma all_taken h : one_at_a_time h -> gb_taken (grun' box0 (h ++ [GoalPoll])) = goals_sent h.
  Proof.
    intros O. rewrite goal_run_snoc. cbn [goal_step]. destruct (one_inv h O) as [[E S]|(h0 & g & -> & E & S)]; rewrite E; auto.
    cbn [gb_taken]. rewrite round, S, goals_snoc. reflexivity.
  Qed.
End GoalProofs.
Lemma overwritten {Goal} (enc_goal : Goal -> bytes) parse_goal h g g' h' :
  gb_taken (goal_run enc_goal parse_goal box0 (h ++ GoalSend g :: GoalSend g' :: h')) = gb_taken (goal_run enc_goal parse_goal box0 (h ++ GoalSend g' :: h')).
Proof. unfold goal_run. rewrite !fold_left_app. reflexivity. Qed.
Lemma some_in {A} (a b : list A) x : some_of a b -> In x a -> In x b.
Proof. induction 1; cbn; intuition. Qed.
