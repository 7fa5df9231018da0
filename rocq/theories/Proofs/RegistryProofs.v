From Verif.Base Require Import Prelude Bytes AMap Str.
From Verif.Model Require Import Wire Reliability Registry.
From Verif.Spec Require Import RegistrySpec.
Local Open Scope N_scope.

Definition rc (c : TopicRole -> bool) (reg : Registry) (name : bytes) : bool :=
  match lookup beqb name reg with Some e => c (te_role e) | None => false end.
Definition good (c : TopicRole -> bool) := c = covers_pub \/ c = covers_sub.

Lemma rc_step c reg name o : good c ->
  rc c (gstep reg o) name =
    match o with
    | GRegister n _ _ r _ => rc c reg name || (beqb n name && c r)
    | GUnregister n r => rc c reg name && negb (beqb n name && c r)
    end.
Proof.
  intros Hc. unfold rc. destruct o as [n th ts r p|n r]; cbn [gstep].
  - unfold register. destruct (beqb n name) eqn:E.
    + apply beqb_spec in E; subst n. destruct (lookup beqb name reg) as [e|] eqn:El;
        rewrite (lookup_insert_eq beqb beqb_spec); cbn [te_role];
        destruct Hc; subst c; try destruct (te_role e); destruct r; reflexivity.
    + assert (name <> n) by (intros ->; rewrite (proj2 (beqb_spec n n) eq_refl) in E; discriminate).
      cbn [andb]. rewrite orb_false_r.
      destruct (lookup beqb n reg); rewrite (lookup_insert_neq beqb beqb_spec); auto.
  - unfold unregister. destruct (beqb n name) eqn:E.
    + apply beqb_spec in E; subst n. destruct (lookup beqb name reg) as [e|] eqn:El.
      * destruct (role_remove (te_role e) r) as [r'|] eqn:Er.
        -- rewrite (lookup_insert_eq beqb beqb_spec); cbn [te_role].
           destruct Hc; subst c; destruct (te_role e), r; cbn in Er; inversion Er; reflexivity.
        -- rewrite lookup_remove_eq. destruct Hc; subst c; destruct (te_role e), r; cbn in Er; inversion Er; reflexivity.
      * rewrite El. reflexivity.
    + assert (name <> n) by (intros ->; rewrite (proj2 (beqb_spec n n) eq_refl) in E; discriminate).
      cbn [andb negb]. rewrite andb_true_r.
      destruct (lookup beqb n reg) as [e|]; [destruct (role_remove (te_role e) r)|];
        rewrite ?(lookup_insert_neq beqb beqb_spec), ?(lookup_remove_neq beqb beqb_spec) by auto; auto.
Qed.

Lemma holds_role_snoc c name h o :
  holds_role c name (h ++ [o]) <-> registers c name o \/ (holds_role c name h /\ ~ unregisters c name o).
Proof.
  split.
  - intros (h1 & x & h2 & E & Hr & Hn). destruct h2 as [|y h2] using rev_ind.
    + apply app_inj_tail in E as [-> ->]. auto.
    + right. rewrite app_comm_cons, app_assoc in E. apply app_inj_tail in E as [E ->]. split.
      * exists h1, x, h2. split; auto. split; auto. intros o' Ho'. apply Hn. apply in_or_app; auto.
      * apply Hn. apply in_or_app; right; left; auto.
  - intros [Hr|[(h1 & x & h2 & -> & Hr & Hn) Hu]].
    + exists h, o, []. auto.
    + exists h1, x, (h2 ++ [o]). split; [rewrite <- app_assoc; auto|]. split; auto.
      intros o' Ho'. apply in_app_or in Ho' as [Ho'|[<-|[]]]; auto.
Qed.

Lemma role_history c name h : good c -> rc c (grun h) name = true <-> holds_role c name h.
Proof.
  intros Hc. unfold grun. induction h as [|o h IH] using rev_ind.
  - split; [discriminate|]. intros (h1 & x & h2 & E & _). destruct h1; discriminate.
  - rewrite fold_left_app. cbn [fold_left]. rewrite rc_step, holds_role_snoc by auto.
    destruct o as [n th ts r p|n r]; cbn [registers unregisters].
    + rewrite orb_true_iff, andb_true_iff, beqb_spec, IH. tauto.
    + rewrite andb_true_iff, negb_true_iff, <- not_true_iff_false, andb_true_iff, beqb_spec, IH. tauto.
Qed.

Lemma registry_publishers name h : has_publishers (grun h) name = true <-> holds_role covers_pub name h.
Proof. rewrite <- role_history by (left; auto). unfold has_publishers, rc. destruct (lookup beqb name _) as [e|]; [|tauto]. destruct (te_role e); cbn; tauto. Qed.
Lemma registry_subscribers name h : has_subscribers (grun h) name = true <-> holds_role covers_sub name h.
Proof. rewrite <- role_history by (right; auto). unfold has_subscribers, rc. destruct (lookup beqb name _) as [e|]; [|tauto]. destruct (te_role e); cbn; tauto. Qed.

Lemma registry_listed name h :
  lookup beqb name (grun h) <> None <-> holds_role covers_pub name h \/ holds_role covers_sub name h.
Proof.
  rewrite <- registry_publishers, <- registry_subscribers. unfold has_publishers, has_subscribers.
  destruct (lookup beqb name (grun h)) as [e|].
  - split; [|intros _; discriminate]. intros _. destruct (te_role e); auto.
  - split; [congruence|]. intros [|]; discriminate.
Qed.
Lemma role_wire r : role_from_wire (role_to_wire r) = Some r.
Proof. destruct r; reflexivity. Qed.
Lemma role_wire_inv v r : role_from_wire v = Some r -> v = role_to_wire r.
Proof. unfold role_from_wire. repeat case_match; intros H; inversion H; subst; bool_prop; subst; auto. Qed.

(** ** Handles *)
Definition hinv (hs : list (N * HandleState)) (reg : Registry) : Prop :=
  NoDup (keys hs) /\
  (forall h1 h2 x1 x2, In (h1, x1) hs -> In (h2, x2) hs -> hs_name x1 = hs_name x2 -> h1 = h2) /\
  (forall n, match lookup beqb n reg with
             | Some e => exists h x, In (h, x) hs /\ hs_name x = n /\
                         te_role e = (if hs_sent x then Both else Subscriber)
             | None => ~ open_on hs n
             end).

Lemma hook_lookup reg e n :
  lookup beqb n (hook reg e) =
  match e with
  | Created m th ts p =>
      if beqb m n then Some (match lookup beqb m reg with
                            | Some x => mkEntry (te_type_hash x) (te_type_size x) (role_merge (te_role x) Subscriber) (te_pod x) (te_system x)
                            | None => mkEntry th ts Subscriber p (is_system_topic m) end)
      else lookup beqb n reg
  | RoleObserved m pub th ts p =>
      if beqb m n then Some (match lookup beqb m reg with
                            | Some x => mkEntry (te_type_hash x) (te_type_size x) (role_merge (te_role x) (if pub then Publisher else Subscriber)) (te_pod x) (te_system x)
                            | None => mkEntry th ts (if pub then Publisher else Subscriber) p (is_system_topic m) end)
      else lookup beqb n reg
  | Dropped m => if beqb m n then None else lookup beqb n reg
  end.
Proof.
  assert (Hne : forall m, beqb m n = false -> n <> m).
  { intros m E ->. rewrite (proj2 (beqb_spec m m) eq_refl) in E; discriminate. }
  destruct e as [m th ts p|m pub th ts p|m]; cbn [hook].
  - unfold register. destruct (beqb m n) eqn:E.
    + apply beqb_spec in E; subst m. destruct (lookup beqb n reg); rewrite (lookup_insert_eq beqb beqb_spec); auto.
    + destruct (lookup beqb m reg); rewrite (lookup_insert_neq beqb beqb_spec); auto.
  - unfold register. destruct (beqb m n) eqn:E.
    + apply beqb_spec in E; subst m. destruct (lookup beqb n reg); rewrite (lookup_insert_eq beqb beqb_spec); auto.
    + destruct (lookup beqb m reg); rewrite (lookup_insert_neq beqb beqb_spec); auto.
  - unfold unregister. destruct (beqb m n) eqn:E.
    + apply beqb_spec in E; subst m. destruct (lookup beqb n reg) as [x|] eqn:El; auto.
      destruct (te_role x); cbn [role_remove]; apply lookup_remove_eq.
    + destruct (lookup beqb m reg) as [x|]; auto.
      destruct (te_role x); cbn [role_remove]; apply (lookup_remove_neq beqb beqb_spec); auto.
Qed.

Lemma hinv_update hs reg h x x' evs :
  hinv hs reg -> lookup N.eqb h hs = Some x -> hs_name x' = hs_name x ->
  (forall n e, lookup beqb n reg = Some e ->
     exists e', lookup beqb n (fold_left hook evs reg) = Some e' /\
     (n <> hs_name x -> e' = e) /\
     (n = hs_name x -> te_role e = (if hs_sent x then Both else Subscriber) -> te_role e' = (if hs_sent x' then Both else Subscriber))) ->
  (forall n, lookup beqb n reg = None -> n <> hs_name x -> lookup beqb n (fold_left hook evs reg) = None) ->
  hinv (insert N.eqb h x' hs) (fold_left hook evs reg).
Proof.
  intros (Hnd & Hu & Hr) Hl Hn He Hnone.
  pose proof (lookup_In N.eqb N.eqb_eq _ _ _ Hl) as Hin.
  split; [apply NoDup_insert_keys; auto using N.eqb_eq|]. split.
  - intros h1 h2 x1 x2 H1 H2 E.
    apply (In_insert N.eqb N.eqb_eq) in H1. apply (In_insert N.eqb N.eqb_eq) in H2.
    destruct H1 as [H1|[H1 H1']]; destruct H2 as [H2|[H2 H2']]; cbn [fst] in *.
    + congruence.
    + injection H1 as -> ->. apply (Hu h h2 x x2); auto. congruence.
    + injection H2 as -> ->. apply (Hu h1 h x1 x); auto. congruence.
    + apply (Hu h1 h2 x1 x2); auto.
  - intros n. specialize (Hr n). destruct (lookup beqb n reg) as [e|] eqn:El.
    + destruct (He n e El) as (e' & El' & Hne & Heq). rewrite El'.
      destruct Hr as (h0 & x0 & Hi0 & Hn0 & Hr0).
      destruct (beqb n (hs_name x)) eqn:E.
      * apply beqb_spec in E. specialize (Heq E).
        assert (h0 = h) by (apply (Hu h0 h x0 x); auto; congruence). subst h0.
        assert (x0 = x) by (apply (In_lookup N.eqb N.eqb_eq) in Hi0; auto; congruence). subst x0.
        exists h, x'. split; [left; auto|]. split; [congruence|]. auto.
      * assert (n <> hs_name x) by (intros ->; rewrite (proj2 (beqb_spec (hs_name x) (hs_name x)) eq_refl) in E; discriminate).
        rewrite (Hne H). exists h0, x0. split; auto. right. apply (In_remove N.eqb N.eqb_eq). split; auto. cbn [fst].
        intros ->. assert (x0 = x) by (apply (In_lookup N.eqb N.eqb_eq) in Hi0; auto; congruence). congruence.
    + assert (n <> hs_name x) by (intros ->; apply Hr; exists h, x; auto).
      rewrite Hnone by auto. intros (h0 & x0 & Hi0 & Hn0). apply Hr.
      apply (In_insert N.eqb N.eqb_eq) in Hi0. destruct Hi0 as [Hi0|[Hi0 _]].
      * injection Hi0 as -> ->. congruence.
      * exists h0, x0; auto.
Qed.

Lemma hinv_step hs reg e :
  hinv hs reg ->
  match e with HOpen h n _ _ _ => ~ open_on hs n /\ lookup N.eqb h hs = None | _ => True end ->
  hinv (fst (hstep hs e)) (fold_left hook (snd (hstep hs e)) reg).
Proof.
  intros Hinv Hok. destruct e as [h n th ts p|h|h|h]; cbn [hstep].
  - destruct Hok as [Hno Hh]. cbn [fst snd fold_left]. destruct Hinv as (Hnd & Hu & Hr).
    split; [apply NoDup_insert_keys; auto using N.eqb_eq|]. split.
    + intros h1 h2 x1 x2 H1 H2 E.
      apply (In_insert N.eqb N.eqb_eq) in H1. apply (In_insert N.eqb N.eqb_eq) in H2.
      destruct H1 as [H1|[H1 H1']]; destruct H2 as [H2|[H2 H2']]; cbn [fst] in *.
      * congruence.
      * injection H1 as -> ->. exfalso; apply Hno. exists h2, x2; cbn [hs_name] in E; auto.
      * injection H2 as -> ->. exfalso; apply Hno. exists h1, x1; cbn [hs_name] in E; auto.
      * apply (Hu h1 h2 x1 x2); auto.
    + intros m. rewrite hook_lookup. destruct (beqb n m) eqn:E.
      * apply beqb_spec in E; subst m. pose proof (Hr n) as Hrn. destruct (lookup beqb n reg).
        -- exfalso. destruct Hrn as (h0 & x0 & ? & ? & _). apply Hno; exists h0, x0; auto.
        -- exists h. eexists. split; [left; reflexivity|]. split; reflexivity.
      * specialize (Hr m). destruct (lookup beqb m reg) as [e|].
        -- destruct Hr as (h0 & x0 & Hi & Hn & Hre). exists h0, x0. split; auto. right.
           apply (In_remove N.eqb N.eqb_eq). split; auto. cbn [fst]. intros ->.
           apply (In_lookup N.eqb N.eqb_eq) in Hi; auto. congruence.
        -- intros (h0 & x0 & Hi & Hn). apply (In_insert N.eqb N.eqb_eq) in Hi. destruct Hi as [Hi|[Hi _]].
           ++ injection Hi as -> ->. cbn [hs_name] in Hn. subst m. rewrite (proj2 (beqb_spec n n) eq_refl) in E; discriminate.
           ++ apply Hr. exists h0, x0; auto.
  - destruct (lookup N.eqb h hs) as [x|] eqn:El; [|exact Hinv].
    destruct (hs_sent x) eqn:Es; [exact Hinv|]. cbn [fst snd].
    apply (hinv_update hs reg h x); auto; cbn [fold_left].
    + intros n e Hl. rewrite hook_lookup. destruct (beqb (hs_name x) n) eqn:E.
      * apply beqb_spec in E; subst n. rewrite Hl. eexists. split; [reflexivity|]. split; [congruence|].
        cbn [te_role hs_sent]. intros _. rewrite Es. intros ->. reflexivity.
      * exists e. split; auto. split; auto. intros ->. rewrite (proj2 (beqb_spec _ _) eq_refl) in E; discriminate.
    + intros n Hl Hne. rewrite hook_lookup. destruct (beqb (hs_name x) n) eqn:E; auto. apply beqb_spec in E; congruence.
  - destruct (lookup N.eqb h hs) as [x|] eqn:El; [|exact Hinv].
    destruct (hs_rcvd x) eqn:Es; [exact Hinv|]. cbn [fst snd].
    apply (hinv_update hs reg h x); auto; cbn [fold_left].
    + intros n e Hl. rewrite hook_lookup. destruct (beqb (hs_name x) n) eqn:E.
      * apply beqb_spec in E; subst n. rewrite Hl. eexists. split; [reflexivity|]. split; [congruence|].
        cbn [te_role hs_sent]. intros _ ->. destruct (hs_sent x); reflexivity.
      * exists e. split; auto.
    + intros n Hl Hne. rewrite hook_lookup. destruct (beqb (hs_name x) n) eqn:E; auto. apply beqb_spec in E; congruence.
  - destruct (lookup N.eqb h hs) as [x|] eqn:El; [|exact Hinv]. cbn [fst snd fold_left].
    destruct Hinv as (Hnd & Hu & Hr). pose proof (lookup_In N.eqb N.eqb_eq _ _ _ El) as Hin.
    split; [apply NoDup_remove_keys; auto using N.eqb_eq|]. split.
    + intros h1 h2 x1 x2 H1 H2. apply (In_remove N.eqb N.eqb_eq) in H1. apply (In_remove N.eqb N.eqb_eq) in H2.
      apply (Hu h1 h2 x1 x2); tauto.
    + intros n. rewrite hook_lookup. destruct (beqb (hs_name x) n) eqn:E.
      * apply beqb_spec in E; subst n. intros (h0 & x0 & Hi & Hn). apply (In_remove N.eqb N.eqb_eq) in Hi as [Hi Hne].
        apply Hne. cbn [fst]. apply (Hu h0 h x0 x); auto.
      * specialize (Hr n). destruct (lookup beqb n reg) as [e|].
        -- destruct Hr as (h0 & x0 & Hi & Hn & Hre). exists h0, x0. split; auto.
           apply (In_remove N.eqb N.eqb_eq). split; auto. cbn [fst]. intros ->.
           apply (In_lookup N.eqb N.eqb_eq) in Hi; auto. assert (x0 = x) by congruence. subst x0 n.
           rewrite (proj2 (beqb_spec _ _) eq_refl) in E; discriminate.
        -- intros (h0 & x0 & Hi & Hn). apply Hr. apply (In_remove N.eqb N.eqb_eq) in Hi as [Hi _]. exists h0, x0; auto.
Qed.

Lemma hinv_run evs : forall hs reg, hinv hs reg -> one_handle_per_topic hs evs ->
  hinv (fst (hrun hs reg evs)) (snd (hrun hs reg evs)).
Proof.
  induction evs as [|e r IH]; intros hs reg Hi Ho; cbn [hrun]; auto.
  cbn [one_handle_per_topic] in Ho. destruct Ho as [He Ho].
  pose proof (hinv_step hs reg e Hi He) as Hi'. destruct (hstep hs e) as [hs1 out]. cbn [fst snd] in *.
  apply IH; auto.
Qed.

Lemma single_handle evs name :
  one_handle_per_topic [] evs ->
  let '(hs, reg) := hrun [] [] evs in
  (lookup beqb name reg <> None <-> open_on hs name) /\
  (has_publishers reg name = true <-> publishing_on hs name) /\
  (has_subscribers reg name = true <-> open_on hs name).
Proof.
  intros Ho. assert (H0 : hinv [] []).
  { split; [constructor|]. split; [intros ? ? ? ? []|]. intros n; cbn. intros (h & x & [] & _). }
  pose proof (hinv_run evs [] [] H0 Ho) as (Hnd & Hu & Hr). destruct (hrun [] [] evs) as [hs reg]. cbn [fst snd] in *.
  specialize (Hr name). unfold has_publishers, has_subscribers. destruct (lookup beqb name reg) as [e|].
  - destruct Hr as (h & x & Hi & Hn & Hre).
    assert (open_on hs name) by (exists h, x; auto).
    split; [split; auto; discriminate|]. rewrite Hre. split.
    + split.
      * destruct (hs_sent x) eqn:Es; [|discriminate]. intros _. exists h, x; auto.
      * intros (h' & x' & Hi' & Hn' & Hs'). assert (h' = h) by (apply (Hu h' h x' x); auto; congruence). subst h'.
        apply (In_lookup N.eqb N.eqb_eq) in Hi'; auto. apply (In_lookup N.eqb N.eqb_eq) in Hi; auto.
        assert (x' = x) by congruence. subst. rewrite Hs'. auto.
    + split; auto. intros _. destruct (hs_sent x); auto.
  - split; [split; [congruence | intros; contradiction]|]. split; split; try discriminate.
    + intros (h & x & Hi & Hn & _). exfalso. apply Hr. exists h, x; auto.
    + intros; contradiction.
Qed.
