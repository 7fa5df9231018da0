From Coq Require Import QArith String.
From Verif Require Import Base.Prelude Base.Bytes Base.Str Base.AMap Model.Params Spec.ParamsSpec.
Open Scope nat_scope.

Notation look := (lookup beqb).
Lemma beqb_refl k : beqb k k = true.
Proof. now apply beqb_spec. Qed.
Lemma beqb_neq k k' : k <> k' -> beqb k k' = false.
Proof. apply (eqb_neq' beqb beqb_spec). Qed.
Lemma beqb_dec (k k' : bytes) : {k = k'} + {k <> k'}.
Proof. destruct (beqb k k') eqn:E; [left; now apply beqb_spec|right; intros ->; now rewrite beqb_refl in E]. Qed.

(** ** Validation *)
Definition nan_free (r : rule) : bool :=
  match r with
  | MinValue NaN | MaxValue NaN | Range NaN _ | Range _ NaN => false
  | _ => true
  end.
Definition object_rule_ok (r : rule) (v : json) : bool :=
  match r, v with RequiredKeys _, JObj _ => true | RequiredKeys _, _ => false | _, _ => true end.

Lemma num_lt_spec x b : b <> NaN -> num_lt x b = false <-> at_least x b.
Proof.
  destruct b; cbn; intros N; try (split; congruence || tauto).
  rewrite negb_false_iff. apply Qle_bool_iff.
Qed.
Lemma num_gt_spec x b : b <> NaN -> num_gt x b = false <-> at_most x b.
Proof.
  destruct b; cbn; intros N; try (split; congruence || tauto).
  rewrite negb_false_iff. apply Qle_bool_iff.
Qed.

Lemma check_spec regex r v : nan_free r = true -> object_rule_ok r v = true ->
  check regex r v = true <-> meets regex r v.
Proof.
  intros NF OB. destruct r; cbn [check meets nan_free object_rule_ok] in *.
  - assert (m <> NaN) by (destruct m; congruence).
    destruct v; try (split; [discriminate|intros (? & ? & _); discriminate]).
    rewrite negb_true_iff, num_lt_spec by auto. split; eauto.
    intros (y & Y & L). now inv Y.
  - assert (m <> NaN) by (destruct m; congruence).
    destruct v; try (split; [discriminate|intros (? & ? & _); discriminate]).
    rewrite negb_true_iff, num_gt_spec by auto. split; eauto.
    intros (y & Y & L). now inv Y.
  - assert (lo <> NaN) by (destruct lo; congruence).
    assert (hi <> NaN) by (destruct lo, hi; congruence).
    destruct v; try (split; [discriminate|intros (? & ? & _); discriminate]).
    rewrite negb_true_iff, orb_false_iff, num_lt_spec, num_gt_spec by auto. split; eauto.
    intros (y & Y & L). now inv Y.
  - destruct v; try (split; [discriminate|intros (? & ? & ? & _); discriminate]).
    destruct (regex p) as [f|] eqn:R.
    + split; [intros; exists s, f; auto|]. intros (s' & f' & S' & F & G). inv S'. now inv F.
    + split; [discriminate|]. intros (s' & f' & S' & F & G). discriminate.
  - destruct v; try (split; [discriminate|intros (? & ? & _); discriminate]).
    rewrite existsb_exists. split.
    + intros (x & I & B). apply beqb_spec in B as ->. eauto.
    + intros (x & X & I). inv X. exists x. split; auto. apply beqb_refl.
  - rewrite negb_true_iff, Nat.ltb_ge. unfold has_len. split.
    + intros L. destruct v; cbn in L; try (left; lia); right; eauto 6.
    + intros [->|(m & [(s & -> & ->)|(l & -> & ->)] & L)]; cbn; lia.
  - rewrite negb_true_iff, Nat.ltb_ge. unfold has_len. split.
    + intros L m [(s & -> & ->)|(l & -> & ->)]; exact L.
    + intros K. destruct v; cbn; try lia; apply K; eauto.
  - destruct v; try discriminate. rewrite forallb_forall. unfold mem. split.
    + intros K. exists l. split; auto. intros k I. specialize (K k I).
      destruct (look k l) eqn:E; [|discriminate]. exists j.
      exact (lookup_In beqb beqb_spec k j l E).
    + intros (o & O & K) k I. inv O. destruct (K k I) as [x X].
      destruct (look k o) eqn:E; auto. exfalso.
      apply (proj1 (lookup_None_keys beqb beqb_spec k o) E). apply in_map_iff. now exists (k, x).
Qed.
Lemma validate_spec regex rs v :
  forallb nan_free rs = true -> forallb (fun r => object_rule_ok r v) rs = true ->
  validate regex rs v = true <-> Forall (fun r => meets regex r v) rs.
Proof.
  intros NF OB. unfold validate. rewrite forallb_forall, Forall_forall.
  rewrite forallb_forall in NF, OB.
  split; intros K r I; apply (check_spec regex r v (NF r I) (OB r I)); auto.
Qed.

(** ** Concurrent histories *)
Section Params.
Variable regex : bytes -> option (bytes -> bool).
Variable meta : bytes -> option (bool * list rule).
Variable callbacks : list (bytes -> option json -> json -> bool).
Notation step := (step regex meta callbacks).
Notation run := (run regex meta callbacks).
Notation admitted := (admitted regex meta).

Lemma at_same f t x : at_thr f t x t = x.
Proof. unfold at_thr. now rewrite Nat.eqb_refl. Qed.
Lemma at_other f t x u : u <> t -> at_thr f t x u = f u.
Proof. intros N. unfold at_thr. apply Nat.eqb_neq in N. now rewrite N. Qed.

(** Each step is one of these. *)
Ltac step_cases H :=
  unfold Params.step, begin_set in H;
  repeat (case_match_in H; try discriminate); inv H.

Lemma run_ind_inv (P : state -> Prop) s w :
  P s -> (forall s t a s', In (t, a) w -> P s -> step s t a = Some s' -> P s') -> P (run s w).
Proof.
  revert s. induction w as [|[t a] w IH]; intros s Hs K; auto. cbn [Params.run]. apply IH.
  - destruct (step s t a) eqn:E; auto. eapply K; eauto. now left.
  - intros s0 t0 a0 s0' I. apply K. now right.
Qed.

Lemma changes_app k l l' : changes k (l ++ l') = changes k l + changes k l'.
Proof. unfold changes. now rewrite filter_app, app_length. Qed.

Lemma version_bump s k k' :
  match look k (bump s k') with Some n => n | None => 0 end
  = version s k + (if beqb k k' then 1 else 0).
Proof.
  unfold bump. destruct (beqb k k') eqn:E.
  - apply beqb_spec in E as ->. rewrite (lookup_insert_eq beqb beqb_spec). reflexivity.
  - assert (k <> k') by (intros ->; now rewrite beqb_refl in E).
    rewrite (lookup_insert_neq beqb beqb_spec) by auto. unfold version. lia.
Qed.

(** The lock invariant and the version count. *)
Definition holds (x : thread) : bool :=
  match x with CasIns _ _ _ | CasBump _ _ _ _ => true | _ => false end.
Definition pending (x : thread) : option (bytes * nat) :=
  match x with CasIns k _ e | CasBump k _ e _ => Some (k, e) | _ => None end.
Definition log_ok (l : list event) : Prop :=
  forall l1 ev l2, l = l1 ++ ev :: l2 ->
    match ev with
    | CasOk _ k e _ _ => changes k l1 = e
    | CasStale _ k e => changes k l1 <> e
    | GotVersion _ k n => changes k l1 = n
    | _ => True
    end.
Record inv1 (s : state) : Prop := {
  i_count : forall k, version s k = changes k (log s);
  i_lock : forall t, holds (thr s t) = true <-> vlock s = Some t;
  i_pend : forall t k e, pending (thr s t) = Some (k, e) -> version s k = e;
  i_log : log_ok (log s) }.

Lemma log_ok_snoc l ev :
  log_ok l ->
  match ev with
  | CasOk _ k e _ _ => changes k l = e
  | CasStale _ k e => changes k l <> e
  | GotVersion _ k n => changes k l = n
  | _ => True
  end -> log_ok (l ++ [ev]).
Proof.
  intros L E l1 ev' l2 Q. destruct l2 as [|x l2] using rev_ind.
  - apply app_inj_tail in Q as [<- <-]. exact E.
  - rewrite app_comm_cons, app_assoc in Q. apply app_inj_tail in Q as [-> <-]. now apply (L l1 ev' l2).
Qed.
Lemma log_ok_app0 l : log_ok l -> log_ok (l ++ []).
Proof. now rewrite app_nil_r. Qed.

Lemma changes1 k ev : changes k [ev] =
  match ev with SetOk _ k' _ | CasOk _ k' _ _ _ => if beqb k k' then 1 else 0 | _ => 0 end.
Proof. unfold changes. cbn [filter]. destruct ev; try reflexivity; destruct (beqb k k0); reflexivity. Qed.

Lemma inv1_upd s t p v l x es : inv1 s ->
  (forall k, match look k v with Some n => n | None => 0 end = version s k + changes k es) ->
  ((l = vlock s /\ holds x = holds (thr s t)) \/ (vlock s = None /\ l = Some t /\ holds x = true)
   \/ (vlock s = Some t /\ l = None /\ holds x = false)) ->
  (forall k e, pending x = Some (k, e) -> version s k + changes k es = e) ->
  (vlock s = None \/ vlock s = Some t \/ forall k, changes k es = 0) ->
  log_ok (log s ++ es) ->
  inv1 (upd s p v l t x es).
Proof.
  intros [C Lk P L] V Lo Pe Ot Lg.
  assert (forall u, pending (thr s u) <> None -> vlock s = Some u) as Hold.
  { intros u N. apply Lk. destruct (thr s u); cbn in *; congruence. }
  split; unfold upd, version in *; cbn [ps vs vlock thr log] in *.
  - intros k. rewrite V, changes_app, C. lia.
  - intros u. destruct (Nat.eq_dec u t) as [->|N].
    + rewrite at_same. destruct Lo as [[-> ->]|[(A & -> & ->)|(A & -> & ->)]]; [apply Lk| |];
        split; congruence.
    + rewrite at_other by auto. rewrite Lk.
      destruct Lo as [[-> _]|[(A & -> & _)|(A & -> & _)]]; [tauto| |]; rewrite ?A; split; congruence.
  - intros u k e. rewrite V. destruct (Nat.eq_dec u t) as [->|N].
    + rewrite at_same. apply Pe.
    + rewrite at_other by auto. intros Q.
      assert (vlock s = Some u) as HU by (apply Hold; congruence).
      destruct Ot as [A|[A|A]]; [congruence|congruence|]. rewrite A.
      rewrite <- (P u k e Q). lia.
  - exact Lg.
Qed.

Lemma inv1_step s t a s' : inv1 s -> step s t a = Some s' -> inv1 s'.
Proof.
  intros I H. pose proof I as [C Lk P L]. pose proof (Lk t) as LkT.
  step_cases H; cbn [holds] in LkT; (apply inv1_upd; auto).
  all: try (intros k0; rewrite version_bump, changes1; reflexivity).
  all: try (intros k0; rewrite ?changes1; change (changes k0 []) with 0; unfold version; lia).
  all: try (intros k0 e0 Q; cbn in Q; try discriminate).
  all: try (apply log_ok_app0; assumption).
  all: try (apply log_ok_snoc; auto).
  all: try (bool_prop; rewrite <- C; congruence).
  all: try (rewrite E in *; cbn [holds]; auto 6; fail).
  1,2: inv Q; change (changes k0 []) with 0; rewrite Nat.add_0_r.
  1: now apply Nat.eqb_eq.
  1: (apply (P t); rewrite E; reflexivity).
  1: (right; right; repeat split; apply LkT; reflexivity).
  1: (right; left; apply LkT; reflexivity).
  rewrite <- C. apply (P t). rewrite E. reflexivity.
Qed.
Lemma inv1_start m : inv1 (start m).
Proof.
  split; cbn; auto.
  - intros t. split; discriminate.
  - discriminate.
  - intros l1 ev l2 Q. now destruct l1.
Qed.
Lemma inv1_run m w : inv1 (run (start m) w).
Proof. apply run_ind_inv; [apply inv1_start|]. intros s t a s' _. apply inv1_step. Qed.

(** Two results bracketing a stretch of history. *)
Lemma between k l l1 t1 n l2 ev l3 :
  log_ok l -> l = l1 ++ GotVersion t1 k n :: l2 ++ ev :: l3 ->
  (forall t v old, ev = CasOk t k n v old -> changes k l2 = 0)
  /\ (forall t, ev = CasStale t k n -> 0 < changes k l2).
Proof.
  intros L Q. pose proof (L l1 _ _ Q) as A. cbn in A.
  assert (l = (l1 ++ GotVersion t1 k n :: l2) ++ ev :: l3) as Q2
    by (rewrite Q, <- app_assoc; reflexivity).
  pose proof (L _ _ _ Q2) as B.
  assert (changes k (l1 ++ GotVersion t1 k n :: l2) = n + changes k l2) as D
    by (rewrite changes_app, A; reflexivity).
  split.
  - intros t v old ->. rewrite D in B. lia.
  - intros t ->. rewrite D in B. lia.
Qed.

(** Values that can be stored. *)
Section Stored.
Variable P : bytes -> json -> Prop.
Definition call_ok (a : option call) : Prop :=
  match a with
  | Some (Cas k v _) => admitted k v = true -> P k v
  | Some (Load m) => forall k v, look k m = Some v -> P k v
  | _ => True
  end.
Definition thread_ok (x : thread) : Prop :=
  match x with Inserting k v _ | CasIns k v _ => P k v | _ => True end.
Lemma look_ins k k' v (m : store) : look k (insert beqb k' v m) = if beqb k k' then Some v else look k m.
Proof.
  destruct (beqb k k') eqn:E.
  - apply beqb_spec in E as ->. apply (lookup_insert_eq beqb beqb_spec).
  - apply (lookup_insert_neq beqb beqb_spec). intros ->. now rewrite beqb_refl in E.
Qed.
Lemma look_rem k k' (m : store) : look k (remove beqb k' m) = if beqb k k' then None else look k m.
Proof.
  destruct (beqb k k') eqn:E.
  - apply beqb_spec in E as ->. apply (lookup_remove_eq beqb).
  - apply (lookup_remove_neq beqb beqb_spec). intros ->. now rewrite beqb_refl in E.
Qed.
Definition stored (s : state) : Prop :=
  (forall k v, look k (ps s) = Some v -> P k v) /\ (forall t, thread_ok (thr s t)).
Lemma stored_upd s t p v l x es :
  stored s -> (forall k w, look k p = Some w -> P k w) -> thread_ok x ->
  stored (upd s p v l t x es).
Proof.
  intros [A B] C D. split; cbn [ps thr upd]; auto. intros u.
  destruct (Nat.eq_dec u t) as [->|N]; [now rewrite at_same|now rewrite at_other].
Qed.
Lemma stored_step s t a s' :
  (forall k v old, admitted k v = true -> accepted callbacks k old v = true -> P k v) ->
  call_ok a -> stored s -> step s t a = Some s' -> stored s'.
Proof.
  intros K A I H. pose proof I as [B C]. pose proof (C t) as Ct.
  step_cases H; apply stored_upd; auto; cbn [thread_ok call_ok] in *; auto; bool_prop; eauto.
  - intros k0 w. rewrite look_rem. case_match; [discriminate|]. apply B.
  - cbn. discriminate.
  - intros k0 w. rewrite look_ins. case_match; [|apply B].
    intros Q. inv Q. match goal with X : beqb _ _ = true |- _ => apply beqb_spec in X as -> end. exact Ct.
  - intros k0 w. rewrite look_ins. case_match; [|apply B].
    intros Q. inv Q. match goal with X : beqb _ _ = true |- _ => apply beqb_spec in X as -> end. exact Ct.
Qed.
End Stored.

Lemma stored_run (P : bytes -> json -> Prop) m w :
  (forall k v old, admitted k v = true -> accepted callbacks k old v = true -> P k v) ->
  (forall k v, look k m = Some v -> P k v) ->
  Forall (fun ta => call_ok P (snd ta)) w -> stored P (run (start m) w).
Proof.
  intros K M W. apply run_ind_inv.
  - split; auto. intros t. exact I.
  - intros s t a s' J. rewrite Forall_forall in W. apply (stored_step P s t a s' K (W _ J)).
Qed.

(** A key stays unless something removes it. *)
Definition keeps (k : bytes) (a : option call) : Prop :=
  match a with Some (Remove k') => k <> k' | Some Reset | Some (Load _) => False | _ => True end.
(** Threads outside any reset. *)
Definition plain (x : thread) : Prop :=
  match x with
  | Resetting _ => False | Inserting _ _ (Some _) => False | Bumping _ _ (Some _) => False
  | _ => True
  end.
Definition no_reset (a : option call) : Prop := match a with Some Reset => False | _ => True end.
Lemma plain_step s t a s' : no_reset a -> (forall u, plain (thr s u)) -> step s t a = Some s' ->
  forall u, plain (thr s' u).
Proof.
  intros N A H u. pose proof (A t) as At. destruct (Nat.eq_dec u t) as [->|Ne].
  - step_cases H; cbn [thr upd no_reset plain] in *; rewrite ?at_same; cbn [plain]; tauto || auto.
  - step_cases H; cbn [thr upd]; rewrite at_other by auto; apply A.
Qed.
Lemma keeps_run m w k : Forall (fun ta => keeps k (snd ta)) w -> look k m <> None ->
  look k (ps (run (start m) w)) <> None.
Proof.
  intros W M. apply (run_ind_inv (fun s => look k (ps s) <> None)); auto.
  intros s t a s' J A H. rewrite Forall_forall in W. specialize (W _ J).
  step_cases H; cbn [ps upd snd keeps] in *; auto; try tauto.
  - now rewrite look_rem, (beqb_neq _ _ W).
  - rewrite look_ins. case_match; congruence.
  - rewrite look_ins. case_match; congruence.
Qed.

(** ** Keys written only by versioned sets *)
Section Chain.
Variable k : bytes.
Variable init : option json.
Definition cas_only (a : option call) : Prop :=
  match a with Some c => ~ writes_otherwise k c | None => True end.
Definition foreign (x : thread) : Prop :=
  plain x /\ match x with Inserting k' _ _ | Bumping k' _ _ => k <> k' | _ => True end.
Definition mine (x : thread) : option (json * option json) :=
  match x with CasBump k' v _ old => if beqb k k' then Some (v, old) else None | _ => None end.
Record inv2 (s : state) : Prop := {
  j_1 : inv1 s;
  j_thr : forall t, foreign (thr s t);
  j_mine : forall t v old, mine (thr s t) = Some (v, old) ->
             look k (ps s) = Some v /\ old = last_cas k init (log s);
  j_none : (forall t, mine (thr s t) = None) -> look k (ps s) = last_cas k init (log s);
  j_log : forall l1 t e v old l2, log s = l1 ++ CasOk t k e v old :: l2 -> old = last_cas k init l1 }.

Lemma last_cas_app i l l' : last_cas k i (l ++ l') = last_cas k (last_cas k i l) l'.
Proof. revert i. induction l as [|e l IH]; intros i; auto. destruct e; cbn [last_cas app]; apply IH. Qed.

Lemma inv2_step s t a s' : cas_only a -> inv2 s -> step s t a = Some s' -> inv2 s'.
Proof.
  intros CO [I F M N L] H. pose proof (inv1_step _ _ _ _ I H) as I'.
  pose proof (F t) as Ft. pose proof (i_lock s I) as Lk.
  assert (forall u, mine (thr s u) <> None -> vlock s = Some u) as Own.
  { intros u Q. apply Lk. destruct (thr s u); cbn in *; congruence. }
  (* steps that neither write [k] nor log a versioned set of it *)
  assert (forall p v l x es, s' = upd s p v l t x es -> foreign x -> mine x = None -> mine (thr s t) = None ->
            look k p = look k (ps s) -> (forall i, last_cas k i es = i) ->
            (forall t e v old, ~ In (CasOk t k e v old) es) -> List.length es <= 1 -> inv2 s') as Quiet.
  { intros p v l x es -> Fx Mx Mt Lp Es Nc Le. split; auto; unfold upd; cbn [ps thr log].
    - intros u. destruct (Nat.eq_dec u t) as [->|Ne]; [now rewrite at_same|now rewrite at_other].
    - intros u w old. destruct (Nat.eq_dec u t) as [->|Ne]; [rewrite at_same; congruence|rewrite at_other by auto].
      intros Q. rewrite Lp, last_cas_app, Es. eauto.
    - intros Q. rewrite Lp, last_cas_app, Es. apply N. intros u. specialize (Q u).
      destruct (Nat.eq_dec u t) as [->|Ne]; [auto|now rewrite at_other in Q].
    - intros l1 u e w old l2 Q. destruct es as [|ev [|]]; cbn in Le; try lia.
      + rewrite app_nil_r in Q. eauto.
      + destruct l2 as [|y l2] using rev_ind.
        * apply app_inj_tail in Q as [_ Q]. exfalso. apply (Nc u e w old). left. auto.
        * rewrite app_comm_cons, app_assoc in Q. apply app_inj_tail in Q as [Q _]. eauto. }
  step_cases H; cbn [cas_only writes_otherwise foreign plain] in *.
  all: try (eapply Quiet; [reflexivity| | | | | | |]; cbn [foreign plain mine]; auto; try tauto;
            try (split; [exact Logic.I|]; solve [auto]);
            try (intros; intros [Q|[]]; discriminate); cbn; auto; lia).
  - eapply Quiet; [reflexivity| | | | | | |]; cbn [foreign plain mine]; auto.
    + now rewrite look_rem, (beqb_neq _ _ CO).
    + intros ? ? ? ? [Q|[]]; discriminate.
  - exfalso. destruct Ft as [[] _].
  - (* plain insert elsewhere *)
    destruct Ft as [Pl Nk]. eapply Quiet; [reflexivity| | | | | | |]; cbn [foreign plain mine]; auto.
    + split; auto.
    + now rewrite look_ins, (beqb_neq _ _ Nk).
  - exfalso. destruct Ft as [[] _].
  - (* CasIns *)
    assert (vlock s = Some t) as Vt by (apply Lk; rewrite E; reflexivity).
    assert (forall u, mine (thr s u) = None) as All.
    { intros u. destruct (mine (thr s u)) eqn:Q; auto.
      assert (vlock s = Some u) as Vu by (apply Own; congruence).
      rewrite Vt in Vu. inv Vu. rewrite E in Q. discriminate. }
    destruct (beqb_dec k k0) as [<-|Ne].
    + split; auto; unfold upd; cbn [ps thr log]; rewrite ?app_nil_r.
      * intros u. destruct (Nat.eq_dec u t) as [->|Ne]; [rewrite at_same; split; exact Logic.I|now rewrite at_other].
      * intros u w old. destruct (Nat.eq_dec u t) as [->|Ne]; [rewrite at_same|rewrite at_other, All by auto; discriminate].
        cbn [mine]. rewrite beqb_refl. intros Q. inv Q. rewrite look_ins, beqb_refl. split; auto.
      * intros Q. specialize (Q t). rewrite at_same in Q. cbn [mine] in Q. rewrite beqb_refl in Q. discriminate.
      * exact L.
    + eapply Quiet; [reflexivity| | | | | | |]; cbn [foreign plain mine]; auto.
      * now rewrite (beqb_neq _ _ Ne).
      * now rewrite look_ins, (beqb_neq _ _ Ne).
  - (* CasBump *)
    assert (vlock s = Some t) as Vt by (apply Lk; rewrite E; reflexivity).
    destruct (beqb_dec k k0) as [<-|Ne].
    + destruct (M t v old) as [Lv Lo]; [rewrite E; cbn [mine]; now rewrite beqb_refl|].
      split; auto; unfold upd; cbn [ps thr log].
      * intros u. destruct (Nat.eq_dec u t) as [->|Ne]; [rewrite at_same; split; exact Logic.I|now rewrite at_other].
      * intros u w old'. destruct (Nat.eq_dec u t) as [->|Ne]; [rewrite at_same; discriminate|rewrite at_other by auto].
        intros Q. assert (vlock s = Some u) as Vu by (apply Own; congruence). congruence.
      * intros _. rewrite last_cas_app. cbn [last_cas]. now rewrite beqb_refl.
      * intros l1 u e' w old' l2 Q. destruct l2 as [|y l2] using rev_ind.
        -- apply app_inj_tail in Q as [Ql Q]. inv Q. auto.
        -- rewrite app_comm_cons, app_assoc in Q. apply app_inj_tail in Q as [Q _]. eauto.
    + eapply Quiet; [reflexivity| | | | | | |]; cbn [foreign plain mine]; auto.
      * now rewrite (beqb_neq _ _ Ne).
      * intros i. cbn [last_cas]. now rewrite (beqb_neq _ _ Ne).
      * intros ? ? ? ? [Q|[]]. inv Q. now apply Ne.
Qed.
End Chain.
Lemma inv2_run m w k : Forall (fun ta => cas_only k (snd ta)) w ->
  inv2 k (look k m) (run (start m) w).
Proof.
  intros W. apply run_ind_inv.
  - split; cbn; auto.
    + apply inv1_start.
    + split; exact I.
    + discriminate.
    + intros l1 t e v old l2 Q. now destruct l1.
  - intros s t a s' J. rewrite Forall_forall in W. apply inv2_step. exact (W _ J).
Qed.
End Params.

(** ** Layers *)
Lemma look_overlay l : forall m k,
  look k (overlay m l) = last_entry k (look k m) l.
Proof.
  induction l as [|[k' v] l IH]; intros m k; auto. unfold overlay in *. cbn [fold_left fst snd last_entry].
  rewrite IH. f_equal. destruct (beqb k k') eqn:E.
  - apply beqb_spec in E as ->. apply (lookup_insert_eq beqb beqb_spec).
  - apply (lookup_insert_neq beqb beqb_spec). intros ->. now rewrite beqb_refl in E.
Qed.
Lemma last_entry_acc k l acc :
  last_entry k acc l = match last_entry k None l with Some v => Some v | None => acc end.
Proof.
  revert acc. induction l as [|[k' v] l IH]; intros acc; auto. cbn [last_entry].
  destruct (beqb k k'); auto. rewrite (IH (Some v)). destruct (last_entry k None l); auto.
Qed.
Lemma env_spec parse k env acc :
  fold_left (fun acc kv =>
    match strip_prefix (bs "HORUS_PARAM_") (fst kv) with
    | Some n => if beqb k (map lower n) then Some (parse_env parse (snd kv)) else acc
    | None => acc
    end) env acc = last_entry k acc (env_layer parse env).
Proof.
  revert acc. induction env as [|[n v] env IH]; intros acc; auto.
  cbn [fold_left fst snd]. unfold env_layer in *. cbn [flat_map fst snd]. rewrite IH.
  destruct (strip_prefix _ n); auto.
Qed.

(** ** Whole numbers *)
Lemma dec_val_digits ds : (forall d, In d ds -> d < 10)%N -> forall acc,
  dec_val acc (map (fun d => d + 48)%N ds) = Some (acc * 10 ^ Z.of_nat (length ds) + decimal ds)%Z.
Proof.
  induction ds as [|d r IH]; intros H acc.
  - cbn. f_equal. lia.
  - cbn [map dec_val]. specialize (H d (or_introl eq_refl)) as Hd.
    assert (is_digit (d + 48) = true) as ->.
    { unfold is_digit. apply andb_true_intro. split; apply N.leb_le; lia. }
    rewrite IH by (intros x J; apply H; now right).
    f_equal. replace (d + 48 - 48)%N with d by lia. cbn [decimal length].
    rewrite Nat2Z.inj_succ, Z.pow_succ_r by lia. ring.
Qed.
Lemma integers_exact parse_dec sign (ds : list N) :
  In sign [[]; [43]; [45]]%N -> ds <> [] -> (forall d, In d ds -> d < 10)%N ->
  let z := (if beqb sign [45%N] then - decimal ds else decimal ds)%Z in
  let text := sign ++ map (fun d => d + 48)%N ds in
  parse_i64 text = (if ((- 9223372036854775808 <=? z) && (z <=? 9223372036854775807))%Z then Some z else None)
  /\ ((- 9223372036854775808 <= z <= 9223372036854775807)%Z -> parse_env parse_dec text = JNum (inject_Z z)).
Proof.
  intros S Ne H z text.
  assert (parse_i64 text = (if ((- 9223372036854775808 <=? z) && (z <=? 9223372036854775807))%Z then Some z else None)) as E.
  { assert (forall z, (z <? 2 ^ 63)%Z = (z <=? 9223372036854775807)%Z) as Q.
    { intros x. change (2 ^ 63)%Z with 9223372036854775808%Z.
      destruct (Z.ltb_spec x 9223372036854775808), (Z.leb_spec x 9223372036854775807); auto; lia. }
    destruct ds as [|d r]; [congruence|]. specialize (H d (or_introl eq_refl)) as Hd.
    set (body := fun (neg : bool) (l : bytes) => match dec_val 0 l with
         | None => None
         | Some v =>
             let v := if neg then (- v)%Z else v in
             if ((- 2 ^ 63 <=? v) && (v <? 2 ^ 63))%Z then Some v else None
         end).
    assert (parse_i64 text = body (beqb sign [45%N]) (map (fun d => d + 48)%N (d :: r))) as ->.
    { subst text. destruct S as [<-|[<-|[<-|[]]]]; cbn [app map]; try reflexivity.
      assert (d = 0 \/ d = 1 \/ d = 2 \/ d = 3 \/ d = 4 \/ d = 5 \/ d = 6 \/ d = 7 \/ d = 8 \/ d = 9)%N as D by lia.
      repeat (destruct D as [-> | D]; [reflexivity|]). now subst d. }
    unfold body.
    rewrite dec_val_digits by exact H. rewrite Z.mul_0_l, Z.add_0_l. fold z. rewrite Q. reflexivity. }
  split; auto. intros B. unfold parse_env. rewrite E.
  assert (((- 9223372036854775808 <=? z) && (z <=? 9223372036854775807))%Z = true) as ->; auto.
  apply andb_true_intro. split; apply Z.leb_le; lia.
Qed.
