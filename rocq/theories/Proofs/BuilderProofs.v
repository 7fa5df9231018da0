From Coq Require Import String.
From Verif Require Import Base.Prelude Base.Bytes Base.Str Model.FailurePolicy Model.Builder Spec.BuilderSpec.
Open Scope list_scope.
Local Open Scope N_scope.

(** ** The fields after a chain of calls *)
Lemma fold_field {X} (proj : reg -> X) (sel : call -> option X) :
  (forall r c, proj (apply r c) = over (sel c) (proj r)) ->
  forall cs r, proj (fold_left apply cs r) = over (last_some sel cs) (proj r).
Proof.
  intros H cs. induction cs as [|c cs IH]; intros r; [reflexivity|].
  cbn [fold_left last_some]. rewrite IH. destruct (last_some sel cs); [reflexivity|]. cbn [over]. apply H.
Qed.
Lemma last_some_map {A B C} (g : B -> C) (f : A -> option B) l :
  last_some (fun a => option_map g (f a)) l = option_map g (last_some f l).
Proof.
  induction l as [|a l IH]; [reflexivity|]. cbn [last_some]. rewrite IH. destruct (last_some f l); reflexivity.
Qed.
Lemma last_some_ext {A B} (f g : A -> option B) l : (forall a, f a = g a) -> last_some f l = last_some g l.
Proof. intros H. induction l as [|a l IH]; [reflexivity|]. cbn [last_some]. rewrite IH, H. reflexivity. Qed.
Lemma fold_opt {X} (proj : reg -> option X) (sel : call -> option X) :
  (forall r c, proj (apply r c) = match sel c with Some x => Some x | None => proj r end) ->
  forall cs, proj reg0 = None -> proj (fold_left apply cs reg0) = last_some sel cs.
Proof.
  intros H cs E. rewrite (fold_field proj (fun c => option_map Some (sel c))).
  - rewrite last_some_map. destruct (last_some sel cs); [reflexivity|exact E].
  - intros r c. rewrite H. destruct (sel c); reflexivity.
Qed.
Ltac fld := intros [] []; reflexivity.
Definition the_reg (cs : list call) : reg :=
  Reg (over (asked_order cs) 0) (asked_rate cs) false (asked_budget cs) (asked_deadline cs) (asked_failure cs)
      (over (asked_miss cs) MissWarn) (over (asked_class cs) BestEffort) (asked_prio cs) (asked_core cs)
      (asked_watchdog cs) (over (asked_bpolicy cs) BWarn)
      (existsb (fun c => match c with CEdf => true | _ => false end) cs)
      (existsb (fun c => match c with CNoAlloc => true | _ => false end) cs) (asked_fresh cs) false.
Lemma reg_eta r s :
  r_order r = r_order s -> r_rate r = r_rate s -> r_rt r = r_rt s -> r_budget r = r_budget s ->
  r_deadline r = r_deadline s -> r_failure r = r_failure s -> r_miss r = r_miss s -> r_class r = r_class s ->
  r_prio r = r_prio s -> r_core r = r_core s -> r_watchdog r = r_watchdog s -> r_bpolicy r = r_bpolicy s ->
  r_edf r = r_edf s -> r_noalloc r = r_noalloc s -> r_fresh r = r_fresh s -> r_auto r = r_auto s -> r = s.
Proof. destruct r, s. cbn. intros. subst. reflexivity. Qed.
Lemma fold_flag (proj : reg -> bool) (sel : call -> bool) :
  (forall r c, proj (apply r c) = sel c || proj r) ->
  forall cs r, proj (fold_left apply cs r) = existsb sel cs || proj r.
Proof.
  intros H cs. induction cs as [|c cs IH]; intros r; [reflexivity|].
  cbn [fold_left existsb]. rewrite IH, H. destruct (sel c), (existsb sel cs); reflexivity.
Qed.
Lemma fold_fresh : forall cs r, r_fresh (fold_left apply cs r) = r_fresh r ++ asked_fresh cs.
Proof.
  induction cs as [|c cs IH]; intros r; [symmetry; apply app_nil_r|].
  cbn [fold_left]. rewrite IH. unfold asked_fresh. cbn [flat_map].
  assert (E : r_fresh (apply r c) = r_fresh r ++ match c with CFresh t x => [(t, x)] | _ => [] end).
  { destruct r, c; cbn; rewrite ?app_nil_r; reflexivity. }
  rewrite E, <- app_assoc. reflexivity.
Qed.
Lemma fold_same {X} (proj : reg -> X) :
  (forall r c, proj (apply r c) = proj r) -> forall cs r, proj (fold_left apply cs r) = proj r.
Proof. intros H cs. induction cs as [|c cs IH]; intros r; [reflexivity|]. cbn [fold_left]. rewrite IH. apply H. Qed.
Lemma fold_reg cs : fold_left apply cs reg0 = the_reg cs.
Proof.
  apply reg_eta; cbn [the_reg r_order r_rate r_rt r_budget r_deadline r_failure r_miss r_class r_prio r_core r_watchdog
                      r_bpolicy r_edf r_noalloc r_fresh r_auto].
  - apply fold_field. fld.
  - apply (fold_opt r_rate); [fld|reflexivity].
  - apply (fold_same r_rt). fld.
  - apply (fold_opt r_budget); [fld|reflexivity].
  - apply (fold_opt r_deadline); [fld|reflexivity].
  - apply (fold_opt r_failure); [fld|reflexivity].
  - apply fold_field. fld.
  - apply fold_field. fld.
  - apply (fold_opt r_prio); [fld|reflexivity].
  - apply (fold_opt r_core); [fld|reflexivity].
  - apply (fold_opt r_watchdog); [fld|reflexivity].
  - apply fold_field. fld.
  - rewrite (fold_flag r_edf (fun c => match c with CEdf => true | _ => false end)); [apply orb_false_r|fld].
  - rewrite (fold_flag r_noalloc (fun c => match c with CNoAlloc => true | _ => false end)); [apply orb_false_r|fld].
  - apply fold_fresh.
  - apply (fold_same r_auto). fld.
Qed.
(** The order of calls about different settings does not matter. *)
Lemma kind_eqb_eq a b : kind_eqb a b = true <-> a = b.
Proof. destruct a, b; cbn; split; congruence. Qed.
Lemma last_about {B} k (f : call -> option B) cs :
  (forall c, f c <> None -> kind_of c = k) -> last_some f (about k cs) = last_some f cs.
Proof.
  intros H. unfold about. induction cs as [|c cs IH]; [reflexivity|]. cbn [filter].
  destruct (kind_eqb (kind_of c) k) eqn:E; cbn [last_some]; rewrite IH; [reflexivity|].
  destruct (last_some f cs); [reflexivity|]. destruct (f c) eqn:F; [|reflexivity].
  assert (kind_of c = k) by (apply H; congruence). rewrite (proj2 (kind_eqb_eq _ _)) in E by assumption. discriminate.
Qed.
Lemma exists_about k (f : call -> bool) cs :
  (forall c, f c = true -> kind_of c = k) -> existsb f (about k cs) = existsb f cs.
Proof.
  intros H. unfold about. induction cs as [|c cs IH]; [reflexivity|]. cbn [filter].
  destruct (kind_eqb (kind_of c) k) eqn:E; cbn [existsb]; rewrite IH; [reflexivity|].
  destruct (f c) eqn:F; [|reflexivity].
  assert (kind_of c = k) by (apply H; congruence). rewrite (proj2 (kind_eqb_eq _ _)) in E by assumption. discriminate.
Qed.
Lemma fresh_about cs : asked_fresh (about KFresh cs) = asked_fresh cs.
Proof.
  unfold about, asked_fresh. induction cs as [|c cs IH]; [reflexivity|]. cbn [filter].
  destruct c; cbn [kind_of kind_eqb flat_map]; rewrite ?IH; reflexivity.
Qed.
Lemma order_free cs1 cs2 : (forall k, about k cs1 = about k cs2) -> the_reg cs1 = the_reg cs2.
Proof.
  intros H.
  assert (L : forall B (f : call -> option B) k, (forall c, f c <> None -> kind_of c = k) ->
              last_some f cs1 = last_some f cs2).
  { intros B f k K. rewrite <- (last_about k f cs1 K), <- (last_about k f cs2 K), H. reflexivity. }
  assert (E : forall (f : call -> bool) k, (forall c, f c = true -> kind_of c = k) -> existsb f cs1 = existsb f cs2).
  { intros f k K. rewrite <- (exists_about k f cs1 K), <- (exists_about k f cs2 K), H. reflexivity. }
  unfold the_reg, asked_order, asked_rate, asked_budget, asked_deadline, asked_failure, asked_miss, asked_class,
    asked_prio, asked_core, asked_watchdog, asked_bpolicy.
  rewrite <- (fresh_about cs1), <- (fresh_about cs2), H.
  f_equal; try (first [f_equal|idtac]; first [eapply (L _ _ KOrder)|fail]; intros []; cbn; congruence).
  all: try reflexivity.
  - apply (L _ _ KRate). intros []; cbn; congruence.
  - apply (L _ _ KBudget). intros []; cbn; congruence.
  - apply (L _ _ KDeadline). intros []; cbn; congruence.
  - apply (L _ _ KFail). intros []; cbn; congruence.
  - f_equal. apply (L _ _ KMiss). intros []; cbn; congruence.
  - f_equal. apply (L _ _ KClass). intros []; cbn; congruence.
  - apply (L _ _ KPrio). intros []; cbn; congruence.
  - apply (L _ _ KCore). intros []; cbn; congruence.
  - apply (L _ _ KWatchdog). intros []; cbn; congruence.
  - f_equal. apply (L _ _ KBPolicy). intros []; cbn; congruence.
  - apply (E _ KEdf). intros []; cbn; congruence.
  - apply (E _ KNoAlloc). intros []; cbn; congruence.
Qed.

(** ** Rounding *)
Lemma from_ns_share x n d : 0 < n -> from_ns x n = Some d ->
  2 * x < (2 * d + 1) * n /\ 2 * d * n <= 2 * x + n /\ d <= dur_max.
Proof.
  intros Hn. unfold from_ns. destruct (dur_max <? _) eqn:E; [discriminate|]. intros H. injection H as <-.
  apply N.ltb_ge in E. pose proof (N.div_mod (2 * x + n) (2 * n)). pose proof (N.mod_lt (2 * x + n) (2 * n)).
  set (q := (2 * x + n) / (2 * n)) in *. nia.
Qed.
Lemma from_ns_uniq x n d : 0 < n -> 2 * x < (2 * d + 1) * n -> 2 * d * n <= 2 * x + n -> d <= dur_max ->
  from_ns x n = Some d.
Proof.
  intros Hn H1 H2 H3. unfold from_ns.
  assert ((2 * x + n) / (2 * n) = d) as ->.
  { symmetry. apply N.div_unique with (r := 2 * x + n - 2 * d * n); lia. }
  apply N.ltb_ge in H3. rewrite H3. reflexivity.
Qed.
Lemma budget_share f d : 0 < hz_num f -> (budget_default f = Some d <-> share 80 f d /\ d <= dur_max).
Proof.
  intros Hn. unfold budget_default, share. split.
  - intros H. apply from_ns_share in H; [|exact Hn]. lia.
  - intros [[H1 H2] H3]. apply from_ns_uniq; try assumption; lia.
Qed.
Lemma deadline_share f d : 0 < hz_num f -> (deadline_default f = Some d <-> share 95 f d /\ d <= dur_max).
Proof.
  intros Hn. unfold deadline_default, share. split.
  - intros H. apply from_ns_share in H; [|exact Hn]. lia.
  - intros [[H1 H2] H3]. apply from_ns_uniq; try assumption; lia.
Qed.
Lemma period_share f d : 0 < hz_num f -> (period f = Some d <-> share 100 f d /\ d <= dur_max).
Proof.
  intros Hn. unfold period, share. split.
  - intros H. apply from_ns_share in H; [|exact Hn]. lia.
  - intros [[H1 H2] H3]. apply from_ns_uniq; try assumption; lia.
Qed.
Lemma share_le a b f x y : 0 < hz_num f -> a <= b -> share a f x -> share b f y -> x <= y.
Proof.
  unfold share. intros Hn Hab [A1 A2] [B1 B2].
  destruct (N.le_gt_cases x y) as [H|H]; [exact H|exfalso].
  assert (2 * 10000000 * a * hz_den f <= 2 * 10000000 * b * hz_den f) by (apply N.mul_le_mono_r; lia).
  assert ((2 * y + 1) * hz_num f <= (2 * x - 1) * hz_num f) by (apply N.mul_le_mono_r; lia).
  assert ((2 * x - 1) * hz_num f + hz_num f = 2 * x * hz_num f) by nia.
  lia.
Qed.

(** ** The outcome of a chain *)
Definition noalloc_of (cs : list call) : bool := existsb (fun c => match c with CNoAlloc => true | _ => false end) cs.
Lemma noalloc_In cs : noalloc_of cs = true <-> In CNoAlloc cs.
Proof.
  unfold noalloc_of. rewrite existsb_exists. split.
  - intros (c & Hc & E). destruct c; try discriminate. exact Hc.
  - intros H. exists CNoAlloc. auto.
Qed.
Lemma asked_not_best cs : asked_class cs <> Some BestEffort /\ asked_class cs <> Some RtClass.
Proof.
  unfold asked_class. induction cs as [|c cs [IH1 IH2]]; cbn [last_some]; [split; discriminate|].
  destruct (last_some _ cs); [auto|]. destruct c; split; discriminate.
Qed.
Lemma last_in {A B} (f : A -> option B) l b : last_some f l = Some b -> exists a, In a l /\ f a = Some b.
Proof.
  induction l as [|a l IH]; [discriminate|]. cbn [last_some]. destruct (last_some f l) eqn:E.
  - intros H. destruct (IH H) as (a' & Ha & F). exists a'. split; [right; exact Ha|exact F].
  - intros H. exists a. split; [left; reflexivity|exact H].
Qed.
Lemma wf_rate cs f : wf cs -> asked_rate cs = Some f -> 0 < hz_num f /\ 0 < hz_den f.
Proof.
  intros W H. apply last_in in H as (c & Hc & E). destruct c; try discriminate. injection E as <-. exact (W _ Hc).
Qed.
Lemma wf_budget cs b : wf cs -> asked_budget cs = Some b -> b <= dur_max.
Proof.
  intros W H. apply last_in in H as (c & Hc & E). destruct c; try discriminate. injection E as <-. exact (W _ Hc).
Qed.
Lemma wf_deadline cs b : wf cs -> asked_deadline cs = Some b -> b <= dur_max.
Proof.
  intros W H. apply last_in in H as (c & Hc & E). destruct c; try discriminate. injection E as <-. exact (W _ Hc).
Qed.

(** A class was asked for. *)
Definition classed_ok (k : eclass) (cs : list call) : bool :=
  negb (match k with Event [] => true | _ => false end) && negb (set (asked_budget cs)) && negb (set (asked_deadline cs))
  && negb (noalloc_of cs) && match asked_fresh cs with [] => true | _ => false end.
Lemma wf_rate_ok cs : wf cs ->
  match asked_rate cs with Some f => (hz_num f =? 0) || (hz_den f =? 0) | None => false end = false.
Proof.
  intros W. destruct (asked_rate cs) as [f|] eqn:E; [|reflexivity]. destruct (wf_rate _ _ W E).
  apply orb_false_iff. split; apply N.eqb_neq; lia.
Qed.
Lemma build_classed cs k : wf cs -> asked_class cs = Some k ->
  (classed_ok k cs = true -> build cs = Built (the_reg cs)) /\
  (classed_ok k cs = false -> exists e, build cs = Refused e).
Proof.
  intros W K. unfold build. rewrite fold_reg. unfold validate.
  destruct (asked_not_best cs) as [NB NR]. rewrite K in NB, NR.
  pose proof (wf_rate_ok cs W) as WR. unfold classed_ok. unfold the_reg. rewrite K. cbn [over]. fold (noalloc_of cs).
  destruct (asked_budget cs) as [b|], (asked_deadline cs) as [d|], (noalloc_of cs), (asked_fresh cs) as [|fr frs],
    k as [| | | |[|t ts]]; try congruence; destruct (asked_rate cs) as [f|]; unfold check;
    cbn -[N.eqb]; rewrite ?WR; split; intros H; try discriminate H;
    repeat match goal with |- context [if ?c =? 0 then _ else _] => destruct (c =? 0) end; eauto.
Qed.

(** No class was asked for. *)
Definition final_budget (cs : list call) : option (option N) :=
  match asked_budget cs, asked_rate cs with
  | Some b, _ => Some (Some b)
  | None, Some f => option_map Some (budget_default f)
  | None, None => Some None
  end.
Definition final_deadline (cs : list call) : option (option N) :=
  match asked_deadline cs, asked_rate cs with
  | Some b, _ => Some (Some b)
  | None, Some f => option_map Some (deadline_default f)
  | None, None => Some (asked_budget cs)
  end.
Definition timedb (cs : list call) : bool := set (asked_rate cs) || set (asked_budget cs) || set (asked_deadline cs).
Definition auto_of (cs : list call) : bool := set (asked_rate cs) && negb (set (asked_deadline cs)).
Definition rt_reg (cs : list call) (b d : option N) : reg :=
  Reg (over (asked_order cs) 0) (asked_rate cs) true b d (asked_failure cs)
      (over (asked_miss cs) MissWarn) RtClass (asked_prio cs) (asked_core cs)
      (asked_watchdog cs) (over (asked_bpolicy cs) BWarn)
      (existsb (fun c => match c with CEdf => true | _ => false end) cs) (noalloc_of cs) (asked_fresh cs) (auto_of cs).
Definition zero (o : option N) : bool := match o with Some x => x =? 0 | None => false end.
Lemma finalize_timed cs : asked_class cs = None -> timedb cs = true ->
  finalize (the_reg cs) = match final_budget cs, final_deadline cs with
                          | Some b, Some d => Some (rt_reg cs b d)
                          | _, _ => None
                          end.
Proof.
  intros K T. unfold the_reg. rewrite K. cbn [over]. fold (noalloc_of cs).
  unfold finalize, rt_reg, final_budget, final_deadline, timedb, auto_of in *.
  destruct (asked_rate cs) as [f|], (asked_budget cs) as [b|], (asked_deadline cs) as [d|]; try discriminate T;
    cbn; try reflexivity.
  - destruct (deadline_default f); reflexivity.
  - destruct (budget_default f); reflexivity.
  - destruct (budget_default f), (deadline_default f); reflexivity.
Qed.
Lemma build_untimed cs : asked_class cs = None -> timedb cs = false ->
  build cs = if noalloc_of cs then Refused ENoAlloc else Built (the_reg cs).
Proof.
  intros K T. unfold build. rewrite fold_reg. unfold validate.
  assert (finalize (the_reg cs) = Some (the_reg cs)) as ->.
  { unfold the_reg. rewrite K. cbn [over]. unfold finalize, timedb in *.
    destruct (asked_rate cs), (asked_budget cs), (asked_deadline cs); try discriminate T. reflexivity. }
  unfold check, the_reg. rewrite K. fold (noalloc_of cs). cbn [over].
  cbn [r_order r_rate r_rt r_budget r_deadline r_failure r_miss r_class r_prio r_core r_watchdog
       r_bpolicy r_edf r_noalloc r_fresh r_auto]. unfold timedb in T.
  destruct (asked_rate cs), (asked_budget cs), (asked_deadline cs); try discriminate T.
  cbn. destruct (asked_fresh cs), (noalloc_of cs); reflexivity.
Qed.
Lemma build_timed cs : wf cs -> asked_class cs = None -> timedb cs = true ->
  build cs = match final_budget cs, final_deadline cs with
             | Some b, Some d =>
                 if zero d then Refused EDeadline else if zero b then Refused EBudget
                 else match asked_fresh cs with [] => Built (rt_reg cs b d) | _ => Refused EFresh end
             | _, _ => Panicked
             end.
Proof.
  intros W K T. unfold build. rewrite fold_reg. unfold validate. rewrite (finalize_timed cs K T).
  destruct (final_budget cs) as [b|], (final_deadline cs) as [d|]; try reflexivity.
  unfold check, rt_reg. cbn [r_order r_rate r_rt r_budget r_deadline r_failure r_miss r_class r_prio r_core r_watchdog
       r_bpolicy r_edf r_noalloc r_fresh r_auto]. rewrite (wf_rate_ok cs W). fold (zero d) (zero b).
  destruct (zero d), (zero b); try reflexivity.
  destruct (asked_fresh cs); cbn; rewrite ?andb_false_r; reflexivity.
Qed.

Lemma final_timing cs b d : wf cs -> final_budget cs = Some b -> final_deadline cs = Some d ->
  timing cs b d /\ (forall x, b = Some x -> x <= dur_max) /\ (forall x, d = Some x -> x <= dur_max).
Proof.
  intros W. unfold final_budget, final_deadline, timing.
  pose proof (wf_rate cs) as WR. pose proof (wf_budget cs) as WB. pose proof (wf_deadline cs) as WD.
  destruct (asked_budget cs) as [b0|], (asked_deadline cs) as [d0|], (asked_rate cs) as [f|]; intros HB HD;
    try (destruct (WR _ W eq_refl) as [Hn Hd]);
    try (destruct (budget_default f) as [b1|] eqn:E1; cbn [option_map] in HB; [|discriminate HB];
         apply (budget_share f b1 Hn) in E1 as [E1 M1]);
    try (destruct (deadline_default f) as [d1|] eqn:E2; cbn [option_map] in HD; [|discriminate HD];
         apply (deadline_share f d1 Hn) in E2 as [E2 M2]);
    injection HB as <-; injection HD as <-; (split; [split|split]); try reflexivity; eauto;
    intros x Hx; try discriminate Hx; injection Hx as <-; eauto.
Qed.
Lemma timing_final cs b d : wf cs -> timing cs b d -> usable b -> usable d ->
  final_budget cs = Some b /\ final_deadline cs = Some d.
Proof.
  intros W. unfold final_budget, final_deadline, timing. pose proof (wf_rate cs) as WR. intros [HB HD] UB UD.
  destruct (asked_budget cs) as [b0|], (asked_deadline cs) as [d0|], (asked_rate cs) as [f|];
    try (destruct (WR _ W eq_refl) as [Hn Hd]);
    try (destruct HB as (x & -> & HB); cbn [usable] in UB;
         rewrite (proj2 (budget_share f x Hn)) by (split; [exact HB|lia]));
    try (destruct HD as (y & -> & HD); cbn [usable] in UD;
         rewrite (proj2 (deadline_share f y Hn)) by (split; [exact HD|lia]));
    subst; auto.
Qed.
Lemma timedb_spec cs : timedb cs = true <-> timed cs.
Proof.
  unfold timedb, timed. destruct (asked_rate cs), (asked_budget cs), (asked_deadline cs); cbn; split; intros H;
    try reflexivity; try (left; discriminate); try (right; left; discriminate); try (right; right; discriminate);
    try discriminate; destruct H as [H|[H|H]]; congruence.
Qed.
Lemma zero_usable o : (forall x, o = Some x -> x <= dur_max) -> (zero o = false <-> usable o).
Proof.
  intros H. destruct o as [x|]; cbn [zero usable]; [|tauto]. specialize (H x eq_refl). rewrite N.eqb_neq. lia.
Qed.

Lemma accepts cs : wf cs ->
  (exists r, build cs = Built r) <->
  match asked_class cs with
  | Some k => k <> Event [] /\ asked_budget cs = None /\ asked_deadline cs = None /\ ~ In CNoAlloc cs /\
              asked_fresh cs = []
  | None => (~ timed cs /\ ~ In CNoAlloc cs) \/
            (timed cs /\ asked_fresh cs = [] /\ exists b d, timing cs b d /\ usable b /\ usable d)
  end.
Proof.
  intros W. destruct (asked_class cs) as [k|] eqn:K.
  - destruct (build_classed cs k W K) as [B1 B2].
    rewrite <- noalloc_In. split.
    + intros [r Hr]. destruct (classed_ok k cs) eqn:C; [|destruct (B2 eq_refl); congruence].
      unfold classed_ok in C.
      destruct (asked_budget cs), (asked_deadline cs), (noalloc_of cs), (asked_fresh cs), k as [| | | |[|? ?]];
        try discriminate C; (split; [discriminate|]; split; [reflexivity|]; split; [reflexivity|]; split;
        [discriminate|reflexivity]).
    + intros (H1 & H2 & H3 & H4 & H5). exists (the_reg cs). apply B1. unfold classed_ok. rewrite H2, H3, H5.
      destruct (noalloc_of cs); [congruence|]. destruct k as [| | | |[|? ?]]; try reflexivity. congruence.
  - destruct (timedb cs) eqn:T.
    + pose proof (proj1 (timedb_spec cs) T) as T'. rewrite (build_timed cs W K T). split.
      * intros [r Hr]. right. split; [exact T'|].
        destruct (final_budget cs) as [b|] eqn:FB, (final_deadline cs) as [d|] eqn:FD; try discriminate Hr.
        destruct (final_timing cs b d W FB FD) as (HT & MB & MD).
        destruct (zero d) eqn:ZD; [discriminate|]. destruct (zero b) eqn:ZB; [discriminate|].
        destruct (asked_fresh cs); [|discriminate]. split; [reflexivity|]. exists b, d.
        split; [exact HT|]. split; apply zero_usable; assumption.
      * intros [[H _]|(_ & F & b & d & HT & UB & UD)]; [contradiction|].
        destruct (timing_final cs b d W HT UB UD) as [FB FD]. rewrite FB, FD, F.
        assert (M : forall o, usable o -> forall x, o = Some x -> x <= dur_max).
        { intros o U x ->. cbn [usable] in U. lia. }
        rewrite (proj2 (zero_usable d (M d UD)) UD), (proj2 (zero_usable b (M b UB)) UB). eauto.
    + assert (T' : ~ timed cs) by (rewrite <- timedb_spec; congruence).
      rewrite (build_untimed cs K T), <- noalloc_In. split.
      * intros [r Hr]. left. split; [exact T'|]. destruct (noalloc_of cs); discriminate.
      * intros [[_ H]|[H _]]; [|contradiction]. destruct (noalloc_of cs); [congruence|eauto].
Qed.

(** What was built. *)
Lemma edf_In cs : existsb (fun c => match c with CEdf => true | _ => false end) cs = true <-> In CEdf cs.
Proof.
  rewrite existsb_exists. split.
  - intros (c & Hc & E). destruct c; try discriminate. exact Hc.
  - intros H. exists CEdf. auto.
Qed.
Lemma built_all cs r : wf cs -> build cs = Built r ->
  asked_all cs r /\
  match asked_class cs with
  | Some k => r_class r = k /\ r_rt r = false /\ r_budget r = None /\ r_deadline r = None
  | None => (timed cs /\ r_class r = RtClass /\ r_rt r = true /\ timing cs (r_budget r) (r_deadline r) /\
             usable (r_budget r) /\ usable (r_deadline r) /\ r_deadline r <> None) \/
            (~ timed cs /\ r_class r = BestEffort /\ r_rt r = false /\ r_budget r = None /\ r_deadline r = None)
  end.
Proof.
  intros W H. destruct (asked_class cs) as [k|] eqn:K.
  - destruct (build_classed cs k W K) as [B1 B2].
    destruct (classed_ok k cs) eqn:C; [|destruct (B2 eq_refl); congruence].
    rewrite B1 in H by reflexivity. injection H as <-. split.
    + unfold asked_all, the_reg. cbn. rewrite edf_In. fold (noalloc_of cs). rewrite noalloc_In. tauto.
    + unfold the_reg. cbn. rewrite K. unfold classed_ok in C.
      destruct (asked_budget cs), (asked_deadline cs); try (rewrite !andb_false_r in C; discriminate C).
      split; [reflexivity|split; [reflexivity|split; reflexivity]].
  - destruct (timedb cs) eqn:T.
    + pose proof (proj1 (timedb_spec cs) T) as T'. rewrite (build_timed cs W K T) in H.
      destruct (final_budget cs) as [b|] eqn:FB, (final_deadline cs) as [d|] eqn:FD; try discriminate H.
      destruct (final_timing cs b d W FB FD) as (HT & MB & MD).
      destruct (zero d) eqn:ZD; [discriminate|]. destruct (zero b) eqn:ZB; [discriminate|].
      destruct (asked_fresh cs) eqn:F; [|discriminate]. injection H as <-. split.
      * unfold asked_all, rt_reg. cbn. rewrite edf_In, noalloc_In. tauto.
      * left. cbn. split; [exact T'|]. split; [reflexivity|]. split; [reflexivity|]. split; [exact HT|].
        split; [apply zero_usable; assumption|]. split; [apply zero_usable; assumption|].
        intros ->. unfold final_deadline in FD. unfold timedb in T.
        destruct (asked_deadline cs), (asked_rate cs) as [f|], (asked_budget cs); try discriminate; 
          destruct (deadline_default f); discriminate.
    + assert (T' : ~ timed cs) by (rewrite <- timedb_spec; congruence).
      rewrite (build_untimed cs K T) in H. destruct (noalloc_of cs) eqn:NA; [discriminate|]. injection H as <-. split.
      * unfold asked_all, the_reg. cbn. rewrite edf_In. fold (noalloc_of cs). rewrite noalloc_In. tauto.
      * right. unfold the_reg. cbn. rewrite K. unfold timedb in T.
        destruct (asked_rate cs), (asked_budget cs), (asked_deadline cs); try discriminate T.
        split; [exact T'|split; [reflexivity|split; [reflexivity|split; reflexivity]]].
Qed.
Lemma tail_built b d (l : list (bytes * N)) r :
  (if zero d then Refused EDeadline else if zero b then Refused EBudget
   else match l with [] => Built r | _ => Refused EFresh end) <> Panicked.
Proof. destruct (zero d), (zero b), l; discriminate. Qed.
Lemma panics cs : wf cs -> (build cs = Panicked <->
  asked_class cs = None /\ exists f, asked_rate cs = Some f /\
    ((asked_budget cs = None /\ budget_default f = None) \/ (asked_deadline cs = None /\ deadline_default f = None))).
Proof.
  intros W. destruct (asked_class cs) as [k|] eqn:K.
  - destruct (build_classed cs k W K) as [B1 B2]. split; [|intros [H _]; discriminate].
    destruct (classed_ok k cs); [rewrite B1|destruct (B2 eq_refl) as [e ->]]; try reflexivity; discriminate.
  - destruct (timedb cs) eqn:T.
    + rewrite (build_timed cs W K T). unfold final_budget, final_deadline, timedb in *.
      split.
      * intros H. split; [reflexivity|].
        destruct (asked_rate cs) as [f|], (asked_budget cs) as [b|], (asked_deadline cs) as [d|]; try discriminate T.
        all: try (apply tail_built in H; contradiction).
        -- exists f. split; [reflexivity|]. right. split; [reflexivity|].
           destruct (deadline_default f); [|reflexivity]. apply tail_built in H. contradiction.
        -- exists f. split; [reflexivity|]. left. split; [reflexivity|].
           destruct (budget_default f); [|reflexivity]. apply tail_built in H. contradiction.
        -- exists f. split; [reflexivity|].
           destruct (budget_default f); [|left; auto]. destruct (deadline_default f); [|right; auto].
           apply tail_built in H. contradiction.
      * intros (_ & f & -> & [[-> E]|[-> E]]).
        -- rewrite E. reflexivity.
        -- rewrite E. cbn [option_map]. destruct (asked_budget cs); [reflexivity|]. destruct (budget_default f); reflexivity.
    + rewrite (build_untimed cs K T). unfold timedb in T. split.
      * destruct (noalloc_of cs); discriminate.
      * intros (_ & f & E & _). rewrite E in T. discriminate T.
Qed.

(** ** Names *)
Lemma hex_printable d : d < 16 -> 48 <= hex d < 127.
Proof. unfold hex. destruct (d <? 10) eqn:E; bool_prop; lia. Qed.
Lemma control_small c : control c = true -> c < 160.
Proof. unfold control. destruct (c <? 32) eqn:E1, (127 <=? c) eqn:E2, (c <=? 159) eqn:E3; try discriminate; lia. Qed.
Lemma not_control c : 32 <= c < 127 -> control c = false.
Proof. intros H. unfold control. apply orb_false_iff. split; [apply N.ltb_ge; lia|]. apply andb_false_iff. left. apply N.leb_gt. lia. Qed.
Lemma escape_clean s c : In c (escape s) -> control c = false.
Proof.
  unfold escape. rewrite in_flat_map. intros (x & _ & H). destruct (control x) eqn:E.
  - pose proof (control_small x E) as L.
    assert (x / 16 < 16) by (apply N.div_lt_upper_bound; lia).
    assert (x mod 16 < 16) by (apply N.mod_lt; lia).
    cbn [escaped In] in H. destruct H as [<-|[<-|[<-|[<-|[]]]]]; apply not_control; try lia.
    + pose proof (hex_printable (x / 16)). lia.
    + pose proof (hex_printable (x mod 16)). lia.
  - destruct H as [<-|[]]. exact E.
Qed.
Lemma escape_id s : (forall c, In c s -> control c = false) -> escape s = s.
Proof.
  unfold escape. induction s as [|c s IH]; intros H; [reflexivity|]. cbn [flat_map].
  rewrite (H c (or_introl eq_refl)), IH; [reflexivity|]. intros x Hx. apply H. right. exact Hx.
Qed.
Lemma escape_app a b : escape (a ++ b) = escape a ++ escape b.
Proof. unfold escape. apply flat_map_app. Qed.
Lemma escape_collide a c b : control c = true -> escape (a ++ c :: b) = escape (a ++ escaped c ++ b).
Proof.
  intros H. rewrite !escape_app. f_equal.
  change (escape (c :: b)) with ((if control c then escaped c else [c]) ++ escape b). rewrite H.
  f_equal. symmetry. apply escape_id. intros x Hx. apply (escape_clean [c]). unfold escape. cbn [flat_map]. rewrite H, app_nil_r. exact Hx.
Qed.

Definition NInv (ns : names) (l : list (list N)) : Prop :=
  n_list ns = map escape l /\ (n_dup ns = None <-> NoDup (map escape l)) /\
  (forall d, n_dup ns = Some d -> exists a i j b, i <> j /\ nth_error l i = Some a /\ nth_error l j = Some b /\
                                               escape a = d /\ escape b = d).
Lemma existsb_In e l : existsb (beqb e) l = true <-> In e l.
Proof.
  rewrite existsb_exists. split.
  - intros (x & Hx & E). apply beqb_spec in E. subst. exact Hx.
  - intros H. exists e. split; [exact H|apply beqb_spec; reflexivity].
Qed.
Lemma NoDup_snoc {A} (l : list A) x : NoDup (l ++ [x]) <-> NoDup l /\ ~ In x l.
Proof.
  split.
  - intros H. apply NoDup_remove in H. rewrite app_nil_r in H. exact H.
  - intros [H1 H2]. induction l as [|a l IH]; cbn; [repeat constructor; auto|].
    inversion H1; subst. constructor.
    + rewrite in_app_iff. intros [H|[->|[]]]; [contradiction|]. apply H2. left. reflexivity.
    + apply IH; [assumption|]. intros H. apply H2. right. exact H.
Qed.
Lemma NInv_all l : NInv (add_all l) l.
Proof.
  unfold add_all. induction l as [|x l IH] using rev_ind.
  - split; [reflexivity|]. split; [split; [constructor|reflexivity]|discriminate].
  - rewrite fold_left_app. cbn [fold_left]. destruct IH as (I1 & I2 & I3).
    destruct (fold_left register l (Names [] None)) as [L D]. unfold NInv, register in *. cbn [n_list n_dup] in *.
    rewrite I1, map_app. cbn [map]. split; [reflexivity|].
    destruct (existsb (beqb (escape x)) (map escape l)) eqn:E.
    + apply existsb_In in E. split.
      * split; [discriminate|]. intros H. apply NoDup_snoc in H as [_ H]. contradiction.
      * intros d Hd. injection Hd as <-. apply in_map_iff in E as (y & Ey & Hy).
        apply In_nth_error in Hy as (i & Hi). assert (i < length l)%nat by (apply nth_error_Some; congruence).
        exists y, i, (length l), x. split; [lia|].
        rewrite nth_error_app1 by assumption. rewrite nth_error_app2, Nat.sub_diag by lia. auto.
    + assert (N : ~ In (escape x) (map escape l)) by (rewrite <- existsb_In; congruence). split.
      * rewrite I2, NoDup_snoc. tauto.
      * intros d Hd. destruct (I3 d Hd) as (a & i & j & b & Dij & Hi & Hj & Ea & Eb). exists a, i, j, b.
        rewrite !nth_error_app1 by (apply nth_error_Some; congruence). auto.
Qed.

(** ** Threads *)
Lemma own_settings cpus cs r : wf cs -> build cs = Built r -> r_class r = RtClass ->
  let t := thread_of cpus [r] in
  t_prio t = over (asked_prio cs) 80%Z /\
  t_cpus t = match asked_core cs with Some c => [c] | None => cpus end /\
  (forall f, In CEdf cs -> asked_rate cs = Some f ->
     exists b d, t_edf t = Some (b, d, 1000000000 * hz_den f / hz_num f) /\ r_budget r = Some b /\ r_deadline r = Some d).
Proof.
  intros W H C. destruct (built_all _ _ W H) as [(A1 & A2 & A3 & A4 & A5 & A6 & A7 & A8 & A9 & A10 & A11) B].
  cbn [thread_of t_prio t_cpus t_edf]. split.
  { unfold max_prio. cbn [flat_map]. rewrite A5. destruct (asked_prio cs); reflexivity. }
  split.
  { cbn [flat_map]. rewrite A6. destruct (asked_core cs); reflexivity. }
  intros f He Hf. cbn [existsb]. rewrite (proj2 A9 He). cbn [orb].
  assert (T : timing cs (r_budget r) (r_deadline r) /\ r_deadline r <> None).
  { destruct (asked_class cs) as [k|] eqn:K.
    - destruct (asked_not_best cs) as [_ NR]. rewrite K in NR. destruct B as (B & _). congruence.
    - destruct B as [(_ & _ & _ & T & _ & _ & D)|(_ & B & _)]; [auto|congruence]. }
  destruct T as [[T1 T2] D]. rewrite Hf in T1.
  assert (exists b, r_budget r = Some b) as [b Eb].
  { destruct (asked_budget cs); [eauto|]. destruct T1 as (x & E & _). eauto. }
  destruct (r_deadline r) as [d|] eqn:Ed; [|congruence]. exists b, d.
  unfold edf_node, edf_params. cbn [find]. rewrite Eb, A2, Hf. cbn [set andb option_map]. rewrite Eb, Ed, A2, Hf. auto.
Qed.
Lemma pool_single fallback cpus (f : nat -> reg) rt : forall i ts,
  start_pool fallback cpus i (map (fun x => [f x]) rt) = Some ts ->
  length ts = length rt /\
  forall j x, nth_error rt j = Some x -> exists p, thread_period fallback [f x] = Some p /\
    nth_error ts j = Some (p, thread_of (match cpus with [] => [] | _ => [nth ((i + j) mod length cpus) cpus 0] end) [f x]).
Proof.
  induction rt as [|x rt IH]; intros i ts H; cbn [map start_pool] in H.
  - injection H as <-. split; [reflexivity|]. intros [|j] x; discriminate.
  - cbn [sort_regs fold_right put_reg] in H.
    destruct (thread_period fallback [f x]) as [p|] eqn:E; [|discriminate].
    destruct (start_pool fallback cpus (S i) (map (fun x => [f x]) rt)) as [ts'|] eqn:E'; [|discriminate].
    injection H as <-. destruct (IH _ _ E') as [L N]. split; [cbn; congruence|].
    intros [|j] y Hy; cbn [nth_error] in *.
    + injection Hy as <-. exists p. split; [exact E|]. rewrite Nat.add_0_r. reflexivity.
    + destruct (N j y Hy) as (q & Q1 & Q2). exists q. split; [exact Q1|]. rewrite Nat.add_succ_r. exact Q2.
Qed.
