From Verif Require Import Base.Prelude Model.FailurePolicy Spec.FailurePolicySpec.
Local Open Scope N_scope.

Lemma mod_succ_lt M s : 0 < M -> s mod M + 1 < M -> (s + 1) mod M = s mod M + 1.
Proof.
  intros H L. symmetry. apply (N.mod_unique (s + 1) M (s / M)); [lia|].
  pose proof (N.div_mod s M ltac:(lia)). lia.
Qed.
Lemma mod_succ_eq M s : 0 < M -> s mod M + 1 = M -> (s + 1) mod M = 0.
Proof.
  intros H L. symmetry. apply (N.mod_unique (s + 1) M (s / M + 1)); [lia|].
  pose proof (N.div_mod s M ltac:(lia)). lia.
Qed.

Lemma failures_le h : failures h <= N.of_nat (length h).
Proof. induction h as [|[t []] h IH]; cbn [failures length]; lia. Qed.
Lemma streak_le h : streak h <= failures h.
Proof. induction h as [|[t []] h IH]; cbn [failures streak]; lia. Qed.

Lemma backoff_eq b k : dur_mul_sat b (pow2_sat (k - 1)) = backoff_spec b k.
Proof. reflexivity. Qed.
Lemma backoff_longest b k : backoff_spec b k <= N.min (b * 4294967295) dur_max.
Proof.
  unfold backoff_spec.
  assert (b * N.min (2 ^ (k - 1)) 4294967295 <= b * 4294967295)
    by (apply N.mul_le_mono_l; lia).
  lia.
Qed.

(** Handler state as a function of the history; [at] bounds the past times. *)
Definition R (p : policy) (h : past) (at_ : N) (s : hstate) : Prop :=
  match p with
  | PFatal => s = HFatal
  | PIgnore => s = HIgnore
  | PRestart m b =>
      failures h <= m /\
      s = HRestart (failures h) m b
            (match h with (t, false) :: _ => Some (t + backoff_spec b (failures h)) | _ => None end)
  | PSkip m c =>
      exists u, s = HSkip (streak h mod N.max 1 m) m c u /\
        match u with
        | None => hold_until p h = 0
        | Some x => x = hold_until p h \/ (x <= at_ /\ hold_until p h = 0)
        end
  end.

Lemma R_new p : R p [] 0 (h_new p).
Proof.
  destruct p; cbn [R h_new]; try reflexivity.
  - cbn [failures]; split; [lia|reflexivity].
  - exists None. split; [|reflexivity]. cbn [streak].
    rewrite N.mod_0_l by lia. reflexivity.
Qed.

Lemma R_allow p h at_ s now :
  R p h at_ s -> at_ <= now -> h_allow s now = negb (now <? hold_until p h).
Proof.
  intros HR L. destruct p as [|m b|m c|]; cbn [R] in HR.
  - subst. destruct h as [|[t []] h]; cbn [hold_until h_allow]; lia.
  - destruct HR as [_ ->]. destruct h as [|[t []] h]; cbn [hold_until h_allow]; lia.
  - destruct HR as (u & -> & Hu). cbn [h_allow]. destruct u; lia.
  - subst. destruct h as [|[t []] h]; cbn [hold_until h_allow]; lia.
Qed.

Lemma R_mono p h a a' s : R p h a s -> a <= a' -> R p h a' s.
Proof.
  intros HR L. destruct p; cbn [R] in *; auto.
  destruct HR as (u & -> & Hu). exists u. split; [reflexivity|]. destruct u; lia.
Qed.

Lemma R_success p h a s now :
  R p h a s -> R p ((now, true) :: h) now (h_success s).
Proof.
  destruct p as [|m b|m c|]; cbn [R]; intros HR.
  - subst; reflexivity.
  - destruct HR as [HL ->]. cbn [failures h_success]. rewrite N.add_0_l.
    split; [exact HL|reflexivity].
  - destruct HR as (u & -> & _). exists None. cbn [h_success streak hold_until].
    rewrite N.mod_0_l by lia. auto.
  - subst; reflexivity.
Qed.

Lemma R_failure lim p h a s now :
  R p h a s -> a <= now -> failures h < 4294967295 ->
  now + longest_hold p <= lim -> hold_until p h <= now ->
  exists s', h_failure lim s now = Some (s', answer_spec p ((now, false) :: h)) /\
    (stops (answer_spec p ((now, false) :: h)) = false ->
     R p ((now, false) :: h) now s').
Proof.
  intros HR L Hf Hlim Hh.
  destruct p as [|m b|m c|]; cbn [R] in HR.
  - subst. eexists. split; [reflexivity|]. cbn. discriminate.
  - destruct HR as [HL ->]. cbn [h_failure answer_spec].
    replace ((failures h + 1) mod u32_mod) with (failures h + 1)
      by (symmetry; apply N.mod_small; unfold u32_mod; lia).
    cbn [failures]. rewrite (N.add_comm 1 (failures h)).
    destruct (N.ltb_spec m (failures h + 1)).
    + eexists. split; [reflexivity|]. cbn. discriminate.
    + rewrite backoff_eq.
      pose proof (backoff_longest b (failures h + 1)) as HB.
      cbn [longest_hold] in Hlim.
      destruct (N.leb_spec (now + backoff_spec b (failures h + 1)) lim); [|lia].
      eexists. split; [reflexivity|]. intros _. cbn [R failures].
      rewrite (N.add_comm 1 (failures h)). split; [lia|reflexivity].
  - destruct HR as (u & -> & Hu). cbn [h_failure answer_spec streak].
    set (M := N.max 1 m) in *.
    assert (HM : 0 < M) by (subst M; lia).
    pose proof (N.mod_lt (streak h) M ltac:(lia)) as Hlt.
    assert (Hss : streak h mod M <= streak h) by (apply N.mod_le; lia).
    pose proof (streak_le h) as Hsf.
    replace ((streak h mod M + 1) mod u32_mod) with (streak h mod M + 1)
      by (symmetry; apply N.mod_small; unfold u32_mod; lia).
    rewrite (N.add_comm 1 (streak h)).
    cbn [longest_hold] in Hlim.
    destruct (N.leb_spec m (streak h mod M + 1)) as [Hm|Hm].
    + assert (E : (streak h + 1) mod M = 0) by (apply mod_succ_eq; subst M; lia).
      rewrite E, N.eqb_refl.
      destruct (N.leb_spec (now + c) lim); [|lia].
      eexists. split; [reflexivity|]. intros _. cbn [R].
      exists (Some (now + c)). cbn [streak hold_until]. fold M.
      rewrite (N.add_comm 1 (streak h)), E, N.eqb_refl. auto.
    + assert (E : (streak h + 1) mod M = streak h mod M + 1)
        by (apply mod_succ_lt; subst M; lia).
      rewrite E. destruct (N.eqb_spec (streak h mod M + 1) 0); [lia|].
      eexists. split; [reflexivity|]. intros _. cbn [R].
      exists u. cbn [streak hold_until]. fold M.
      rewrite (N.add_comm 1 (streak h)), E.
      destruct (N.eqb_spec (streak h mod M + 1) 0); [lia|].
      split; [reflexivity|]. destruct u; [|reflexivity]. right. split; [|reflexivity]. lia.
  - subst. eexists. split; [reflexivity|]. intros _; reflexivity.
Qed.

Lemma stopped_run lim n p h offers :
  fn_stopped n = true -> fn_run lim n offers = run_spec p h true offers.
Proof.
  intros Hs. induction offers as [|[t ok] r IH]; [reflexivity|].
  cbn [fn_run run_spec]. unfold fn_offer. rewrite Hs. f_equal. exact IH.
Qed.

Lemma run_refines lim p : forall offers h a s,
  R p h a s -> monotone a offers ->
  failures h + N.of_nat (length offers) < 4294967296 ->
  (forall t ok, In (t, ok) offers -> t + longest_hold p <= lim) ->
  fn_run lim {| fn_handler := Some s; fn_stopped := false |} offers =
  run_spec p h false offers.
Proof.
  induction offers as [|[now ok] r IH]; intros h a s HR Hm Hl Hlim; [reflexivity|].
  cbn [monotone] in Hm. destruct Hm as [Ha Hm]. cbn [length] in Hl.
  cbn [fn_run run_spec]. unfold fn_offer. cbn [fn_stopped fn_handler].
  rewrite (R_allow p h a s now HR Ha).
  destruct (N.ltb_spec now (hold_until p h)) as [Hh|Hh]; cbn [negb].
  - f_equal. apply (IH h now s); auto.
    + exact (R_mono p h a now s HR Ha).
    + lia.
    + intros; apply Hlim with ok0; right; assumption.
  - unfold fn_exec. cbn [fn_handler fn_stopped]. destruct ok.
    + f_equal. apply (IH _ now); auto.
      * apply (R_success p h a). exact HR.
      * cbn [failures]. lia.
      * intros; apply Hlim with ok; right; assumption.
    + destruct (R_failure lim p h a s now HR Ha) as (s' & E & HR'); auto; try lia.
      { apply Hlim with false. left; reflexivity. }
      rewrite E. f_equal.
      destruct (stops (answer_spec p ((now, false) :: h))) eqn:Est.
      * apply stopped_run. reflexivity.
      * apply (IH _ now); auto.
        -- cbn [failures]. lia.
        -- intros; apply Hlim with ok; right; assumption.
Qed.

Lemma monotone_0 offers : forall a, monotone a offers -> monotone 0 offers.
Proof. intros a; destruct offers as [|[t ok] r]; cbn; [auto|]. intros [_ H]; split; [lia|exact H]. Qed.

Lemma new_refines lim p offers :
  monotone 0 offers -> in_range lim p offers ->
  fn_run lim (fn_new (Some p)) offers = run_spec p [] false offers.
Proof.
  intros Hm [Hl Hlim]. unfold fn_new. apply (run_refines lim p offers [] 0).
  - apply R_new.
  - exact Hm.
  - cbn [failures]. lia.
  - exact Hlim.
Qed.

(** ** Consequences, proved on the specification run. *)
Lemma spec_stopped p h offers : forall s,
  In s (run_spec p h true offers) -> s = Stopped.
Proof.
  induction offers as [|[t ok] r IH]; cbn [run_spec In]; intros s; [tauto|].
  intros [<-|H]; auto.
Qed.
Lemma restarts_stopped p h offers : restarts (run_spec p h true offers) = 0.
Proof.
  induction offers as [|[t ok] r IH]; [reflexivity|].
  cbn [run_spec]. unfold restarts in *. cbn [filter is_restart]. exact IH.
Qed.
Lemma restarts_cons s ss :
  restarts (s :: ss) = (if is_restart s then 1 else 0) + restarts ss.
Proof. unfold restarts. cbn [filter]. destruct (is_restart s); cbn [length]; lia. Qed.
Lemma restarts_app a b : restarts (a ++ b) = restarts a + restarts b.
Proof. unfold restarts. rewrite filter_app, app_length. lia. Qed.

Lemma spec_restart_bound m b : forall offers h,
  failures h <= m ->
  failures h + restarts (run_spec (PRestart m b) h false offers) <= m.
Proof.
  induction offers as [|[t ok] r IH]; intros h Hh.
  - cbn [run_spec]. unfold restarts; cbn. lia.
  - cbn [run_spec]. destruct (t <? _) eqn:E1.
    + rewrite restarts_cons. cbn [is_restart]. specialize (IH h Hh). lia.
    + destruct ok.
      * rewrite restarts_cons. cbn [is_restart].
        specialize (IH ((t, true) :: h)). cbn [failures] in IH. lia.
      * rewrite restarts_cons. cbn [answer_spec failures].
        destruct (N.ltb_spec m (1 + failures h)); cbn [is_restart stops].
        -- rewrite restarts_stopped. lia.
        -- specialize (IH ((t, false) :: h)). cbn [failures] in IH. lia.
Qed.

Lemma spec_fatal_exact m b : forall offers h,
  failures h <= m ->
  In (Failed FatalAfterRestarts) (run_spec (PRestart m b) h false offers) ->
  failures h + restarts (run_spec (PRestart m b) h false offers) = m.
Proof.
  induction offers as [|[t ok] r IH]; intros h Hh HI.
  - destruct HI.
  - cbn [run_spec] in *. destruct (t <? _) eqn:E1.
    + rewrite restarts_cons. cbn [is_restart]. destruct HI as [HI|HI]; [discriminate|].
      specialize (IH h Hh HI). lia.
    + destruct ok.
      * rewrite restarts_cons. cbn [is_restart]. destruct HI as [HI|HI]; [discriminate|].
        specialize (IH ((t, true) :: h)). cbn [failures] in IH.
        rewrite N.add_0_l in IH. specialize (IH Hh HI). lia.
      * rewrite restarts_cons. cbn [answer_spec failures] in *.
        destruct (N.ltb_spec m (1 + failures h)); cbn [is_restart stops] in *.
        -- rewrite restarts_stopped. lia.
        -- destruct HI as [HI|HI]; [discriminate|].
           specialize (IH ((t, false) :: h)). cbn [failures] in IH. lia.
Qed.

(** Inside a run, after step [i] the rest is a run from a longer history. *)
Lemma spec_held_run p : forall offers h d j t ok,
    (forall k t' ok', (k <= j)%nat -> nth_error offers k = Some (t', ok') -> t' <= t) ->
    nth_error offers j = Some (t, ok) ->
    t < hold_until p h ->
    nth_error (run_spec p h false offers) j = Some d -> d = Held.
Proof.
  induction offers as [|[t0 ok0] r IH]; intros h d j t ok Hm Hj Ht Hd.
  - destruct j; discriminate.
  - cbn [run_spec] in Hd.
    assert (t0 <= t) by (apply (Hm 0%nat t0 ok0); [lia|reflexivity]).
    replace (t0 <? hold_until p h) with true in Hd by (symmetry; apply N.ltb_lt; lia).
    destruct j as [|j]; cbn in Hj, Hd.
    + congruence.
    + apply (IH h d j t ok); auto.
      intros k t' ok' Hk E. apply (Hm (S k) t' ok'); [lia|exact E].
Qed.

Lemma monotone_nth a offers : monotone a offers -> forall j t ok k t' ok',
  (k <= j)%nat -> nth_error offers k = Some (t', ok') -> nth_error offers j = Some (t, ok) ->
  t' <= t /\ a <= t'.
Proof.
  revert a. induction offers as [|[t0 ok0] r IH]; intros a Hm j t ok k t' ok' Hk E1 E2.
  - destruct j; discriminate.
  - cbn [monotone] in Hm. destruct Hm as [Ha Hm]. destruct k as [|k].
    + cbn in E1. inv E1. split; [|lia]. destruct j as [|j]; cbn in E2.
      * inv E2. lia.
      * destruct (IH t' Hm j t ok j t ok) as [_ H]; auto.
    + destruct j as [|j]; [lia|]. cbn in E1, E2.
      destruct (IH t0 Hm j t ok k t' ok') as [H1 H2]; auto; [lia|]. split; lia.
Qed.

(** The steps after a failing one: the run continues from a history whose
    newest tick is that failure. *)
Lemma spec_split p : forall offers h i t ok a,
  nth_error offers i = Some (t, ok) ->
  nth_error (run_spec p h false offers) i = Some (Failed a) ->
  exists h', a = answer_spec p ((t, false) :: h') /\ ok = false /\
    failures h' + 0 >= failures h /\
    (forall m b, p = PRestart m b ->
       failures ((t, false) :: h') <= m ->
       failures ((t, false) :: h') = failures h + restarts (firstn (S i) (run_spec p h false offers))) /\
    (forall j, nth_error (run_spec p h false offers) (S i + j) =
       nth_error (run_spec p ((t, false) :: h') (stops a) (skipn (S i) offers)) j).
Proof.
  induction offers as [|[t0 ok0] r IH]; intros h i t ok a Ho Hr.
  - destruct i; discriminate.
  - cbn [run_spec] in *. destruct (t0 <? hold_until p h) eqn:E1.
    + destruct i as [|i]; cbn in Hr, Ho; [discriminate|].
      destruct (IH h i t ok a Ho Hr) as (h' & A & B & C & D & E).
      exists h'. repeat split; auto.
    + destruct ok0.
      * destruct i as [|i]; cbn in Hr, Ho; [discriminate|].
        destruct (IH ((t0, true) :: h) i t ok a Ho Hr) as (h' & A & B & C & D & E).
        exists h'. cbn [failures] in C. repeat split; auto; try lia.
      * destruct i as [|i]; cbn in Hr, Ho.
        -- inv Hr. inv Ho. exists h. repeat split; auto; try lia.
           ++ intros m b -> Hf. cbn [firstn]. rewrite restarts_cons.
              cbn [answer_spec]. cbn [failures] in Hf |- *.
              destruct (N.ltb_spec m (1 + failures h)); [lia|].
              cbn [is_restart]. unfold restarts; cbn [filter length]. lia.
        -- destruct (stops (answer_spec p ((t0, false) :: h))) eqn:Es.
           { apply nth_error_In in Hr. apply spec_stopped in Hr. discriminate. }
           destruct (IH ((t0, false) :: h) i t ok a Ho Hr) as (h' & A & B & C & D & E).
           exists h'. cbn [failures] in C. repeat split; auto; try lia.
           intros m b Hp Hf. rewrite (D m b Hp Hf).
           rewrite firstn_cons, restarts_cons. subst p. cbn [answer_spec failures] in *.
           destruct (N.ltb_spec m (1 + failures h)); [lia|].
           cbn [is_restart]. lia.
Qed.

Lemma nth_skipn {A} n : forall (l : list A) k, nth_error (skipn n l) k = nth_error l (n + k).
Proof.
  induction n as [|n IH]; intros [|x l] k; cbn; try reflexivity.
  - destruct k; reflexivity.
  - apply IH.
Qed.
