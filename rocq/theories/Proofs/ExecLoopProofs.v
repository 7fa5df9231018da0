(** Proofs about the executor loops. *)
From Verif Require Import Base.Prelude Model.ExecLoop Spec.ExecLoopSpec.

(** ** [mapi] *)
Lemma mapi_length : forall A B (f : nat -> A -> B) l k, length (mapi f k l) = length l.
Proof. induction l; intros; cbn; auto. Qed.
Lemma mapi_nth_error : forall A B (f : nat -> A -> B) l k i,
  nth_error (mapi f k l) i = option_map (f (k + i)) (nth_error l i).
Proof.
  induction l as [|a l IH]; intros k i; destruct i; cbn; auto.
  - now rewrite Nat.add_0_r.
  - rewrite IH. now replace (S k + i) with (k + S i) by lia.
Qed.
Lemma mapi_nth : forall A (f : nat -> A -> bool) l k i a,
  nth_error l i = Some a -> nth i (mapi f k l) false = f (k + i) a.
Proof.
  intros A f l k i a H. apply nth_error_nth. rewrite mapi_nth_error, H. reflexivity.
Qed.
Lemma mapi_mapi : forall A B C (f : nat -> A -> B) (g : nat -> B -> C) l k,
  mapi g k (mapi f k l) = mapi (fun i a => g i (f i a)) k l.
Proof. induction l; intros; cbn; f_equal; auto. Qed.
Lemma map_mapi : forall A B C (f : nat -> A -> B) (g : B -> C) l k,
  map g (mapi f k l) = mapi (fun i a => g (f i a)) k l.
Proof. induction l; intros; cbn; f_equal; auto. Qed.
Lemma mapi_ext : forall A B (f g : nat -> A -> B) l k,
  (forall i a, f i a = g i a) -> mapi f k l = mapi g k l.
Proof. induction l; intros; cbn; f_equal; auto. Qed.
Lemma mapi_id : forall A (f : nat -> A -> A) l k, (forall i a, f i a = a) -> mapi f k l = l.
Proof. induction l; intros; cbn; f_equal; auto. Qed.
Lemma existsb_nth_true : forall l i, nth i l false = true -> existsb (fun b => b) l = true.
Proof.
  induction l as [|b l IH]; intros [|i] H; cbn in *; try discriminate.
  - now subst.
  - rewrite (IH _ H). apply orb_true_r.
Qed.
Lemma existsb_mapi_false : forall A (f : nat -> A -> bool) l k,
  (forall i a, nth_error l i = Some a -> f (k + i) a = false) ->
  existsb (fun b => b) (mapi f k l) = false.
Proof.
  induction l as [|a l IH]; intros k H; cbn; auto.
  rewrite IH.
  - specialize (H 0 a eq_refl). rewrite Nat.add_0_r in H. now rewrite H.
  - intros i b Hi. specialize (H (S i) b Hi). now replace (S k + i) with (k + S i) by lia.
Qed.

(** ** Compute *)
Section ComputeFacts.
Import Compute.

Lemma run_app : forall period ps qs s,
  run period s (ps ++ qs) =
  (fst (run period (fst (run period s ps)) qs),
   snd (run period s ps) ++ snd (run period (fst (run period s ps)) qs)).
Proof.
  induction ps as [|p ps IH]; intros qs s; cbn [run app fst snd].
  - now destruct (run period s qs).
  - destruct (step period s p) as [s1 o]. rewrite IH.
    destruct (run period s1 ps) as [s2 os]. cbn [fst snd].
    now destruct (run period s2 qs).
Qed.
Lemma run_length : forall period ps s, length (snd (run period s ps)) = length ps.
Proof.
  induction ps as [|p ps IH]; intros s; cbn [run]; auto.
  destruct (step period s p) as [s1 o]. specialize (IH s1).
  destruct (run period s1 ps). cbn in *. now rewrite IH.
Qed.
Lemma run_snoc : forall period ps p s,
  run period s (ps ++ [p]) =
  (fst (step period (fst (run period s ps)) p),
   snd (run period s ps) ++ [snd (step period (fst (run period s ps)) p)]).
Proof.
  intros. rewrite run_app. cbn [run].
  now destruct (step period (fst (run period s ps)) p).
Qed.

Lemma working_app : forall ps qs os us, length ps = length os ->
  working_durations (ps ++ qs) (os ++ us)
  = working_durations ps os ++ working_durations qs us.
Proof.
  induction ps as [|p ps IH]; intros qs [|o os] us L; cbn in *; try discriminate; auto.
  rewrite IH by lia. now destruct (existsb _ _).
Qed.

(** The shedding flag is exactly "overloaded among the last three working passes". *)
Definition rel (period : N) (s : t) (w : list N) : Prop :=
  shedding s = existsb (fun e => (period <? e)%N) (lastn 3 w)
  /\ (shedding s = true ->
      0 < cool s <= 3 /\
      existsb (fun e => (period <? e)%N) (lastn (3 - cool s) w) = false
      /\ existsb (fun e => (period <? e)%N) (lastn (S (3 - cool s)) w) = true).

Lemma lastn_snoc : forall A n (l : list A) a, lastn (S n) (l ++ [a]) = lastn n l ++ [a].
Proof.
  intros. unfold lastn. rewrite app_length. cbn [length].
  replace (length l + 1 - S n) with (length l - n) by lia.
  rewrite skipn_app. replace (length l - n - length l) with 0 by lia. reflexivity.
Qed.
Lemma lastn_0 : forall A (l : list A), lastn 0 l = [].
Proof. intros. unfold lastn. rewrite Nat.sub_0_r. apply skipn_all. Qed.
Lemma existsb_lastn_mono : forall A (f : A -> bool) m n l, m <= n ->
  existsb f (lastn m l) = true -> existsb f (lastn n l) = true.
Proof.
  intros A f m n l L H. unfold lastn in *.
  rewrite existsb_exists in *. destruct H as (x & I & F). exists x; split; auto.
  replace (length l - m) with ((length l - n) + ((length l - m) - (length l - n))) in I by lia.
  generalize dependent (length l - m - (length l - n)). generalize dependent (length l - n).
  intros a b I.
  assert (skipn (a + b) l = skipn b (skipn a l)) as E.
  { clear. revert l. induction a; intros l; cbn; auto. destruct l; auto. now rewrite skipn_nil. }
  rewrite E in I. rewrite <- (firstn_skipn b (skipn a l)). apply in_or_app. now right.
Qed.

Lemma rel_step : forall period s p w,
  rel period s w ->
  let w' := w ++ working_durations [p] [snd (step period s p)] in
  rel period (fst (step period s p)) w'.
Proof.
  intros period s p w [R1 R2] w'. subst w'.
  unfold step. cbv zeta.
  destruct (existsb (fun b => b) (mapi (ready (shedding s) p) 0 (mapi (raised p) 0 (nodes s)))) eqn:W;
    cbn [fst snd working_durations ticked]; rewrite W.
  2: { rewrite app_nil_r. split; [exact R1|exact R2]. }
  destruct (period <? elapsed p)%N eqn:O.
  - cbn [fst snd]. split; cbn [shedding cool].
    + rewrite lastn_snoc, existsb_app. cbn. rewrite O. now rewrite !orb_true_r.
    + intros _. unfold cooldown_cycles. split; [lia|]. rewrite Nat.sub_diag, lastn_0.
      split; auto. rewrite lastn_snoc, existsb_app. cbn. rewrite O. now rewrite !orb_true_r.
  - destruct (shedding s) eqn:S0.
    + destruct (R2 eq_refl) as (B & F & T).
      cbn [fst snd]. split; cbn [shedding cool].
      * rewrite lastn_snoc, existsb_app. cbn [existsb]. rewrite O, !orb_false_r.
        destruct (pred (cool s) =? 0) eqn:Z; cbn [negb].
        -- apply Nat.eqb_eq in Z. assert (cool s = 1) as C by lia.
           rewrite C in F. cbn in F. now rewrite F.
        -- apply Nat.eqb_neq in Z. symmetry. apply (existsb_lastn_mono _ _ (S (3 - cool s))); auto. lia.
      * intros N. apply negb_true_iff, Nat.eqb_neq in N. split; [lia|].
        replace (3 - pred (cool s)) with (S (3 - cool s)) by lia.
        rewrite !lastn_snoc, !existsb_app, F, T. cbn. now rewrite O.
    + cbn [fst snd]. split; cbn [shedding cool]; [|discriminate].
      rewrite lastn_snoc, existsb_app. cbn [existsb]. rewrite O, !orb_false_r.
      destruct (existsb (fun e => (period <? e)%N) (lastn 2 w)) eqn:E; auto.
      rewrite (existsb_lastn_mono _ _ 2 3 w) in R1; auto.
Qed.

Lemma rel_run : forall period ps s0, shedding s0 = false ->
  rel period (fst (run period s0 ps)) (working_durations ps (snd (run period s0 ps))).
Proof.
  intros period ps s0 Z. induction ps as [|p ps IH] using rev_ind.
  - split; cbn; [rewrite Z; reflexivity|rewrite Z; discriminate].
  - rewrite run_snoc. cbn [fst snd].
    rewrite working_app by (symmetry; apply run_length).
    now apply rel_step.
Qed.

Lemma shedding_exact : forall period ps prios,
  shedding (fst (run period (start prios) ps))
  = recent_overload period ps (snd (run period (start prios) ps)).
Proof. intros. now apply (rel_run period ps (start prios)). Qed.

Lemma step_ticked : forall period s p i n,
  nth_error (nodes s) i = Some n ->
  node_ticked (snd (step period s p)) i = ready (shedding s) p i n.
Proof.
  intros period s p i n H. unfold node_ticked, step. cbv zeta.
  set (rd := mapi _ 0 (mapi _ 0 _)).
  assert (nth i rd false = ready (shedding s) p i n) as E.
  { subst rd. rewrite mapi_mapi. now rewrite (mapi_nth _ _ _ _ _ n H). }
  now destruct (existsb _ rd); cbn.
Qed.
Lemma step_nodes_prio : forall period s p,
  map prio (nodes (fst (step period s p))) = map prio (nodes s).
Proof.
  intros period s p. unfold step. cbv zeta. destruct (existsb _ _); cbn [fst nodes].
  - rewrite mapi_mapi, map_mapi. generalize 0. induction (nodes s) as [|n l IH]; intros k; cbn; auto.
    rewrite IH. f_equal. unfold honor. now destruct (req _).
  - rewrite map_mapi. generalize 0. induction (nodes s) as [|n l IH]; intros k; cbn; auto.
    now rewrite IH.
Qed.

(** Starvation: when only background nodes exist, one overloaded pass is the last. *)
Lemma starved_step : forall period s p,
  shedding s = true -> Forall (fun n => threshold <= prio n) (nodes s) ->
  shedding (fst (step period s p)) = true
  /\ Forall (fun n => threshold <= prio n) (nodes (fst (step period s p)))
  /\ (forall i, node_ticked (snd (step period s p)) i = false)
  /\ (forall i, node_safed (snd (step period s p)) i = false).
Proof.
  intros period s p Sh F.
  assert (existsb (fun b => b) (mapi (ready (shedding s) p) 0 (mapi (raised p) 0 (nodes s))) = false) as Z.
  { rewrite mapi_mapi. apply existsb_mapi_false. intros i n Hn.
    rewrite Forall_forall in F. specialize (F n (nth_error_In _ _ Hn)).
    unfold ready. rewrite Sh. cbn [raised prio]. apply Nat.leb_le in F.
    rewrite F. cbn. now rewrite andb_false_r. }
  unfold step. cbv zeta. rewrite Z. cbn [fst snd shedding nodes ticked safed].
  repeat split; auto.
  - rewrite Forall_forall in *. intros n Hn. apply In_nth_error in Hn. destruct Hn as [i Hi].
    rewrite mapi_nth_error in Hi. destruct (nth_error (nodes s) i) eqn:E; cbn in Hi; inv Hi.
    cbn. apply F. eapply nth_error_In; eauto.
  - intros i. unfold node_ticked. cbn [ticked].
    destruct (nth i _ false) eqn:E; auto. apply existsb_nth_true in E. congruence.
  - intros i. unfold node_safed. cbn [safed]. clear.
    generalize (mapi (raised p) 0 (nodes s)). intros l. revert i.
    induction l; intros [|i]; cbn; auto.
Qed.
Lemma starved_run : forall period ps s,
  shedding s = true -> Forall (fun n => threshold <= prio n) (nodes s) ->
  Forall (fun o => forall i, node_ticked o i = false /\ node_safed o i = false) (snd (run period s ps)).
Proof.
  induction ps as [|p ps IH]; intros s Sh F; cbn [run snd]; [constructor|].
  destruct (starved_step period s p Sh F) as (A & B & C & D).
  destruct (step period s p) as [s1 o] eqn:E. cbn [fst snd] in *.
  specialize (IH s1 A B). destruct (run period s1 ps). cbn [snd] in *.
  constructor; auto.
Qed.

Lemma step_safed : forall period s p i n,
  nth_error (nodes s) i = Some n ->
  existsb (fun b => b) (ticked (snd (step period s p))) = true ->
  node_safed (snd (step period s p)) i = req n || raise p i
  /\ forall n', nth_error (nodes (fst (step period s p))) i = Some n' -> req n' = false.
Proof.
  intros period s p i n H W. unfold node_safed, step in *. cbv zeta in *.
  destruct (existsb _ (mapi (ready _ _) 0 _)) eqn:E; cbn [fst snd ticked safed nodes] in *.
  2: congruence.
  split.
  - rewrite map_mapi. now rewrite (mapi_nth _ _ _ _ _ n H).
  - intros n' H'. rewrite mapi_mapi, mapi_nth_error, H in H'. cbn in H'. inv H'.
    unfold honor. cbn [raised req]. destruct (req n || raise p i) eqn:Q; auto.
Qed.
Lemma async_safed : forall s p i n,
  nth_error (nodes s) i = Some n ->
  node_safed (snd (async_step s p)) i = req n || raise p i
  /\ forall n', nth_error (nodes (fst (async_step s p))) i = Some n' -> req n' = false.
Proof.
  intros s p i n H. unfold node_safed, async_step. cbn [fst snd safed nodes]. split.
  - rewrite map_mapi. now rewrite (mapi_nth _ _ _ _ _ n H).
  - intros n' H'. rewrite mapi_mapi, mapi_nth_error, H in H'. cbn in H'. inv H'.
    unfold honor. cbn [raised req]. destruct (req n || raise p i) eqn:Q; auto.
Qed.
Lemma rt_safed : forall s p i n,
  nth_error (nodes s) i = Some n -> stopped n = false ->
  node_safed (snd (rt_step s p)) i = req n || raise p i
  /\ forall n', nth_error (nodes (fst (rt_step s p))) i = Some n' -> req n' = false.
Proof.
  intros s p i n H St. unfold node_safed, rt_step. cbn [fst snd safed nodes]. split.
  - rewrite map_mapi. rewrite (mapi_nth _ _ _ _ _ n H). cbn. now rewrite St.
  - intros n' H'. rewrite mapi_mapi, mapi_nth_error, H in H'. cbn in H'. inv H'.
    unfold rt_honor, honor. cbn [raised req stopped]. rewrite St.
    destruct (req n || raise p i) eqn:Q; auto.
Qed.

(** No request, no safing. *)
Lemma step_quiet : forall period s p,
  (forall n, In n (nodes s) -> req n = false) -> (forall i, raise p i = false) ->
  (forall n, In n (nodes (fst (step period s p))) -> req n = false)
  /\ forall i, node_safed (snd (step period s p)) i = false.
Proof.
  intros period s p Q R.
  assert (mapi (raised p) 0 (nodes s) = nodes s) as E.
  { generalize 0. induction (nodes s) as [|n l IH]; intros k; cbn; auto.
    rewrite IH by (intros; apply Q; now right). f_equal.
    unfold raised. rewrite R, orb_false_r. now destruct n. }
  assert (forall l, (forall n, In n l -> req n = false) -> mapi (honor p) 0 l = l) as EH.
  { generalize 0 as k. intros k l. revert k. induction l as [|n l IH]; intros k Hl; cbn; auto.
    rewrite IH by (intros; apply Hl; now right). f_equal.
    unfold honor. now rewrite (Hl n (or_introl eq_refl)). }
  unfold step. cbv zeta. rewrite E. destruct (existsb _ _); cbn [fst snd nodes safed];
    unfold node_safed; cbn [safed].
  - rewrite EH by exact Q. split; auto. intros i.
    revert i. clear -Q. induction (nodes s) as [|n l IH]; intros [|i]; cbn; auto.
    + apply Q. now left.
    + apply IH. intros; apply Q; now right.
  - split; auto. intros i. clear. revert i. induction (nodes s); intros [|i]; cbn; auto.
Qed.
Lemma run_quiet : forall period ps s,
  (forall n, In n (nodes s) -> req n = false) ->
  Forall (fun p => forall i, raise p i = false) ps ->
  Forall (fun o => forall i, node_safed o i = false) (snd (run period s ps)).
Proof.
  induction ps as [|p ps IH]; intros s Q R; cbn [run snd]; [constructor|].
  inv R. destruct (step_quiet period s p Q H1) as [A B].
  destruct (step period s p) as [s1 o]. cbn [fst snd] in *.
  specialize (IH s1 A H2). destruct (run period s1 ps). cbn [snd] in *. constructor; auto.
Qed.
End ComputeFacts.

(** ** Gates *)
Section GateFacts.
Import Gate.
Lemma main_paused : forall n e, op_paused e = true -> fst (main n e) = false.
Proof.
  intros n e H. unfold main. destruct (stopped n); auto. destruct (policy e); cbn [negb]; auto.
  destruct (hp n); cbn [andb]; rewrite ?H; auto; destruct (negb _); auto.
Qed.
Lemma rt_paused : forall n e, op_paused e = true -> fst (rt n e) = false.
Proof.
  intros n e H. unfold rt. destruct (negb (init n) || stopped n); auto.
  destruct (op_stopped e); auto. now rewrite H.
Qed.
Lemma run_paused : forall g es n,
  (forall n e, op_paused e = true -> fst (g n e) = false) ->
  Forall (fun e => op_paused e = true) es -> Forall (fun b => b = false) (fst (run g n es)).
Proof.
  induction es as [|e es IH]; intros n G F; cbn [run]; [constructor|].
  inv F. destruct (g n e) as [b n1] eqn:E. specialize (IH n1 G H2).
  destruct (run g n1 es). cbn [fst] in *. constructor; auto.
  specialize (G n e H1). now rewrite E in G.
Qed.

(** Suppressed nodes in the main loop: [probe] counts passes. *)
Lemma main_suppressed : forall n e,
  hp n = Isolated \/ hp n = Unhealthy -> fst (main n e) = true ->
  (u64 (probe n + 1) mod probe_interval = 0)%N.
Proof.
  intros n e Hh. unfold main.
  destruct (stopped n); [discriminate|]. destruct (policy e); [|discriminate]. cbn [negb].
  destruct Hh as [-> | ->]; cbn [andb];
    destruct (u64 (probe n + 1) mod probe_interval =? 0)%N eqn:E; cbn [negb];
    try discriminate; intros _; now apply N.eqb_eq.
Qed.
Lemma main_probe : forall n e,
  hp (snd (main n e)) = hp n /\ stopped (snd (main n e)) = stopped n
  /\ (stopped n = false -> policy e = true -> hp n = Isolated \/ hp n = Unhealthy ->
      probe (snd (main n e)) = u64 (probe n + 1)).
Proof.
  intros n e. unfold main.
  destruct (stopped n) eqn:St; [cbn; auto with *; repeat split; auto; discriminate|].
  destruct (policy e); cbn [negb]; [|repeat split; auto; discriminate].
  destruct (hp n) eqn:Hp; cbn [andb];
    repeat (case_match; cbn [snd hp stopped probe]); repeat split; auto;
    intros _ _ [X|X]; discriminate.
Qed.
Lemma suppressed_runs : forall es n k,
  hp n = Isolated \/ hp n = Unhealthy -> stopped n = false ->
  Forall (fun e => policy e = true) es ->
  (probe n + N.of_nat (length es) < 18446744073709551616)%N ->
  nth k (fst (run main n es)) false = true ->
  ((probe n + N.of_nat k + 1) mod probe_interval = 0)%N.
Proof.
  induction es as [|e es IH]; intros n k Hh St F B H; [destruct k; discriminate|].
  inv F. cbn [run] in H. destruct (main_probe n e) as (P1 & P2 & P3).
  specialize (P3 St H2 Hh).
  destruct (main n e) as [b n1] eqn:E. cbn [snd] in *.
  destruct (run main n1 es) as [bs n2] eqn:R. cbn [fst] in H.
  cbn [length] in B.
  assert (u64 (probe n + 1) = probe n + 1)%N as U by (unfold u64; apply N.mod_small; lia).
  destruct k as [|k].
  - cbn in H. subst b. pose proof (main_suppressed n e Hh) as M. rewrite E in M.
    specialize (M eq_refl). rewrite U in M. now replace (probe n + N.of_nat 0 + 1)%N with (probe n + 1)%N by lia.
  - cbn [nth] in H. specialize (IH n1 k). rewrite R in IH. cbn [fst] in IH.
    rewrite P3, U in IH. replace (probe n + N.of_nat (S k) + 1)%N with (probe n + 1 + N.of_nat k + 1)%N by lia.
    apply IH; auto; try lia; rewrite ?P1, ?P2; auto.
Qed.
End GateFacts.

(** ** Panic counting *)
Section PanicFacts.
Import Panics.
(** Trailing run of panics. *)
Definition tail_run (k : nat) (h : list bool) : Prop :=
  exists a, h = a ++ repeat true k /\ (a = [] \/ exists b, a = b ++ [false]).
Lemma tail_run_snoc_true : forall k h, tail_run k h -> tail_run (S k) (h ++ [true]).
Proof.
  intros k h (a & -> & A). exists a. split; auto.
  rewrite <- app_assoc. f_equal. now rewrite <- repeat_cons.
Qed.
Lemma three_mono : forall h x, three_in_a_row h -> three_in_a_row (h ++ x).
Proof. intros h x (a & b & ->). exists a, (b ++ x). now rewrite <- !app_assoc. Qed.
Lemma three_tail : forall k h, tail_run k h -> 3 <= k -> three_in_a_row h.
Proof.
  intros k h (a & -> & _) K. exists (a ++ repeat true (k - 3)), [].
  rewrite app_nil_r, <- app_assoc. f_equal.
  change [true; true; true] with (repeat true 3).
  rewrite <- repeat_app. f_equal. lia.
Qed.
Lemma three_snoc_inv : forall h x, three_in_a_row (h ++ [x]) ->
  three_in_a_row h \/ exists a, h ++ [x] = a ++ [true; true; true].
Proof.
  intros h x (a & b & E). destruct b as [|y b] using rev_ind.
  - right. exists a. now rewrite app_nil_r in E.
  - left. clear IHb. rewrite !app_assoc in E. apply app_inj_tail in E. destruct E as [E _].
    exists a, b. now rewrite <- app_assoc in E.
Qed.
Lemma tail_three : forall k h a, tail_run k h -> h = a ++ [true; true; true] -> 3 <= k.
Proof.
  intros k h a (p & E & P) F. rewrite F in E. clear F.
  destruct k as [|[|[|k]]]; try lia; exfalso.
  - cbn in E. rewrite app_nil_r in E. destruct P as [-> | (b & ->)]; [now destruct a|].
    replace (a ++ [true;true;true]) with ((a ++ [true;true]) ++ [true]) in E by now rewrite <- app_assoc.
    apply app_inj_tail in E. destruct E; discriminate.
  - cbn in E. replace (a ++ [true;true;true]) with ((a ++ [true;true]) ++ [true]) in E by now rewrite <- app_assoc.
    apply app_inj_tail in E. destruct E as [E _]. destruct P as [-> | (b & ->)]; [now destruct a|].
    replace (a ++ [true;true]) with ((a ++ [true]) ++ [true]) in E by now rewrite <- app_assoc.
    apply app_inj_tail in E. destruct E; discriminate.
  - cbn in E. replace (a ++ [true;true;true]) with ((a ++ [true]) ++ [true; true]) in E by now rewrite <- app_assoc.
    apply (f_equal (@rev bool)) in E. rewrite !rev_app_distr in E. cbn in E. inv E.
    destruct P as [-> | (b & ->)]; [cbn in H0; discriminate|].
    rewrite rev_app_distr in H0. cbn in H0. discriminate.
Qed.

Lemma panics_inv : forall x h, x = Rt \/ x = Compute \/ x = Async ->
  let s := run x fresh h in
  tail_run (consec s) h /\ (unhealthy s = true <-> three_in_a_row h).
Proof.
  intros x h Hx. induction h as [|b h IH] using rev_ind.
  - cbn. split.
    + exists []. split; auto.
    + split; [discriminate|]. intros (a & b & E). destruct a; discriminate.
  - cbv zeta in *. unfold run in *. rewrite fold_left_app. cbn [fold_left].
    set (s := fold_left (step x) h fresh) in *. destruct IH as [T U].
    assert (step x s b = if b then check x (record_failure s) else record_tick x s) as E
      by (destruct Hx as [->|[->| ->]]; reflexivity).
    rewrite E. destruct b.
    + assert (check x (record_failure s) =
              if limit <=? S (consec s)
              then {| consec := S (consec s); unhealthy := true; total := S (total s); okay := okay s |}
              else record_failure s) as C by (destruct Hx as [->|[->| ->]]; reflexivity).
      rewrite C. apply tail_run_snoc_true in T.
      destruct (limit <=? S (consec s)) eqn:L.
      * cbn [consec unhealthy]. split; auto. split; auto. intros _.
        apply (three_tail _ _ T). now apply Nat.leb_le.
      * cbn [record_failure consec unhealthy]. split; auto. rewrite U. split; [apply three_mono|].
        intros H. apply three_snoc_inv in H. destruct H as [H|(a & H)]; auto.
        exfalso. apply Nat.leb_gt in L. unfold limit in L. pose proof (tail_three _ _ _ T H). lia.
    + cbn [record_tick consec unhealthy]. split.
      * exists (h ++ [false]). cbn. rewrite app_nil_r. split; auto. right. now exists h.
      * rewrite U. split; [apply three_mono|]. intros H. apply three_snoc_inv in H.
        destruct H as [H|(a & H)]; auto. exfalso.
        replace (a ++ [true;true;true]) with ((a ++ [true;true]) ++ [true]) in H by now rewrite <- app_assoc.
        apply app_inj_tail in H. destruct H; discriminate.
Qed.
Lemma panics_main : forall h s, unhealthy (run Main s h) = unhealthy s.
Proof.
  induction h as [|b h IH]; intros s; auto. unfold run in *. cbn [fold_left]. rewrite IH. now destruct b.
Qed.
Lemma panics_event : forall h s, consec s <= 1 ->
  unhealthy (run Event s h) = unhealthy s /\ consec (run Event s h) <= 1.
Proof.
  induction h as [|b h IH]; intros s C; auto. unfold run in *. cbn [fold_left].
  assert (consec (step Event s b) <= 1 /\ unhealthy (step Event s b) = unhealthy s) as [A B]
    by (destruct b; cbn; auto).
  destruct (IH _ A) as [D E]. rewrite D. auto.
Qed.
Lemma totals : forall x h, x <> Event ->
  total (run x fresh h) = length h
  /\ okay (run x fresh h) = length (filter negb h).
Proof.
  intros x h Hx. induction h as [|b h IH] using rev_ind; auto.
  unfold run in *. rewrite fold_left_app. cbn [fold_left]. set (s := fold_left (step x) h fresh) in *.
  destruct IH as [A B]. rewrite filter_app, !app_length, <- A, <- B.
  destruct x, b; try congruence; cbn [step filter negb length app];
    unfold check, record_tick, record_failure; cbn [consec total okay started];
    try case_match; cbn [total okay]; split; lia.
Qed.
Lemma totals_event : forall h, okay (run Event fresh h) = 0
  /\ total (run Event fresh h) = length (filter (fun b => b) h).
Proof.
  intros h. induction h as [|b h IH] using rev_ind; auto.
  unfold run in *. rewrite fold_left_app. cbn [fold_left]. set (s := fold_left (step Event) h fresh) in *.
  destruct IH as [A B]. rewrite filter_app, app_length, <- B.
  destruct b; cbn [step filter length app]; unfold check, record_failure, record_tick;
    cbn [consec total okay started]; try case_match; cbn [total okay]; split; lia.
Qed.
End PanicFacts.

(** ** Fault callbacks *)
Section FaultFacts.
Import Fault.
Ltac crack := repeat (first [progress cbn [bind fst snd running estop stopped skip in_safe safed
   set_estop halt stop set_skip set_in_safe add_safed] in * | case_match]).

Lemma main_estop : forall c t s, demands_estop c t -> estop (main c t s) = true.
Proof.
  intros c t s D. unfold main, main_budget, main_deadline, main_result, failure_policy, note_failure, monitor.
  unfold demands_estop in D.
  destruct (over_budget c t) eqn:B; destruct (missed c t) eqn:M; destruct (crit c) eqn:C;
  destruct (bp c) eqn:P; destruct (mp c) eqn:Q; destruct (deadline c) eqn:DL;
  try (unfold missed in M; rewrite DL in M; discriminate);
  try solve [exfalso; intuition congruence];
  crack; auto; try discriminate.
Qed.
Lemma main_halt : forall c t s, demands_halt c t -> running (main c t s) = false.
Proof.
  intros c t s [P F]. unfold main, main_budget, main_deadline, main_result, failure_policy, note_failure, monitor.
  rewrite P, F. crack; auto.
Qed.
Lemma main_safing_failure : forall c t s,
  missed c t = true -> mp c = MSafe -> in_safe s = false -> p_safe t = true ->
  (over_budget c t = true -> bp c <> BEstop) ->
  stopped (main c t s) = true.
Proof.
  intros c t s M Q I P B. assert (exists d, deadline c = Some d) as [d D].
  { unfold missed in M. destruct (deadline c); [eauto|discriminate]. }
  unfold main, main_deadline. rewrite D, M, Q.
  assert (exists s1, main_budget c t s = (s1, false) /\ in_safe s1 = false) as (s1 & E & I1).
  { unfold main_budget, note_failure, monitor. destruct (over_budget c t).
    - specialize (B eq_refl). destruct (bp c); try congruence; crack; eauto.
    - eauto. }
  rewrite E. unfold monitor at 1. destruct (crit c) eqn:C; cbn [set_estop in_safe]; rewrite I1, P;
    unfold main_result, failure_policy, note_failure, monitor; rewrite C; crack; auto.
Qed.
(** With no panicking callback the two loops latch and stop alike. *)
Lemma rt_no_unwind : forall c t s, no_callback_panics t -> exists s', rt_tick c t s = Ret s'.
Proof.
  intros c t s (A & B & C).
  unfold rt_tick, rt_budget, rt_deadline, rt_result, shutdown, enter_safe, on_error, failure_policy, monitor.
  rewrite A, B, C. crack; eauto; discriminate.
Qed.
Lemma rt_estop : forall c t s, no_callback_panics t -> demands_estop c t -> estop (rt c t s) = true.
Proof.
  intros c t s (A & B & C) D.
  unfold rt, rt_tick, rt_budget, rt_deadline, rt_result, shutdown, enter_safe, on_error, failure_policy, monitor.
  unfold demands_estop in D. rewrite A, B, C.
  destruct (over_budget c t) eqn:B'; destruct (missed c t) eqn:M; destruct (crit c) eqn:C';
  destruct (bp c) eqn:P; destruct (mp c) eqn:Q; destruct (deadline c) eqn:DL;
  try (unfold missed in M; rewrite DL in M; discriminate);
  try solve [exfalso; intuition congruence];
  crack; auto; try discriminate.
Qed.
Lemma rt_halt : forall c t s, no_callback_panics t -> demands_halt c t -> running (rt c t s) = false.
Proof.
  intros c t s (A & B & C) [P F].
  unfold rt, rt_tick, rt_budget, rt_deadline, rt_result, shutdown, enter_safe, on_error, failure_policy, monitor.
  rewrite A, B, C, P, F. crack; auto; discriminate.
Qed.
Lemma rt_critical : forall c t s, crit c = true ->
  over_budget c t = true -> estop (rt c t s) = true.
Proof.
  intros c t s C B.
  unfold rt, rt_tick, rt_budget, rt_deadline, rt_result, shutdown, enter_safe, on_error, failure_policy, monitor.
  rewrite C, B. crack; auto; try discriminate;
  repeat match goal with
  | H : Ret _ = Ret _ |- _ => inv H
  | H : Unwind _ = Unwind _ |- _ => inv H
  | H : Ret _ = Unwind _ |- _ => discriminate H
  | H : Unwind _ = Ret _ |- _ => discriminate H
  end; crack; auto.
Qed.
Lemma rt_unwind_stops : forall c t s s', rt_tick c t s = Unwind s' -> stopped (rt c t s) = true.
Proof. intros c t s s' E. unfold rt. now rewrite E. Qed.
Lemma rt_lost_estop : forall c t s,
  over_budget c t = true -> bp c = BEstop -> crit c = false -> p_shutdown t = true ->
  rt c t s = stop s.
Proof.
  intros c t s B P C S. unfold rt, rt_tick, rt_budget, shutdown, monitor. now rewrite B, P, C, S.
Qed.
Lemma rt_lost_fatal : forall c t s,
  over_budget c t = false -> missed c t = false ->
  panics t = true -> fatal c = true -> p_error t = true ->
  running (rt c t s) = running s /\ estop (rt c t s) = estop s /\ safed (rt c t s) = safed s
  /\ stopped (rt c t s) = true.
Proof.
  intros c t s B M P F E. unfold rt, rt_tick, rt_budget, rt_deadline, rt_result, on_error.
  rewrite B, M, P, E. destruct (deadline c); cbn; auto.
Qed.
Lemma rt_lost_safing : forall c t s,
  over_budget c t = false -> missed c t = true -> mp c = MSafe -> crit c = false ->
  in_safe s = false -> p_safe t = true ->
  estop (rt c t s) = estop s /\ running (rt c t s) = running s
  /\ stopped (rt c t s) = true /\ safed (rt c t s) = safed s.
Proof.
  intros c t s B M P C I S. unfold rt, rt_tick, rt_budget, rt_deadline, enter_safe, monitor.
  assert (exists d, deadline c = Some d) as [d D].
  { unfold missed in M. destruct (deadline c); [eauto|discriminate]. }
  rewrite B, M, P, C, D. cbn [bind]. rewrite I, S. cbn. auto.
Qed.

Lemma comp_dead : forall ps s, comp_run ps s false = (0%nat, false).
Proof. intros [|p ps] s; reflexivity. Qed.
Lemma comp_on_error_kills : forall c t rest ps s,
  running s = true -> panics t = true -> p_error t = true ->
  comp_run (((c, t) :: rest) :: ps) s true = (S (length rest), false).
Proof.
  intros c t rest ps s R P E. cbn [comp_run andb]. rewrite R. cbn [comp_pass].
  unfold comp_tick, rt_result, on_error. rewrite P, E. cbn [bind]. rewrite comp_dead.
  f_equal. cbn [length]. lia.
Qed.
Lemma comp_alive : forall ps s,
  Forall (Forall (fun ct => p_error (snd ct) = false)) ps ->
  snd (comp_run ps s true) = true.
Proof.
  assert (forall p s, Forall (fun ct => p_error (snd ct) = false) p -> snd (comp_pass p s) = true) as H.
  { induction p as [|[c t] p IH]; intros s F; auto. inv F. cbn [snd] in *. cbn [comp_pass].
    unfold comp_tick, rt_result, on_error. rewrite H1. destruct (panics t); cbn [bind]; auto. }
  induction ps as [|p ps IH]; intros s F; auto. inv F. cbn [comp_run andb].
  destruct (running s); auto. specialize (H p s H2). destruct (comp_pass p s) as [s' a].
  cbn [snd] in H. subst a. specialize (IH s' H3). destruct (comp_run ps s' true). auto.
Qed.
End FaultFacts.

(** ** Freshness *)
Section FreshFacts.
Import Fresh.
Local Open Scope N_scope.

Lemma frun_snoc : forall timeout es e s,
  run timeout s (es ++ [e]) =
  (fst (step timeout (fst (run timeout s es)) e),
   snd (run timeout s es) ++ [snd (step timeout (fst (run timeout s es)) e)]).
Proof.
  induction es as [|x es IH]; intros e s; cbn [run app fst snd].
  - now destruct (step timeout s e).
  - destruct (step timeout s x) as [s1 o]. rewrite IH.
    now destruct (run timeout s1 es).
Qed.
Definition final_time (t0 : N) (es : list event) : N := List.last (map time es) t0.
Lemma last_cons_default : forall (l : list N) a b, List.last (a :: l) b = List.last l a.
Proof.
  induction l as [|x l IH]; intros a b; auto.
  change (List.last (x :: l) b = List.last (x :: l) a). now rewrite !IH.
Qed.
Lemma increasing_snoc : forall es t0 e,
  increasing t0 (es ++ [e]) <-> increasing t0 es /\ final_time t0 es < time e.
Proof.
  unfold final_time. induction es as [|x es IH]; intros t0 e.
  - cbn. tauto.
  - cbn [app increasing map]. rewrite IH, last_cons_default. tauto.
Qed.
Lemma final_snoc : forall es t0 e, final_time t0 (es ++ [e]) = time e.
Proof.
  intros. unfold final_time. rewrite map_app. cbn.
  induction (map time es) as [|x l IH]; auto. cbn. destruct (l ++ [time e]) eqn:E; auto.
  destruct l; discriminate.
Qed.

Definition pubs (l : list event) : Prop := forallb (fun e => negb (is_check e)) l = true.
Lemma pubs_snoc_pub : forall l n, pubs l -> pubs (l ++ [Publish n]).
Proof. intros l n H. unfold pubs in *. rewrite forallb_app, H. reflexivity. Qed.

(** Which arrivals are noticed after one more event. *)
Lemma noticed_snoc_pub : forall es n c,
  arrival_noticed (es ++ [Publish n]) c <-> arrival_noticed es c.
Proof.
  intros es n c. split.
  - intros (a & c0 & b & d & E & B & N).
    destruct d as [|x d _] using rev_ind.
    + exfalso. replace (a ++ Check c0 :: b ++ [Check c]) with ((a ++ Check c0 :: b) ++ [Check c]) in E
        by now rewrite <- app_assoc.
      apply app_inj_tail in E. destruct E; discriminate.
    + exists a, c0, b, d. split; auto.
      replace (a ++ Check c0 :: b ++ Check c :: d ++ [x])
        with ((a ++ Check c0 :: b ++ Check c :: d) ++ [x]) in E
        by (rewrite <- !app_assoc; cbn; now rewrite <- !app_assoc).
      now apply app_inj_tail in E.
  - intros (a & c0 & b & d & E & B & N). exists a, c0, b, (d ++ [Publish n]).
    rewrite E. split; auto. rewrite <- !app_assoc. cbn. now rewrite <- !app_assoc.
Qed.
Lemma noticed_snoc_check : forall a c0 b now c, pubs b ->
  let es := a ++ Check c0 :: b in
  arrival_noticed (es ++ [Check now]) c <->
  arrival_noticed es c \/ (b <> [] /\ c = now).
Proof.
  intros a c0 b now c B es. subst es. split.
  - intros (a' & c0' & b' & d & E & B' & N).
    destruct d as [|x d _] using rev_ind.
    + right. replace (a' ++ Check c0' :: b' ++ [Check c]) with ((a' ++ Check c0' :: b') ++ [Check c]) in E
        by now rewrite <- app_assoc.
      apply app_inj_tail in E. destruct E as [E X]. inv X. split; auto.
      (* the last check before is the same on both sides *)
      clear -B B' N E. unfold pubs in B.
      intros ->. apply N. clear N.
      destruct b' as [|y b' _] using rev_ind; auto. exfalso.
      replace (a' ++ Check c0' :: b' ++ [y]) with ((a' ++ Check c0' :: b') ++ [y]) in E
        by now rewrite <- app_assoc.
      apply app_inj_tail in E. destruct E as [_ X]. subst y.
      rewrite forallb_app in B'. cbn in B'. rewrite andb_false_r in B'. discriminate.
    + left. exists a', c0', b', d. split; auto.
      replace (a' ++ Check c0' :: b' ++ Check c :: d ++ [x])
        with ((a' ++ Check c0' :: b' ++ Check c :: d) ++ [x]) in E
        by (rewrite <- !app_assoc; cbn; now rewrite <- !app_assoc).
      now apply app_inj_tail in E.
  - intros [(a' & c0' & b' & d & E & B' & N) | [N ->]].
    + exists a', c0', b', (d ++ [Check now]). rewrite E. split; auto.
      rewrite <- !app_assoc. cbn. now rewrite <- !app_assoc.
    + exists a, c0, b, []. split; auto. now rewrite <- app_assoc.
Qed.
Lemma noticed_no_check : forall es c, pubs es -> ~ arrival_noticed es c.
Proof.
  intros es c P (a & c0 & b & d & E & _). unfold pubs in P. rewrite E, forallb_app in P.
  cbn in P. now rewrite andb_false_r in P.
Qed.
Lemma noticed_first_check : forall es now c, pubs es -> ~ arrival_noticed (es ++ [Check now]) c.
Proof.
  intros es now c P (a & c0 & b & d & E & _).
  replace (a ++ Check c0 :: b ++ Check c :: d) with ((a ++ Check c0 :: b) ++ Check c :: d) in E
    by now rewrite <- app_assoc.
  destruct d as [|x d _] using rev_ind.
  - apply app_inj_tail in E. destruct E as [E _]. unfold pubs in P. rewrite E, forallb_app in P.
    cbn in P. now rewrite andb_false_r in P.
  - replace ((a ++ Check c0 :: b) ++ Check c :: d ++ [x])
      with (((a ++ Check c0 :: b) ++ Check c :: d) ++ [x]) in E by now rewrite <- !app_assoc.
    apply app_inj_tail in E. destruct E as [E _]. unfold pubs in P. rewrite E, !forallb_app in P.
    cbn in P. now rewrite !andb_false_r in P.
Qed.

Definition finv (t0 base : N) (es : list event) (s : sys) : Prop :=
  t0 <= Fresh.last (sub s) /\ Fresh.last (sub s) <= final_time t0 es
  /\ (Fresh.last (sub s) = t0 \/ arrival_noticed es (Fresh.last (sub s)))
  /\ (forall c, arrival_noticed es c -> c <= Fresh.last (sub s))
  /\ ((pubs es /\ count (sub s) = None)
      \/ exists a c0 b m, es = a ++ Check c0 :: b /\ pubs b
           /\ count (sub s) = Some m /\ total s = m + N.of_nat (length b)).
Lemma finv_run : forall timeout t0 base es, increasing t0 es ->
  finv t0 base es (fst (run timeout {| total := base; sub := new t0 |} es)).
Proof.
  intros timeout t0 base es. induction es as [|e es IH] using rev_ind; intros I.
  - unfold finv. cbn. repeat split; try lia; auto.
    { intros c H. exfalso. exact (noticed_no_check [] c eq_refl H). }
    left. split; reflexivity.
  - apply increasing_snoc in I. destruct I as [I L]. specialize (IH I).
    rewrite frun_snoc. cbn [fst]. set (s := fst (run timeout _ es)) in *.
    destruct IH as (A & B & C & D & F). unfold finv. rewrite final_snoc.
    destruct e as [n|now]; cbn [step fst sub total time] in *.
    + repeat split; auto; try lia.
      * destruct C as [C|C]; auto. right. exact (proj2 (noticed_snoc_pub _ _ _) C).
      * intros c Hc. exact (D c (proj1 (noticed_snoc_pub _ _ _) Hc)).
      * destruct F as [[P Q]|(a & c0 & b & m & E & P & Q & T)].
        -- left. split; auto. now apply pubs_snoc_pub.
        -- right. exists a, c0, (b ++ [Publish n]), m. subst es. repeat split; auto.
           ++ now rewrite <- app_assoc.
           ++ now apply pubs_snoc_pub.
           ++ rewrite app_length. cbn. lia.
    + destruct F as [[P Q]|(a & c0 & b & m & E & P & Q & T)].
      * unfold refresh. rewrite Q. cbn [Fresh.last count]. repeat split; auto; try lia.
        -- destruct C as [C|C]; auto. exfalso. exact (noticed_no_check _ _ P C).
        -- intros c Hc. exfalso. exact (noticed_first_check _ _ _ P Hc).
        -- right. exists es, now, [], (total s). repeat split; auto. cbn. lia.
      * unfold refresh. rewrite Q. pose proof (noticed_snoc_check a c0 b now) as NS.
        subst es. destruct (total s =? m) eqn:Z.
        -- apply N.eqb_eq in Z. assert (b = []) as -> by (destruct b; auto; cbn in T; lia).
           repeat split; auto; try lia.
           ++ destruct C as [C|C]; auto. right. exact (proj2 (NS _ P) (or_introl C)).
           ++ intros c Hc. apply (proj1 (NS _ P)) in Hc. destruct Hc as [Hc|[X _]]; auto. congruence.
           ++ right. exists (a ++ [Check c0]), now, [], m. rewrite <- app_assoc. repeat split; auto.
        -- apply N.eqb_neq in Z. assert (b <> []) as Nb by (intros ->; cbn in T; lia).
           cbn [Fresh.last count]. assert (N.max now (Fresh.last (sub s) + 1) = now) as -> by lia.
           repeat split; auto; try lia.
           ++ right. exact (proj2 (NS _ P) (or_intror (conj Nb eq_refl))).
           ++ intros c Hc. apply (proj1 (NS _ P)) in Hc. destruct Hc as [Hc|[_ ->]]; [|lia].
              specialize (D c Hc). lia.
           ++ right. exists (a ++ Check c0 :: b), now, [], (total s). repeat split; auto. cbn. lia.
Qed.

Lemma stale_exact : forall timeout t0 base es now, increasing t0 (es ++ [Check now]) ->
  let es' := es ++ [Check now] in
  let v := stale timeout (sub (fst (run timeout {| total := base; sub := new t0 |} es'))) now in
  snd (run timeout {| total := base; sub := new t0 |} es')
    = snd (run timeout {| total := base; sub := new t0 |} es) ++ [Some v]
  /\ (v = true <-> t0 + timeout < now /\ forall c, arrival_noticed es' c -> c + timeout < now).
Proof.
  intros timeout t0 base es now I es' v. pose proof (finv_run timeout t0 base es' I) as F.
  subst v es'. split.
  - now rewrite frun_snoc.
  - destruct F as (A & B & C & D & _). rewrite final_snoc in B. cbn [time] in B.
    unfold stale. rewrite N.ltb_lt. split.
    + intros H. split; [lia|]. intros c Hc. specialize (D c Hc). lia.
    + intros [H1 H2]. destruct C as [C|C]; [lia|]. specialize (H2 _ C). lia.
Qed.
End FreshFacts.
