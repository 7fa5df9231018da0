(** Properties of dependencies: C117, C118, C119. *)
From Coq Require Import String.
From Verif.Base Require Import Prelude Bytes AMap Str.
From Verif.Model Require Import Guard NetFilter Resolver.
From Verif.Spec Require Import ResolverSpec.
From Verif.Proofs Require Import ResolverProofs.
Local Open Scope N_scope.
Local Open Scope list_scope.

(** ** C117: resolving *)
(** What is resolved is a solution. *)
Theorem C117_solution fuel pv roots l : resolve fuel pv roots = Some (Resolved l) -> solution pv roots l.
Proof.
  intros H. apply resolve_resolved in H as (seen & C & R & _ & N & Nm & B). split; [exact N|]. split; [|split].
  - intros n v I. destruct (B n v I) as (vs & E & X). apply best_some in X as (X & _). eauto.
  - intros d I. apply (seen_met pv seen l d Nm B). apply R, in_map, I.
  - intros n v ds d I E Id. apply (seen_met pv seen l d Nm B). destruct (B n v I) as (vs & Ev & X).
    assert (J : In d (behind pv n seen)) by (unfold behind; rewrite Ev, X, E; exact Id). destruct (C n d) as [K|[]]; [|exact J|exact K]. apply Nm, (in_map fst _ _ I).
Qed.
Print Assumptions C117_solution.
(** Every version is the highest: whatever higher one is available, somebody's requirement excludes it. *)
Theorem C117_highest fuel pv roots l n v vs w : resolve fuel pv roots = Some (Resolved l) -> In (n, v) l -> pv_versions pv n = Some vs -> In w vs -> v < w -> exists r, asked pv roots n r /\ pv_match pv r w = false.
Proof.
  intros H I E Iw L. apply resolve_resolved in H as (seen & _ & _ & A & _ & _ & B). destruct (B n v I) as (vs' & E' & X). rewrite E in E'. injection E' as <-. apply best_some in X as (_ & _ & X).
  destruct (forallb (fun r => pv_match pv r w) (reqs_of n seen)) eqn:F.
  - exfalso. rewrite forallb_forall in F. specialize (X w Iw F). lia.
  - assert (G : exists r, In r (reqs_of n seen) /\ pv_match pv r w = false).
    { clear X. induction (reqs_of n seen) as [|r rs IH]; [discriminate|]. cbn [forallb] in F. destruct (pv_match pv r w) eqn:M; [|exists r; split; [left; reflexivity|exact M]]. destruct (IH F) as (q & Q1 & Q2). exists q. split; [right; exact Q1|exact Q2]. }
    destruct G as (r & G & M). exists r. split; [|exact M]. apply reqs_of_in, in_map_iff in G as (d & K & G). unfold key in K. injection K as <- <-. apply A, G.
Qed.
Print Assumptions C117_highest.
(** A conflict is reported only if no available version meets all that somebody asks of the package. *)
Theorem C117_conflict fuel pv roots n vs v : resolve fuel pv roots = Some (Conflict n) -> pv_versions pv n = Some vs -> In v vs -> exists r, asked pv roots n r /\ pv_match pv r v = false.
Proof.
  unfold resolve. intros H E I. destruct (collect fuel pv roots []) as [seen|] eqn:C; [|discriminate]. destruct (resolve_all pv seen (names_of seen)) as [k|x] eqn:R; [discriminate|]. injection H as ->.
  apply resolve_all_conflict in R as [_ R]. specialize (R vs E). destruct (best_none _ _ _ R v I) as (r & J & M). exists r. split; [|exact M].
  apply reqs_of_in, in_map_iff in J as (d & K & J). unfold key in K. injection K as <- <-. eapply collect_asked; [|exact C|exact J]. intros x Q. rewrite app_nil_r in Q. exists x. auto.
Qed.
Print Assumptions C117_conflict.
(** Whatever circles there are, it ends. *)
Theorem C117_ends pv all width roots : finite_registry pv all width -> (forall d, In d roots -> In (d_name d, d_req d) all) ->
  exists r, resolve (length roots + length all * width) pv roots = Some r.
Proof.
  intros F R. unfold resolve. destruct (collect_ends (length roots + length all * width) pv all width F roots []) as (s & ->); [constructor|intros x []|intros x I; apply in_map_iff in I as (d & <- & I); apply R, I|cbn [length]; rewrite Nat.sub_0_r; apply Nat.le_refl|]. eauto.
Qed.
Print Assumptions C117_ends.
Definition dep (n : string) (r : N) : Dep := mkDep (bs n) r FromRegistry.
(** Requirement 0 is "any", another is that very version. *)
Definition exact (r v : N) : bool := (r =? 0) || (r =? v).
(** [a] has the versions 1 and 2, and 2 needs a version of [c] that does not exist; [d] needs version 1 of [a]. *)
Definition reg : Provider := mkProvider (fun n => if beqb n (bs "a") then Some [1; 2] else if beqb n (bs "c") then Some [1] else if beqb n (bs "d") then Some [1] else None)
  (fun n v => Some (if beqb n (bs "a") && (v =? 2) then [dep "c" 9] else if beqb n (bs "d") then [dep "a" 1] else [])) exact (fun _ _ => true).
(** Refuted: "a solution is found if there is one".  What a version that is not chosen asks counts too. *)
Theorem C117_complete_refuted : exists pv roots l, solution pv roots l /\ resolve 9 pv roots = Some (Conflict (bs "c")).
Proof.
  exists reg, [dep "a" 0; dep "d" 0], [(bs "a", 1); (bs "d", 1)]. split; [|vm_compute; reflexivity]. split; [repeat constructor; cbn; intuition discriminate|]. split; [|split].
  - intros n v [H|[H|[]]]; injection H as <- <-; vm_compute; eexists; (split; [reflexivity|]); cbn; auto.
  - intros d [<-|[<-|[]]]; exists 1; split; cbn; auto.
  - intros n v ds d [H|[H|[]]]; injection H as <- <-; intros E Id; vm_compute in E; injection E as <-; [destruct Id|]. destruct Id as [<-|[]]. exists 1. split; vm_compute; auto.
Qed.
Print Assumptions C117_complete_refuted.
(** Refuted: "an unknown list of dependencies is an error".  A registry that does not answer is one without dependencies. *)
Theorem C117_silent_refuted fuel pv roots : resolve fuel pv roots = resolve fuel (always_answers pv) roots.
Proof. symmetry. apply resolve_answers. Qed.
Print Assumptions C117_silent_refuted.
(** Refuted: "a dependency comes from the source it names".  The answer is the same whatever sources are named, and names none. *)
Theorem C117_source_refuted fuel pv a b : Forall2 same_but_source a b -> resolve fuel pv a = resolve fuel pv b.
Proof. apply same_resolve. Qed.
Print Assumptions C117_source_refuted.
Example C117_ex : resolve 9 reg [dep "d" 0] = Some (Resolved [(bs "a", 1); (bs "d", 1)]) /\ resolve 9 reg [dep "c" 0; dep "a" 1] = Some (Resolved [(bs "a", 1); (bs "c", 1)]) /\
  Forall2 same_but_source [mkDep (bs "numpy") 0 (FromPip (bs "numpy"))] [dep "numpy" 0] /\
  finite_registry reg [(bs "c", 9); (bs "a", 1); (bs "d", 0)] 1 /\ (forall d, In d [dep "d" 0] -> In (d_name d, d_req d) [(bs "c", 9); (bs "a", 1); (bs "d", 0)]).
Proof.
  split; [vm_compute; reflexivity|]. split; [vm_compute; reflexivity|]. split; [constructor; [split; reflexivity|constructor]|]. split; [|intros d [<-|[]]; cbn; auto].
  intros n v ds E. cbn [reg pv_deps] in E. injection E as <-. destruct (beqb n (bs "a") && (v =? 2)); [|destruct (beqb n (bs "d"))]; (split; [cbn; lia|]); intros d I; cbn in I; destruct I as [<-|[]] || destruct I; cbn; auto.
Qed.

(** ** C118: installing *)
(** After a successful installation every package that was asked for or resolved is there, and what was there before is unchanged. *)
Theorem C118_present fuel rf pv st ds st' : install_deps fuel rf pv st ds = IDone st' ->
  (forall n v, lookup beqb n (st_local st) = Some v -> lookup beqb n (st_local st') = Some v) /\ forall d, In d ds -> exists w, lookup beqb (d_name d) (st_local st') = Some w.
Proof.
  destruct fuel as [|f]; cbn [install_deps]; [discriminate|]. intros H. destruct (resolve rf pv ds) as [[rs|c]|] eqn:R; [| |discriminate].
  - apply install_loop_keeps in H as [A B]; [|apply install_deps_keeps]. split; [exact A|]. intros d I. apply C117_solution in R as (_ & _ & R & _). destruct (R d I) as (v & J & _). eapply B, J.
  - apply install_simple_keeps in H as [A B]; [|apply install_deps_keeps]. auto.
Qed.
Print Assumptions C118_present.
(** If the resolved packages have no dependencies of their own, each that was not there has exactly its resolved version. *)
Theorem C118_exact_partial fuel rf pv st ds st' rs n v : resolve rf pv ds = Some (Resolved rs) -> (forall n v, In (n, v) rs -> pv_deps pv n v = Some [] \/ pv_deps pv n v = None) ->
  install_deps (S fuel) rf pv st ds = IDone st' -> In (n, v) rs -> lookup beqb n (st_local st) = None -> lookup beqb n (st_local st') = Some v.
Proof.
  intros R L H I E. cbn [install_deps] in H. rewrite R in H. pose proof (C117_solution _ _ _ _ R) as (N & _). rewrite (install_loop_leaves _ pv rs st st' L N H n), E. apply In_lookup; auto. apply beqb_spec.
Qed.
Print Assumptions C118_exact_partial.
(** Every package an installation adds is one the cache had in that very version, or one the registry delivered in it; the cache is not changed. *)
Theorem C118_sourced fuel rf pv st ds st' : install_deps fuel rf pv st ds = IDone st' -> st_cache st' = st_cache st /\
  forall n v, lookup beqb n (st_local st) = None -> lookup beqb n (st_local st') = Some v -> In (n, v) (st_cache st) \/ pv_fetch pv n v = true.
Proof. intros H. apply install_deps_comes in H as [A B]. split; [exact A|]. intros n v N L. destruct (B n v L) as [X|X]; [congruence|exact X]. Qed.
Print Assumptions C118_sourced.
(** [q] 1 cannot be fetched: it is installed if the cache has it, not if the cache has another version. *)
Definition reg3 : Provider := mkProvider (fun n => if beqb n (bs "q") then Some [1; 2] else None) (fun _ _ => Some []) exact (fun _ v => v =? 2).
Example C118_sourced_ex : install_deps 9 9 reg3 (mkStore [] [(bs "q", 1)]) [dep "q" 1] = IDone (mkStore [(bs "q", 1)] [(bs "q", 1)]) /\
  install_deps 9 9 reg3 (mkStore [] [(bs "q", 2)]) [dep "q" 1] = IErr.
Proof. vm_compute. split; reflexivity. Qed.
(** Refuted: "an installation that succeeds meets the requirements".  A package that is there under its name is kept, whatever version it is ... *)
Theorem C118_stale_refuted fuel rf pv st ds st' d w : install_deps fuel rf pv st ds = IDone st' -> In d ds -> lookup beqb (d_name d) (st_local st) = Some w -> pv_match pv (d_req d) w = false ->
  exists x, lookup beqb (d_name d) (st_local st') = Some x /\ pv_match pv (d_req d) x = false.
Proof. intros H _ E M. exists w. split; [|exact M]. destruct (C118_present _ _ _ _ _ _ H) as [A _]. apply A, E. Qed.
Print Assumptions C118_stale_refuted.
(** [a] needs any [q]; [q] has the versions 1 and 2. *)
Definition reg2 : Provider := mkProvider (fun n => if beqb n (bs "a") then Some [1] else if beqb n (bs "q") then Some [1; 2] else None)
  (fun n v => Some (if beqb n (bs "a") then [dep "q" 0] else [])) exact (fun _ _ => true).
(** ... and even in an empty workspace a package installed on the way brings its own choice, before the one resolved for all has its turn. *)
Theorem C118_joint_refuted : exists pv ds rs st', resolve 9 pv ds = Some (Resolved rs) /\ install_deps 9 9 pv (mkStore [] []) ds = IDone st' /\
  exists d x, In d ds /\ In (d_name d, d_req d) rs /\ lookup beqb (d_name d) (st_local st') = Some x /\ pv_match pv (d_req d) x = false.
Proof.
  exists reg2, [dep "a" 0; dep "q" 1]. eexists. eexists. split; [vm_compute; reflexivity|]. split; [vm_compute; reflexivity|]. exists (dep "q" 1), 2.
  split; [right; left; reflexivity|]. split; [right; left; reflexivity|]. split; vm_compute; reflexivity.
Qed.
Print Assumptions C118_joint_refuted.
Example C118_ex : install_deps 9 9 reg2 (mkStore [] []) [dep "a" 0; dep "q" 1] = IDone (mkStore [(bs "q", 2); (bs "a", 1)] []) /\
  install_deps 9 9 reg2 (mkStore [] []) [dep "q" 1] = IDone (mkStore [(bs "q", 1)] []) /\
  install_deps 9 9 reg2 (mkStore [(bs "q", 2)] []) [dep "q" 1] = IDone (mkStore [(bs "q", 2)] []) /\ exact 1 2 = false.
Proof. vm_compute. repeat split. Qed.

(** ** C119: reading dependencies *)
(** A text without a prefix is a name, or a name and a requirement behind its first at sign; a requirement that cannot be read is an error. *)
Theorem C119_name preq name c : ~ In AT name -> starts_with (name ++ AT :: c) (bs "pip:") = false -> starts_with (name ++ AT :: c) (bs "cargo:") = false -> starts_with (name ++ AT :: c) (bs "horus_py@") = false ->
  parse_dep preq (name ++ AT :: c) = match constraint preq c with Some r => Some (mkDep name r FromRegistry) | None => None end.
Proof.
  intros N P C H. unfold parse_dep, strip. rewrite P, C, H, orb_false_r. destruct (beqb (name ++ AT :: c) (bs "horus_py")) eqn:E.
  - exfalso. apply beqb_spec in E. assert (X : In AT (bs "horus_py")) by (rewrite <- E; apply in_or_app; right; left; reflexivity). vm_compute in X. intuition discriminate.
  - unfold parse_plain. rewrite split_once_app by exact N. reflexivity.
Qed.
Print Assumptions C119_name.
Theorem C119_bare preq name : ~ In AT name -> starts_with name (bs "pip:") = false -> starts_with name (bs "cargo:") = false -> name <> bs "horus_py" ->
  parse_dep preq name = Some (mkDep name ANY FromRegistry).
Proof.
  intros N P C H. unfold parse_dep, strip. rewrite P, C, (beqb_neq _ _ H). cbn [orb]. assert (S : starts_with name (bs "horus_py@") = false).
  { unfold starts_with. apply beqb_neq. intros E. apply N. rewrite <- (firstn_skipn (length (bs "horus_py@")) name), E. apply in_or_app. left. vm_compute. auto 12. }
  rewrite S. unfold parse_plain. rewrite split_once_none by exact N. reflexivity.
Qed.
Print Assumptions C119_bare.
(** A PyPI or crates.io dependency keeps its source and name. *)
Theorem C119_pip preq name c r : ~ In AT name -> constraint preq c = Some r -> parse_dep preq (bs "pip:" ++ name ++ AT :: c) = Some (mkDep name r (FromPip name)).
Proof.
  intros N C. unfold parse_dep, strip. assert (S : starts_with (bs "pip:" ++ name ++ AT :: c) (bs "pip:") = true) by (unfold starts_with; apply beqb_spec; rewrite firstn_app, Nat.sub_diag, firstn_all; apply app_nil_r).
  rewrite S. replace (skipn (length (bs "pip:")) (bs "pip:" ++ name ++ AT :: c)) with (name ++ AT :: c) by reflexivity. unfold parse_plain. rewrite split_once_app by exact N. rewrite C. reflexivity.
Qed.
Print Assumptions C119_pip.
(** Refuted: "a bad requirement is an error".  For [horus_py] it is any version. *)
Theorem C119_horus_py_refuted preq c : preq c = None -> parse_dep preq (bs "horus_py@" ++ c) = Some (mkDep (bs "horus_py") ANY (FromPip (bs "horus-robotics"))).
Proof.
  intros E. unfold parse_dep, strip. replace (starts_with (bs "horus_py@" ++ c) (bs "pip:")) with false by reflexivity. replace (starts_with (bs "horus_py@" ++ c) (bs "cargo:")) with false by reflexivity.
  replace (starts_with (bs "horus_py@" ++ c) (bs "horus_py@")) with true by (symmetry; unfold starts_with; apply beqb_spec; rewrite firstn_app, Nat.sub_diag, firstn_all; apply app_nil_r). rewrite orb_true_r.
  replace (split_once AT (bs "horus_py@" ++ c)) with (Some (bs "horus_py", c)) by reflexivity. unfold constraint. destruct (beqb c (bs "latest") || beqb c (bs "*")); [reflexivity|]. rewrite E. reflexivity.
Qed.
Print Assumptions C119_horus_py_refuted.
(** Refuted: "a package of an organisation can be a dependency".  [@org/name] is never read as that name, and in a registry's answer it is left out. *)
Theorem C119_scoped_refuted preq rest d : parse_dep preq (AT :: rest) = Some d -> d_name d = [].
Proof.
  unfold parse_dep, strip. replace (starts_with (AT :: rest) (bs "pip:")) with false by reflexivity. replace (starts_with (AT :: rest) (bs "cargo:")) with false by reflexivity.
  replace (beqb (AT :: rest) (bs "horus_py")) with false by reflexivity. replace (starts_with (AT :: rest) (bs "horus_py@")) with false by reflexivity. cbn [orb]. unfold parse_plain. cbn [split_once]. rewrite N.eqb_refl.
  destruct (constraint preq rest); [|discriminate]. intros H. injection H as <-. reflexivity.
Qed.
Print Assumptions C119_scoped_refuted.
Theorem C119_dropped_refuted preq before scoped req after : (forall s, preq s <> None -> ~ In 47 s) -> In 47 scoped ->
  listed preq (before ++ (AT :: scoped, req) :: after) = listed preq (before ++ after).
Proof.
  intros P I. assert (G : parse_dep preq (match req with Some c => (AT :: scoped) ++ AT :: c | None => AT :: scoped end) = None).
  { assert (K : forall s, In 47 s -> parse_dep preq (AT :: s) = None).
    { intros s Is. unfold parse_dep, strip. replace (starts_with (AT :: s) (bs "pip:")) with false by reflexivity. replace (starts_with (AT :: s) (bs "cargo:")) with false by reflexivity.
      replace (beqb (AT :: s) (bs "horus_py")) with false by reflexivity. replace (starts_with (AT :: s) (bs "horus_py@")) with false by reflexivity. cbn [orb]. unfold parse_plain. cbn [split_once]. rewrite N.eqb_refl. unfold constraint.
      replace (beqb s (bs "latest")) with false by (symmetry; apply beqb_neq; intros ->; vm_compute in Is; intuition discriminate). replace (beqb s (bs "*")) with false by (symmetry; apply beqb_neq; intros ->; vm_compute in Is; intuition discriminate). cbn [orb].
      destruct (preq s) eqn:E; [|reflexivity]. exfalso. apply (P s); [congruence|exact Is]. }
    destruct req as [c|]; [|apply K, I]. cbn [app]. apply K. apply in_or_app. left. exact I. }
  induction before as [|[n q] r IH]; cbn [app listed].
  - cbn [app] in G. rewrite G. reflexivity.
  - rewrite IH. reflexivity.
Qed.
Print Assumptions C119_dropped_refuted.
(** Refuted: "the features that are asked for are part of the dependency". *)
Theorem C119_features_refuted preq s features : find_sub (s ++ bs ":features=" ++ features) (bs ":features=") = Some (length s) -> find_sub s (bs ":features=") = None ->
  parse_dep preq (bs "cargo:" ++ s ++ bs ":features=" ++ features) = parse_dep preq (bs "cargo:" ++ s).
Proof.
  intros F F0. unfold parse_dep, strip.
  assert (P : forall x, starts_with (bs "cargo:" ++ x) (bs "pip:") = false) by (intros x; reflexivity). rewrite !P.
  assert (C : forall x, starts_with (bs "cargo:" ++ x) (bs "cargo:") = true) by (intros x; unfold starts_with; apply beqb_spec; rewrite firstn_app, Nat.sub_diag, firstn_all; apply app_nil_r). rewrite !C.
  assert (K : forall x, skipn (length (bs "cargo:")) (bs "cargo:" ++ x) = x) by (intros x; reflexivity). rewrite !K. unfold without_features. rewrite F, F0. rewrite firstn_app, Nat.sub_diag, firstn_all. cbn [firstn]. rewrite app_nil_r. reflexivity.
Qed.
Print Assumptions C119_features_refuted.
(** A stand-in for the library: one digit is a requirement. *)
Definition digit (s : bytes) : option N := match s with [c] => if (48 <=? c) && (c <=? 57) then Some (c - 48) else None | _ => None end.
Example C119_ex : parse_dep digit (bs "lidar@3") = Some (mkDep (bs "lidar") 3 FromRegistry) /\ parse_dep digit (bs "lidar@x") = None /\ parse_dep digit (bs "lidar@latest") = Some (mkDep (bs "lidar") 0 FromRegistry) /\
  parse_dep digit (bs "pip:numpy@2") = Some (mkDep (bs "numpy") 2 (FromPip (bs "numpy"))) /\ parse_dep digit (bs "horus_py@x") = Some (mkDep (bs "horus_py") 0 (FromPip (bs "horus-robotics"))) /\
  parse_dep digit (bs "@acme/arm@1") = None /\ listed digit [(bs "@acme/arm", Some (bs "1")); (bs "cam", None)] = [mkDep (bs "cam") 0 FromRegistry] /\
  parse_dep digit (bs "cargo:serde@1:features=derive") = parse_dep digit (bs "cargo:serde@1") /\ (forall s, digit s <> None -> ~ In 47 s).
Proof.
  repeat (split; [vm_compute; reflexivity|]). intros [|c [|x r]] H I; cbn [digit] in H; [destruct I| |congruence]. destruct I as [-> |[]]. vm_compute in H. congruence.
Qed.
