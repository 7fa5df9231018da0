(** Runtime parameters (C40) and how the store is built (C58). *)
From Coq Require Import QArith String.
From Verif Require Import Base.Prelude Base.Bytes Base.Str Base.AMap
  Model.Params Spec.ParamsSpec Proofs.ParamsProofs.
Open Scope nat_scope.

Section C40.
Variable regex : bytes -> option (bytes -> bool).
Variable meta : bytes -> option (bool * list rule).
Variable callbacks : list (bytes -> option json -> json -> bool).
Notation run := (run regex meta callbacks).

(** A rule judges a value: its bounds are numbers, and a required-keys rule is
    applied to an object. *)
Definition applies (r : rule) (v : json) : Prop :=
  nan_free r = true /\ object_rule_ok r v = true.
Definition obeys (k : bytes) (v : json) : Prop :=
  forall ro rules, meta k = Some (ro, rules) ->
  forall r, In r rules -> applies r v -> meets regex r v.
Definition is_load (c : option call) : Prop := match c with Some (Load _) => True | _ => False end.

Lemma admitted_obeys k v : admitted regex meta k v = true -> obeys k v.
Proof.
  unfold admitted. intros A ro rules M r J [N O]. rewrite M in A. apply andb_prop in A as [_ A].
  unfold validate in A. rewrite forallb_forall in A. now apply (check_spec regex r v N O), A.
Qed.

(** Whatever threads do through [set], [set_with_version], [remove] and [reset],
    in any interleaving, every stored value obeys the rules of its parameter. *)
Theorem C40_rules_enforced m w :
  (forall k v, lookup beqb k m = Some v -> obeys k v) ->
  Forall (fun ta => ~ is_load (snd ta)) w ->
  forall k v, lookup beqb k (ps (run (start m) w)) = Some v -> obeys k v.
Proof.
  intros M W. apply (stored_run regex meta callbacks obeys m w); auto.
  - intros k v old A _. now apply admitted_obeys.
  - rewrite Forall_forall in W |- *. intros [t a] J. specialize (W _ J). cbn [snd] in *.
    destruct a as [[]|]; cbn; auto; [apply admitted_obeys|]. exfalso. apply W. exact I.
Qed.

(** A refused or accepted value is judged exactly by the rules. *)
Theorem C40_validation_exact rules v :
  (forall r, In r rules -> applies r v) ->
  validate regex rules v = true <-> (forall r, In r rules -> meets regex r v).
Proof.
  intros A. rewrite validate_spec; [apply Forall_forall| |]; apply forallb_forall;
    intros r J; now destruct (A r J).
Qed.

(** A read-only parameter is never given another value. *)
Theorem C40_read_only m w k rules : meta k = Some (true, rules) ->
  Forall (fun ta => ~ is_load (snd ta)) w ->
  let now := lookup beqb k (ps (run (start m) w)) in
  (now = None \/ now = lookup beqb k m)
  /\ (Forall (fun ta => keeps k (snd ta)) w -> now = lookup beqb k m).
Proof.
  intros M W now.
  assert (forall v, now = Some v -> lookup beqb k m = Some v) as K.
  { intros v. set (P := fun k' v => k' = k -> lookup beqb k m = Some v).
    assert (forall k' v, admitted regex meta k' v = true -> P k' v) as Ad.
    { intros k' v' A ->. unfold admitted in A. now rewrite M in A. }
    intros Q. refine (proj1 (stored_run regex meta callbacks P m w _ _ _) k v Q eq_refl).
    - intros k' v' old A _. auto.
    - now intros k' v' L ->.
    - rewrite Forall_forall in W |- *. intros [t a] J. specialize (W _ J). cbn [snd] in *.
      destruct a as [[]|]; cbn; auto. exfalso. apply W. exact I. }
  split.
  - destruct now as [v|] eqn:E; [right; symmetry; auto|now left].
  - intros Kp. destruct now as [v|] eqn:E; [symmetry; auto|].
    destruct (lookup beqb k m) eqn:Em; auto. exfalso.
    apply (keeps_run regex meta callbacks m w k Kp); [congruence|exact E].
Qed.

(** The version of a parameter is the number of successful sets of it. *)
Theorem C40_version_counts m w k :
  let s := run (start m) w in version s k = changes k (log s).
Proof. exact (i_count _ (inv1_run regex meta callbacks m w) k). Qed.

(** A versioned set that quotes a version read earlier succeeds only if no set
    of the parameter completed in between, and reports a conflict only if one
    did. *)
Theorem C40_versioned_set m w k l1 t1 n l2 t2 l3 :
  let s := run (start m) w in
  (forall v old, log s = l1 ++ GotVersion t1 k n :: l2 ++ CasOk t2 k n v old :: l3 -> changes k l2 = 0)
  /\ (log s = l1 ++ GotVersion t1 k n :: l2 ++ CasStale t2 k n :: l3 -> 0 < changes k l2).
Proof.
  intros s. pose proof (i_log _ (inv1_run regex meta callbacks m w)) as L. split.
  - intros v old Q. exact (proj1 (between regex meta k _ _ _ _ _ _ _ L Q) t2 v old eq_refl).
  - intros Q. exact (proj2 (between regex meta k _ _ _ _ _ _ _ L Q) t2 eq_refl).
Qed.

(** Of any number of versioned sets quoting the same version, one at most wins. *)
Theorem C40_one_winner m w k n l1 t1 v1 o1 l2 t2 v2 o2 l3 :
  log (run (start m) w) <> l1 ++ CasOk t1 k n v1 o1 :: l2 ++ CasOk t2 k n v2 o2 :: l3.
Proof.
  intros Q. pose proof (i_log _ (inv1_run regex meta callbacks m w)) as L.
  pose proof (L _ _ _ Q) as A. cbn in A.
  change (CasOk t1 k n v1 o1 :: l2 ++ CasOk t2 k n v2 o2 :: l3)
    with ((CasOk t1 k n v1 o1 :: l2) ++ CasOk t2 k n v2 o2 :: l3) in Q.
  rewrite app_assoc in Q. pose proof (L _ _ _ Q) as B. cbn in B.
  change (CasOk t1 k n v1 o1 :: l2) with ([CasOk t1 k n v1 o1] ++ l2) in B.
  rewrite changes_app, changes_app, changes1, beqb_refl in B. lia.
Qed.

(** If a parameter is only written by versioned sets, none is lost: each replaces
    exactly the value its predecessor wrote, and the last one stands. *)
Theorem C40_no_lost_update m w k :
  Forall (fun ta => match snd ta with Some c => ~ writes_otherwise k c | None => True end) w ->
  let s := run (start m) w in
  (forall l1 t e v old l2, log s = l1 ++ CasOk t k e v old :: l2 ->
     old = last_cas k (lookup beqb k m) l1)
  /\ ((forall t, thr s t = Idle) -> lookup beqb k (ps s) = last_cas k (lookup beqb k m) (log s)).
Proof.
  intros W s. pose proof (inv2_run regex meta callbacks m w k W) as J. split.
  - exact (j_log _ _ _ J).
  - intros Q. apply (j_none _ _ _ J). intros t. fold s. now rewrite Q.
Qed.

(** A value set with [set] passed every change callback. *)
Theorem C40_callbacks_consulted m w :
  Forall (fun ta => match snd ta with Some (Cas _ _ _) | Some (Load _) => False | _ => True end) w ->
  forall k v, lookup beqb k (ps (run (start m) w)) = Some v ->
    lookup beqb k m = Some v \/ exists old, forall cb, In cb callbacks -> cb k old v = true.
Proof.
  intros W.
  apply (stored_run regex meta callbacks
    (fun k v => lookup beqb k m = Some v \/ exists old, forall cb, In cb callbacks -> cb k old v = true) m w).
  - intros k v old _ A. right. exists old. unfold accepted in A. now rewrite forallb_forall in A.
  - auto.
  - rewrite Forall_forall in W |- *. intros [t a] J. specialize (W _ J). cbn [snd] in *.
    destruct a as [[]|]; cbn; auto; tauto.
Qed.

(** A thread holding the version lock can always finish and release it. *)
Theorem C40_lock_released m w t : vlock (run (start m) w) = Some t ->
  exists n, n <= 2 /\ vlock (run (start m) (w ++ repeat (t, None) n)) = None.
Proof.
  intros V. set (s := run (start m) w) in *.
  assert (forall a b s0, run s0 (a ++ b) = run (run s0 a) b) as App.
  { induction a as [|[u c] a IH]; intros b s0; auto. cbn [app Params.run]. apply IH. }
  assert (holds (thr s t) = true) as H by (apply (i_lock _ (inv1_run regex meta callbacks m w)); exact V).
  assert (forall n, run (start m) (w ++ repeat (t, None) n) = run s (repeat (t, None) n)) as R
    by (intros n; apply App).
  destruct (thr s t) eqn:E; try discriminate.
  - exists 2. split; auto. rewrite R. cbn [repeat Params.run]. unfold Params.step at 2. rewrite E.
    unfold Params.step. cbn [thr upd]. rewrite at_same. reflexivity.
  - exists 1. split; auto. rewrite R. cbn [repeat Params.run]. unfold Params.step. rewrite E. reflexivity.
Qed.
End C40.
Print Assumptions C40_rules_enforced.
Print Assumptions C40_validation_exact.
Print Assumptions C40_read_only.
Print Assumptions C40_version_counts.
Print Assumptions C40_versioned_set.
Print Assumptions C40_one_winner.
Print Assumptions C40_no_lost_update.
Print Assumptions C40_callbacks_consulted.
Print Assumptions C40_lock_released.

(** *** What does not hold *)
Definition no_regex : bytes -> option (bytes -> bool) := fun _ => None.
Definition speed := bs "max_speed".
Definition init1 : store := [(speed, JNum 1)].

(** [set] stores the value before it bumps the version, so a versioned set that
    read version and value first can still overwrite a concurrent [set]. *)
Theorem C40_lost_update_refuted :
  ~ (forall m w l1 t k n l2 x l3 v old l4,
       log (run no_regex (fun _ => None) [] (start m) w)
         = l1 ++ GotVersion t k n :: l2 ++ Got t k x :: l3 ++ CasOk t k n v old :: l4 -> old = x).
Proof.
  intros K.
  specialize (K init1 [(0, Some (Version speed)); (0, Some (Get speed));
                       (1, Some (Set_ speed (JNum 2))); (1, None);
                       (0, Some (Cas speed (JNum 3) 0)); (0, None); (0, None); (1, None)]
                [] 0 speed 0 [] (Some (JNum 1)) [] (JNum 3) (Some (JNum 2)) [SetOk 1 speed (JNum 2)]).
  specialize (K eq_refl). inversion K.
Qed.
Print Assumptions C40_lost_update_refuted.

(** [remove] ignores the read-only flag and leaves the version unchanged, so a
    versioned set does not notice it. *)
Definition ro_meta : bytes -> option (bool * list rule) :=
  fun k => if beqb k speed then Some (true, []) else None.
Theorem C40_remove_read_only_refuted :
  ~ (forall m w, Forall (fun ta => ~ is_load (snd ta)) w ->
       lookup beqb speed (ps (run no_regex ro_meta [] (start m) w)) = lookup beqb speed m).
Proof.
  intros K. specialize (K init1 [(0, Some (Remove speed))]).
  assert (None = Some (JNum 1)) as Q; [|discriminate Q]. apply K. constructor; auto.
Qed.
Print Assumptions C40_remove_read_only_refuted.
Theorem C40_remove_unnoticed_refuted :
  ~ (forall m w l1 t k n l2 u l3 v old l4,
       log (run no_regex (fun _ => None) [] (start m) w)
         = l1 ++ GotVersion t k n :: l2 ++ Removed u k :: l3 ++ CasOk t k n v old :: l4 -> False).
Proof.
  intros K.
  exact (K init1 [(0, Some (Version speed)); (1, Some (Remove speed));
                  (0, Some (Cas speed (JNum 3) 0)); (0, None); (0, None)]
           [] 0 speed 0 [] 1 [] (JNum 3) None [] eq_refl).
Qed.
Print Assumptions C40_remove_unnoticed_refuted.

(** [load_from_disk] stores anything and bumps no version. *)
Definition min_meta : bytes -> option (bool * list rule) :=
  fun k => if beqb k speed then Some (false, [MaxValue (Fin 2)]) else None.
Theorem C40_load_checked_refuted :
  ~ (forall m w k v, (forall k v, lookup beqb k m = Some v -> obeys no_regex min_meta k v) ->
       lookup beqb k (ps (run no_regex min_meta [] (start m) w)) = Some v -> obeys no_regex min_meta k v).
Proof.
  intros K. specialize (K [] [(0, Some (Load [(speed, JNum 9)]))] speed (JNum 9)).
  assert (obeys no_regex min_meta speed (JNum 9)) as O by (apply K; [discriminate|reflexivity]).
  destruct (O false [MaxValue (Fin 2)] eq_refl (MaxValue (Fin 2)) (or_introl eq_refl)) as (x & X & L).
  - split; reflexivity.
  - inv X. cbv in L. now apply L.
Qed.
Print Assumptions C40_load_checked_refuted.

(** [set_with_version] does not ask the change callbacks. *)
Theorem C40_versioned_callbacks_refuted :
  ~ (forall cb m w k v, lookup beqb k (ps (run no_regex (fun _ => None) [cb] (start m) w)) = Some v ->
       Forall (fun ta => ~ is_load (snd ta)) w ->
       lookup beqb k m = Some v \/ exists old, cb k old v = true).
Proof.
  intros K.
  destruct (K (fun _ _ _ => false) [] [(0, Some (Cas speed (JNum 9) 0)); (0, None); (0, None)]
              speed (JNum 9) eq_refl) as [Q|[old Q]]; try discriminate Q.
  repeat constructor; auto.
Qed.
Print Assumptions C40_versioned_callbacks_refuted.

(** [reset] clears first: if a default is refused, the parameters after it are
    gone, the emergency-stop distance among them. *)
Theorem C40_reset_atomic_refuted :
  exists cb w,
    let s := run no_regex (fun _ => None) [cb] (start defaults) w in
    (forall t, thr s t = Idle) /\ (exists t v, In (Refused t (bs "camera_fps") v) (log s))
    /\ (exists v, lookup beqb (bs "emergency_stop_distance") defaults = Some v)
    /\ lookup beqb (bs "emergency_stop_distance") (ps s) = None.
Proof.
  exists (fun k _ _ => negb (beqb k (bs "camera_fps"))).
  exists [(0, Some Reset); (0, None); (0, None); (0, None); (0, None)].
  cbv zeta. split; [|split; [|split]].
  - intros t. vm_compute. destruct t as [|t]; reflexivity.
  - exists 0, (JNum 30). vm_compute. auto.
  - eexists. reflexivity.
  - reflexivity.
Qed.
Print Assumptions C40_reset_atomic_refuted.

(** A required-keys rule lets every value through that is not an object, and a
    bound that is not a number lets every number through. *)
Theorem C40_required_keys_refuted :
  ~ (forall rules v, validate no_regex rules v = true -> forall r, In r rules -> meets no_regex r v).
Proof.
  intros K. destruct (K [RequiredKeys [bs "x"]] (JNum 3) eq_refl _ (or_introl eq_refl)) as (o & O & _).
  discriminate O.
Qed.
Print Assumptions C40_required_keys_refuted.
Theorem C40_nan_bound_refuted :
  ~ (forall rules v, (forall ks, ~ In (RequiredKeys ks) rules) ->
       validate no_regex rules v = true -> forall r, In r rules -> meets no_regex r v).
Proof.
  intros K. destruct (K [MaxValue NaN] (JNum 1000000)) with (r := MaxValue NaN) as (x & X & L).
  - intros ks [Q|[]]. discriminate Q.
  - reflexivity.
  - now left.
  - exact L.
Qed.
Print Assumptions C40_nan_bound_refuted.

(** A schedule in which a plain set, two racing versioned sets and a read of the
    version all take effect, under rules and a callback. *)
Example C40_example :
  let w := [(0, Some (Version speed)); (1, Some (Set_ speed (JNum 2))); (1, None); (1, None);
            (0, Some (Cas speed (JNum (3 # 2)) 0)); (2, Some (Cas speed (JNum (3 # 2)) 1));
            (3, Some (Version speed)); (2, None); (2, None); (3, Some (Version speed));
            (0, Some (Set_ speed (JNum 5)))] in
  let s := run no_regex min_meta [fun _ _ _ => true] (start init1) w in
  log s = [GotVersion 0 speed 0; SetOk 1 speed (JNum 2); CasStale 0 speed 0;
           CasOk 2 speed 1 (JNum (3 # 2)) (Some (JNum 2)); GotVersion 3 speed 2; Refused 0 speed (JNum 5)]
  /\ lookup beqb speed (ps s) = Some (JNum (3 # 2)).
Proof. split; reflexivity. Qed.

(** ** Building the store (C58) *)
Section C58.
Variable parse_dec : bytes -> option Q.
Variable yaml : bytes -> option store.

(** Each key has the value of the last environment variable naming it, else of
    params.yaml, else the built-in one; nothing else decides. *)
Theorem C58_layers f env m : new parse_dec yaml f env = Some m ->
  exists file, match f with
               | Absent => file = []
               | Unreadable => False
               | Text s => if blank s then file = [] else yaml s = Some file
               end
  /\ forall k, lookup beqb k m =
       match last_env (parse_env parse_dec) k env with
       | Some v => Some v
       | None => match last_entry k None file with Some v => Some v | None => lookup beqb k defaults end
       end.
Proof.
  unfold new. intros H.
  assert (forall file k, lookup beqb k (overlay (overlay defaults file) (env_layer parse_dec env))
     = match last_env (parse_env parse_dec) k env with
       | Some v => Some v
       | None => match last_entry k None file with Some v => Some v | None => lookup beqb k defaults end
       end) as K.
  { intros file k. rewrite look_overlay, last_entry_acc, look_overlay, (last_entry_acc k file).
    unfold last_env. now rewrite env_spec. }
  destruct f as [| |s]; try discriminate.
  - inv H. exists []. split; [reflexivity|exact (K [])].
  - destruct (blank s).
    + inv H. exists []. split; [reflexivity|exact (K [])].
    + destruct (yaml s) as [file|] eqn:Y; [|discriminate]. inv H. exists file. split; [reflexivity|exact (K file)].
Qed.

(** No setting of one parameter removes a built-in one. *)
Theorem C58_defaults_survive f env m k : new parse_dec yaml f env = Some m ->
  lookup beqb k defaults <> None -> lookup beqb k m <> None.
Proof.
  intros H D. destruct (C58_layers f env m H) as (file & _ & K). rewrite K.
  destruct (last_env _ k env); [discriminate|]. destruct (last_entry k None file); [discriminate|exact D].
Qed.

(** A file that is there but cannot be read or parsed stops start-up, whatever
    the environment says. *)
Theorem C58_bad_file_refused env s :
  new parse_dec yaml Unreadable env = None
  /\ (blank s = false -> yaml s = None -> new parse_dec yaml (Text s) env = None).
Proof.
  split; [reflexivity|]. intros B Y. unfold new. now rewrite B, Y.
Qed.

(** A saved store starts up with the saved values, whatever the YAML library,
    provided it reads back what it wrote. *)
Theorem C58_save_start to_yaml m :
  blank (to_yaml m) = false -> yaml (to_yaml m) = Some m -> NoDup (keys m) ->
  exists m', new parse_dec yaml (Text (to_yaml m)) [] = Some m'
    /\ forall k v, lookup beqb k m = Some v -> lookup beqb k m' = Some v.
Proof.
  intros B Y ND. unfold new. rewrite B, Y. eexists. split; [reflexivity|].
  intros k v L. cbn [env_layer flat_map]. unfold overlay at 1. cbn [fold_left].
  rewrite look_overlay, last_entry_acc.
  enough (last_entry k None m = Some v) as -> by reflexivity. clear B Y.
  induction m as [|[k' v'] m IH]; [discriminate|]. cbn [last_entry lookup] in *. inv ND.
  destruct (beqb k k') eqn:E.
  - inv L. apply beqb_spec in E as ->. rewrite last_entry_acc.
    enough (last_entry k' None m = None) as -> by reflexivity. clear IH H2.
    induction m as [|[k2 v2] m IH]; auto. cbn [last_entry].
    rewrite beqb_neq by (intros ->; apply H1; now left). apply IH. intros J. apply H1. now right.
  - auto.
Qed.
End C58.
Print Assumptions C58_layers.
Print Assumptions C58_defaults_survive.
Print Assumptions C58_bad_file_refused.
Print Assumptions C58_save_start.

(** Opened without error reporting, the store still has every built-in key. *)
Theorem C58_default_keeps_builtins parse_dec yaml f env k :
  lookup beqb k defaults <> None -> lookup beqb k (default_new parse_dec yaml f env) <> None.
Proof.
  intros D. unfold default_new. destruct (new parse_dec yaml f env) as [m|] eqn:E; auto.
  now apply (C58_defaults_survive parse_dec yaml f env m k).
Qed.
Print Assumptions C58_default_keeps_builtins.

(** Whole numbers of 64 bits in the environment, with or without sign, are taken
    at their decimal value; longer ones are not taken for whole numbers. *)
Theorem C58_integers parse_dec sign (ds : list N) :
  In sign [[]; [43]; [45]]%N -> ds <> [] -> (forall d, In d ds -> d < 10)%N ->
  let z := (if beqb sign [45%N] then - decimal ds else decimal ds)%Z in
  let text := sign ++ map (fun d => d + 48)%N ds in
  parse_i64 text = (if ((- 9223372036854775808 <=? z) && (z <=? 9223372036854775807))%Z then Some z else None)
  /\ ((- 9223372036854775808 <= z <= 9223372036854775807)%Z -> parse_env parse_dec text = JNum (inject_Z z)).
Proof. apply integers_exact. Qed.
Print Assumptions C58_integers.
Example C58_integers_case :
  parse_i64 (bs "-9223372036854775808") = Some (-9223372036854775808)%Z
  /\ parse_i64 (bs "9223372036854775808") = None /\ parse_i64 (bs "+42") = Some 42%Z
  /\ decimal [9; 2; 3; 3; 7]%N = 92337%Z /\ parse_i64 (bs "-") = None /\ parse_i64 (bs "4 ") = None.
Proof. vm_compute. repeat split. Qed.

(** Saving is not atomic: a crash just after the file is truncated leaves an empty
    file, and the next start silently runs on the built-in values. *)
Theorem C58_save_crash_refuted :
  forall parse_dec yaml to_yaml m,
    exists n, new parse_dec yaml (save_crash to_yaml m n) [] = Some defaults.
Proof. intros. exists 0. reflexivity. Qed.
Print Assumptions C58_save_crash_refuted.

(** An environment value spelt like a special float becomes null, not text. *)
Theorem C58_text_values_refuted :
  ~ (forall parse_dec s, parse_i64 s = None -> parse_dec s = None ->
       s <> bs "true" -> s <> bs "false" -> parse_env parse_dec s = JStr s).
Proof.
  intros K. assert (parse_env (fun _ => None) (bs "Nan") = JStr (bs "Nan")) as Q.
  { apply K; try reflexivity; discriminate. }
  discriminate Q.
Qed.
Print Assumptions C58_text_values_refuted.

(** A file sets two keys, the environment overrides one of them and adds a third;
    the other defaults stay. *)
Example C58_example :
  let yaml := fun _ => Some [(speed, JNum 2); (bs "name", JStr (bs "r2"))] in
  let env := [(bs "HOME", bs "/root"); (bs "HORUS_PARAM_MAX_SPEED", bs "-7"); (bs "HORUS_PARAM_Sim", bs "true")] in
  exists m, new (fun _ => None) yaml (Text (bs "max_speed: 2")) env = Some m
    /\ lookup beqb speed m = Some (JNum (-7)) /\ lookup beqb (bs "sim") m = Some (JBool true)
    /\ lookup beqb (bs "name") m = Some (JStr (bs "r2"))
    /\ lookup beqb (bs "tick_rate") m = Some (JNum 30).
Proof. eexists. repeat split. Qed.
