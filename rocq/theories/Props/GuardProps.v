(** C23 (import/export guard) and C33 (topic registry). *)
From Coq Require Import String.
From Verif.Base Require Import Prelude Bytes AMap Str.
From Verif.Model Require Import Wire Reliability Registry Guard.
From Verif.Spec Require Import RegistrySpec GuardSpec.
From Verif.Proofs Require Import RegistryProofs GuardProofs.
Local Open Scope N_scope.

(** ** C23 *)
(** The matcher decides the declarative meaning of patterns: '*' is any string, every other
    byte itself. *)
Theorem C23_pattern_meaning : forall name pattern, glob_match name pattern = true <-> glob pattern name.
Proof. exact glob_match_iff. Qed.
Print Assumptions C23_pattern_meaning.
Theorem C23_import_exact : forall g name, allow_import g name = true <-> import_allowed g name.
Proof. exact import_iff. Qed.
Print Assumptions C23_import_exact.
Theorem C23_export_exact : forall g name, allow_export g name = true <-> export_allowed g name.
Proof. exact export_iff. Qed.
Print Assumptions C23_export_exact.
(** Whatever the mode, a reserved topic cannot be kept out. *)
Theorem C23_reserved_always_imported : forall g name, reserved name -> allow_import g name = true.
Proof. intros g name H. apply import_iff. left; auto. Qed.
Print Assumptions C23_reserved_always_imported.

Example C23_ex_star : glob (bs "arm.*.pos") (bs "arm.left.pos") /\ ~ glob (bs "a*b*c") (bs "acb").
Proof.
  split.
  - apply glob_match_iff. reflexivity.
  - intros H. apply glob_match_iff in H. discriminate.
Qed.
Example C23_ex_overlap : ~ glob (bs "ab*ba") (bs "aba") /\ glob (bs "ab*ba") (bs "abba").
Proof. split; [intros H; apply glob_match_iff in H; discriminate | apply glob_match_iff; reflexivity]. Qed.
Example C23_ex_modes :
  let reg := grun [GRegister (bs "cmd") 1 8 Subscriber true; GRegister (bs "odom") 2 8 Publisher true] in
  let g := mkGuard IAuto (EDenyList [bs "secret.*"]) (Some reg) in
  allow_import g (bs "cmd") = true /\ allow_import g (bs "odom") = false /\ allow_import g (bs "other") = false /\
  allow_export g (bs "secret.key") = false /\ allow_export g (bs "odom") = true /\
  allow_import (mkGuard IDeny EAll None) (bs "_horus.estop") = true.
Proof. repeat split; reflexivity. Qed.

(** ** C33 *)
Theorem C33_publishers : forall name h, has_publishers (grun h) name = true <-> holds_role covers_pub name h.
Proof. exact registry_publishers. Qed.
Print Assumptions C33_publishers.
Theorem C33_subscribers : forall name h, has_subscribers (grun h) name = true <-> holds_role covers_sub name h.
Proof. exact registry_subscribers. Qed.
Print Assumptions C33_subscribers.
Theorem C33_listed : forall name h,
  lookup beqb name (grun h) <> None <-> holds_role covers_pub name h \/ holds_role covers_sub name h.
Proof. exact registry_listed. Qed.
Print Assumptions C33_listed.
Theorem C33_role_wire : forall r v, role_from_wire v = Some r <-> v = role_to_wire r.
Proof. intros r v. split; [apply role_wire_inv | intros ->; apply role_wire]. Qed.
Print Assumptions C33_role_wire.
(** Through the lifecycle hook the registry tracks the live handles when no topic has two handles
    open at once (every open handle is listed as a subscriber, sending or not). *)
Theorem C33_live_handles_partial : forall evs name,
  one_handle_per_topic [] evs ->
  let '(hs, reg) := hrun [] [] evs in
  (lookup beqb name reg <> None <-> open_on hs name) /\
  (has_publishers reg name = true <-> publishing_on hs name) /\
  (has_subscribers reg name = true <-> open_on hs name).
Proof. exact single_handle. Qed.
Print Assumptions C33_live_handles_partial.
(** With two handles it does not: closing one erases the topic although the other still
    publishes, and opening a third then lets remote data in on a topic this process publishes. *)
Theorem C33_shared_topic_refuted : forall name th ts pod,
  ~ reserved name ->
  let evs := [HOpen 1 name th ts pod; HSend 1; HOpen 2 name th ts pod; HDrop 2] in
  (let '(hs, reg) := hrun [] [] evs in
   publishing_on hs name /\ lookup beqb name reg = None) /\
  (let '(hs, reg) := hrun [] [] (evs ++ [HOpen 3 name th ts pod]) in
   publishing_on hs name /\ allow_import (mkGuard IAuto EAll (Some reg)) name = true).
Proof.
  intros name th ts pod Hr evs.
  assert (Hb : beqb name name = true) by (apply beqb_spec; auto).
  assert (Hs : is_system_topic name = false).
  { destruct (is_system_topic name) eqn:E; auto. apply reserved_iff in E. contradiction. }
  assert (H1 : exists reg, hrun [] [] evs = ([(1, mkHandle name th ts pod true false)], reg) /\ lookup beqb name reg = None).
  { unfold evs. cbn [hrun hstep]. cbn [insert lookup N.eqb Pos.eqb fold_left hook app hs_sent hs_name hs_th hs_ts hs_pod hs_rcvd].
    eexists. split; [cbn; reflexivity|]. cbn. unfold register, unregister. cbn. rewrite !Hb. cbn. rewrite !Hb. cbn. rewrite ?Hb. cbn. rewrite ?Hb. cbn. rewrite ?Hb. reflexivity. }
  destruct H1 as (reg & E & El). split.
  - rewrite E. split; auto. exists 1, (mkHandle name th ts pod true false). cbn; auto.
  - assert (Happ : forall l hs rg l2, hrun hs rg (l ++ l2) = let '(h1, r1) := hrun hs rg l in hrun h1 r1 l2).
    { clear. induction l as [|e l IH]; intros; cbn [app hrun]; auto. destruct (hstep hs e). apply IH. }
    rewrite Happ, E. cbn [hrun hstep]. split.
    + exists 1, (mkHandle name th ts pod true false). split; [|split; reflexivity]. cbn [insert remove filter]. right. vm_compute. left; reflexivity.
    + unfold allow_import. cbn [g_import g_registry]. rewrite Hs. cbn [fold_left hook]. unfold register. rewrite El.
      rewrite (lookup_insert_eq beqb beqb_spec). reflexivity.
Qed.
Print Assumptions C33_shared_topic_refuted.
Example C33_ex_roles :
  let h := [GRegister (bs "a") 1 8 Publisher true; GRegister (bs "a") 1 8 Subscriber true; GUnregister (bs "a") Publisher] in
  has_publishers (grun h) (bs "a") = false /\ has_subscribers (grun h) (bs "a") = true.
Proof. split; reflexivity. Qed.
Example C33_ex_one_handle :
  one_handle_per_topic [] [HOpen 1 (bs "a") 1 8 true; HSend 1; HOpen 2 (bs "b") 1 8 true; HDrop 1; HOpen 3 (bs "a") 1 8 true].
Proof.
  cbn. repeat split; auto; intros (h & x & H & E); cbn in H.
  - destruct H.
  - destruct H as [H|H]; [injection H as <- <-; discriminate|destruct H].
  - destruct H as [H|H]; [injection H as <- <-; discriminate|destruct H].
Qed.
