(** Properties C123 and C124: the pins of a lock file, and files saved whole. *)
From Coq Require Import String Sorting.Sorted.
From Verif.Base Require Import Prelude Bytes Str.
From Verif.Model Require Import Lockfile.
From Verif.Spec Require Import LockfileSpec.
From Verif.Proofs Require Import LockfileProofs.
Open Scope string_scope.
Open Scope list_scope.
Open Scope nat_scope.

(** ** C123: pins *)

(** After any pins, the lock file lists exactly the last pin of each package. *)
Theorem C123_pinned : forall h p, In p (pins h) <-> latest h p.
Proof. exact pins_in. Qed.
Print Assumptions C123_pinned.

(** It lists them in one order, by source and then by name, each once. *)
Theorem C123_sorted : forall h, StronglySorted listed_before (pins h).
Proof. exact pins_sorted. Qed.
Print Assumptions C123_sorted.

(** Two histories that end with the same pins give the same list, however they got there. *)
Theorem C123_same : forall h1 h2, (forall p, latest h1 p <-> latest h2 p) -> pins h1 = pins h2.
Proof.
  intros h1 h2 E. apply sorted_same; [apply pins_sorted|apply pins_sorted|].
  intros x. rewrite !pins_in. apply E.
Qed.
Print Assumptions C123_same.

(** [horus lock] keeps the pins of a lock file it can read. *)
Theorem C123_relock : forall f t, (3 <= lf_version f)%N ->
  lf_packages (horus_lock (Some (Some f)) t) = lf_packages f /\
  (forall current, is_stale (horus_lock (Some (Some f)) t) current = is_stale f current).
Proof.
  intros f t V. unfold horus_lock, lf_load. apply N.leb_le in V. rewrite V. split; auto.
Qed.
Print Assumptions C123_relock.

(** A lock file is out of date exactly when its hash is not the one of the configuration. *)
Theorem C123_stale : forall f current, is_stale f current = false <-> lf_hash f = Some current.
Proof.
  intros f current; unfold is_stale. destruct (lf_hash f) as [h|]; [|split; discriminate].
  rewrite negb_false_iff, beqb_spec. split; congruence.
Qed.
Print Assumptions C123_stale.

(** Not so for a lock file with two entries for a package: a pin changes at most
    the first and the other stays as it was, whatever is pinned. *)
Theorem C123_duplicate_refuted : forall p l1 q l2 r l3, same_package q r ->
  In r (pin (l1 ++ q :: l2 ++ r :: l3) p).
Proof.
  intros p l1 q l2 r l3 S. unfold pin.
  eapply Permutation.Permutation_in; [symmetry; apply sort_perm|]. apply put_keeps, S.
Qed.
Print Assumptions C123_duplicate_refuted.

(** [horus lock] over a lock file that is older, or that cannot be parsed,
    replaces it by one without any pin, and says it generated it. *)
Theorem C123_dropped_refuted : forall t,
  lf_packages (horus_lock (Some None) t) = [] /\
  forall f, (lf_version f < 3)%N -> lf_packages (horus_lock (Some (Some f)) t) = [].
Proof.
  intros t; split; [reflexivity|]. intros f V. unfold horus_lock, lf_load.
  apply N.leb_gt in V. rewrite V. reflexivity.
Qed.
Print Assumptions C123_dropped_refuted.

(** "v3 lockfiles ... will be upgraded to v4 on next write": none is. *)
Theorem C123_upgrade_refuted : forall f t, (3 <= lf_version f)%N ->
  lf_version (horus_lock (Some (Some f)) t) = lf_version f.
Proof. intros f t V. unfold horus_lock, lf_load. apply N.leb_le in V. rewrite V. reflexivity. Qed.
Print Assumptions C123_upgrade_refuted.

Example C123_ex :
  let p (n v s : string) := mkLocked (bs n) (bs v) (bs s) None in
  pins [p "serde" "1.0" "crates.io"; p "numpy" "1.26" "pypi"; p "serde" "1.1" "crates.io";
        p "anyhow" "1.0" "crates.io"]
  = [p "anyhow" "1.0" "crates.io"; p "serde" "1.1" "crates.io"; p "numpy" "1.26" "pypi"] /\
  pins [p "numpy" "1.26" "pypi"; p "anyhow" "1.0" "crates.io"; p "serde" "1.1" "crates.io"]
  = [p "anyhow" "1.0" "crates.io"; p "serde" "1.1" "crates.io"; p "numpy" "1.26" "pypi"]
  /\ latest [p "serde" "1.0" "crates.io"; p "serde" "1.1" "crates.io"] (p "serde" "1.1" "crates.io").
Proof.
  cbn zeta. split; [vm_compute; reflexivity|]. split; [vm_compute; reflexivity|].
  exists [mkLocked (bs "serde") (bs "1.0") (bs "crates.io") None], []. split; [reflexivity|intros q []].
Qed.

(** ** C124: whole files *)

(** A save stopped at any step leaves the whole of what was there or the whole of
    what is saved; it leaves the latter exactly when the rename was reached. *)
Theorem C124_atomic : forall d c ns w d', disk_ok d -> save_run c ns WStart d = (w, d') ->
  disk_ok d' /\ ((w = WDone /\ d_read d' = Some c) \/ (w <> WDone /\ d_read d' = d_read d)).
Proof. exact save_run_atomic. Qed.
Print Assumptions C124_atomic.

(** So after any history of saves, some stopped anywhere, what is read is what was
    there first or the whole of one save; and never older than a save that had
    enough steps (a step for each byte is enough, with two for opening and renaming). *)
Theorem C124_history : forall h d, disk_ok d ->
  d_read (saves_run h d) = d_read d \/ exists c ns, In (c, ns) h /\ d_read (saves_run h d) = Some c.
Proof. intros h d O. apply saves_ok, O. Qed.
Print Assumptions C124_history.

Theorem C124_kept : forall h1 c ns h2 d, disk_ok d -> List.length c + 2 <= List.length ns ->
  d_read (saves_run (h1 ++ (c, ns) :: h2) d) = Some c \/
  exists c2 n2, In (c2, n2) h2 /\ d_read (saves_run (h1 ++ (c, ns) :: h2) d) = Some c2.
Proof. exact saves_kept. Qed.
Print Assumptions C124_kept.

(** Not so with two processes, which share the temporary file: for any two
    contents there is a schedule in which one save succeeds and the file is
    empty, and the other save never succeeds, however it goes on. *)
Theorem C124_concurrent_refuted : forall d c1 c2, disk_ok d -> c1 <> [] -> c2 <> [] ->
  exists s w2 d', both_run c1 c2 s WStart WStart d = (WDone, w2, d') /\ d_read d' = Some [] /\
    (forall s2 w1' w2' d2, both_run c1 c2 s2 WDone w2 d' = (w1', w2', d2) -> w2' <> WDone).
Proof. exact both_clash. Qed.
Print Assumptions C124_concurrent_refuted.

(** Nor for the registry of plugins: stopped after its first step, whatever was
    there is lost. *)
Theorem C124_plugins_refuted : forall c d, exists ns w d',
  plain_run c ns WStart d = (w, d') /\ w <> WDone /\ d_read d' = Some [].
Proof.
  intros c d. exists [0]. unfold plain_run, plain_step, d_read. destruct (d_target d) as [i|] eqn:T.
  - eexists _, _. split; [reflexivity|]. split; [discriminate|]. cbn. rewrite upd_same. reflexivity.
  - eexists _, _. split; [reflexivity|]. split; [discriminate|]. cbn. rewrite upd_same. reflexivity.
Qed.
Print Assumptions C124_plugins_refuted.

Example C124_ex :
  let d := mkDisk (Some 0) None (fun _ => bs "old") 1 in
  disk_ok d /\
  d_read (snd (save_run (bs "newer") [0; 2; 1] WStart d)) = Some (bs "old") /\
  d_read (snd (save_run (bs "newer") [0; 2; 1; 9; 0] WStart d)) = Some (bs "newer") /\
  d_read (saves_run [(bs "newer", [0; 2; 1]); (bs "ok", [0; 1; 1; 0])] d) = Some (bs "ok").
Proof.
  cbn zeta. split; [|vm_compute; tauto]. split; [|split]; cbn; [intros i [= <-]; lia|discriminate|discriminate].
Qed.
