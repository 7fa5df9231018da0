(** C107-C109: topic names, topic files, and their size. *)
From Coq Require Import String.
From Verif.Base Require Import Prelude Bytes Str.
From Verif.Model Require Import Grid ShmFiles.
From Verif.Spec Require Import ShmFilesSpec.
From Verif.Proofs Require Import ShmFilesProofs.
Open Scope list_scope.

(** ** C107 *)

(** A name both checks accept stands for a file below the topics directory. *)
Theorem C107_confined : forall dir s, ordinary dir -> topic_name_ok s = true -> region_name_ok s = true ->
  exists cs, cs <> [] /\ ordinary cs /\ resolve (topic_path dir s) = dir ++ cs.
Proof. intros dir s D T R. apply names_confined; [exact D|]. unfold name_ok. rewrite T, R. reflexivity. Qed.
Print Assumptions C107_confined.

(** Without empty components, different names are different files. *)
Theorem C107_distinct : forall dir a b, ordinary dir ->
  topic_name_ok a = true -> region_name_ok a = true -> topic_name_ok b = true -> region_name_ok b = true ->
  tidy a -> tidy b -> resolve (topic_path dir a) = resolve (topic_path dir b) -> a = b.
Proof. intros dir a b D TA RA TB RB. apply names_apart; unfold name_ok; [exact D|rewrite TA, RA|rewrite TB, RB]; reflexivity. Qed.
Print Assumptions C107_distinct.

(** With them they are not: doubling a slash gives another topic the same file. *)
Theorem C107_doubled_refuted : forall dir a b, ordinary dir ->
  topic_name_ok (a ++ bs "/" ++ b) = true -> region_name_ok (a ++ bs "/" ++ b) = true ->
  topic_name_ok (a ++ bs "//" ++ b) = true -> region_name_ok (a ++ bs "//" ++ b) = true ->
  a ++ bs "//" ++ b <> a ++ bs "/" ++ b
  /\ resolve (topic_path dir (a ++ bs "//" ++ b)) = resolve (topic_path dir (a ++ bs "/" ++ b)).
Proof.
  intros dir a b D T1 R1 T2 R2. split.
  - intro E. apply app_inv_head in E. apply (f_equal (@length _)) in E. rewrite !app_length in E. cbn in E. lia.
  - apply names_doubled; unfold name_ok; [exact D|rewrite T1, R1|rewrite T2, R2]; reflexivity.
Qed.
Print Assumptions C107_doubled_refuted.

(** The file of a topic is a directory on the way to the topics named below it. *)
Theorem C107_nested_refuted : forall dir a b, ordinary dir -> topic_name_ok a = true -> region_name_ok a = true ->
  topic_name_ok (a ++ bs "/" ++ b) = true -> region_name_ok (a ++ bs "/" ++ b) = true -> tidy b ->
  exists cs, cs <> [] /\ resolve (topic_path dir (a ++ bs "/" ++ b)) = resolve (topic_path dir a) ++ cs.
Proof. intros dir a b D T1 R1 T2 R2. apply names_nested; unfold name_ok; [exact D|rewrite T1, R1|rewrite T2, R2]; reflexivity. Qed.
Print Assumptions C107_nested_refuted.

(** The memory of the topic [s.meta] is the description file of the topic [s], which
    creating [s] overwrites and leaving [s] removes. *)
Theorem C107_meta_refuted : forall dir s, ordinary dir -> s <> [] ->
  Forall (fun b => alnum b = true \/ b = 95%N) s -> length s <= 250 ->
  topic_name_ok (s ++ bs ".meta") = true /\ region_name_ok (s ++ bs ".meta") = true
  /\ resolve (topic_path dir (s ++ bs ".meta")) = resolve (meta_path dir s).
Proof.
  intros dir s D N W L. destruct (names_meta dir s D (conj N W) L) as [O R].
  unfold name_ok in O. apply andb_true_iff in O as [O1 O2]. auto.
Qed.
Print Assumptions C107_meta_refuted.

(** Topics whose names differ only in punctuation share one description file. *)
Theorem C107_shared_meta_refuted : forall dir a b x y,
  alnum x = false -> x <> 95%N -> alnum y = false -> y <> 95%N ->
  meta_path dir (a ++ x :: b) = meta_path dir (a ++ y :: b).
Proof.
  intros dir a b x y X X' Y Y'. unfold meta_path, sanitize_ns. rewrite !map_app. cbn [map].
  apply N.eqb_neq in X', Y'. rewrite X, Y, X', Y'. reflexivity.
Qed.
Print Assumptions C107_shared_meta_refuted.

Example C107_ex :
  ordinary [bs "dev"; bs "shm"; bs "horus_default"; bs "topics"]
  /\ map (fun s => (topic_name_ok s, region_name_ok s))
       [bs "cmd_vel"; bs "robot/arm.joint-1"; bs "a/../b"; bs "../x"; bs "a b"; bs "/etc/passwd"; bs ""]
     = [(true, true); (true, true); (true, false); (true, false); (false, true); (true, false); (false, false)]
  /\ resolve (topic_path [bs "topics"] (bs "robot/arm.joint-1")) = [bs "topics"; bs "robot"; bs "arm.joint-1"]
  /\ resolve (topic_path [bs "topics"] (bs "../x")) = [bs "x"]
  /\ tidy (bs "robot/arm.joint-1") /\ ~ tidy (bs "robot//arm")
  /\ topic_name_ok (bs "robot//arm") = true /\ region_name_ok (bs "robot//arm") = true
  /\ meta_path [] (bs "a.b") = meta_path [] (bs "a/b").
Proof.
  split; [repeat constructor; discriminate|]. repeat split; try reflexivity.
  - repeat constructor; discriminate.
  - intro H. inversion H as [|? ? _ H']. inversion H' as [|? ? H'' _]. congruence.
Qed.

(** ** C108 *)

(** Operations run one after another, of any number of processes: all users of the
    topic are on the one memory its name leads to. *)
Theorem C108_serial : forall ops, one_memory (fold_left op_step ops no_files).
Proof. intro ops. apply settled_one, settled_run, settled_none. Qed.
Print Assumptions C108_serial.

(** Opening joins the file that is there, or makes a new memory. *)
Theorem C108_new : forall ops, let s := fold_left op_step ops no_files in
  exists i, uses (op_step s New) (length (f_hs s)) i /\ f_path (op_step s New) = Some i
    /\ (f_path s = Some i \/ (f_path s = None /\ forall h j, uses s h j -> j <> i))
    /\ forall h j, uses s h j -> uses (op_step s New) h j.
Proof. intros ops s. apply op_new. apply settled_run, settled_none. Qed.
Print Assumptions C108_new.

(** Leaving removes the file exactly when nobody else uses it, and disturbs nobody. *)
Theorem C108_drop : forall ops h i, let s := fold_left op_step ops no_files in uses s h i ->
  (forall j, ~ uses (op_step s (Drop h)) h j)
  /\ (forall k j, k <> h -> (uses (op_step s (Drop h)) k j <-> uses s k j))
  /\ ((exists k j, k <> h /\ uses s k j) -> f_path (op_step s (Drop h)) = f_path s)
  /\ (~ (exists k j, k <> h /\ uses s k j) -> f_path (op_step s (Drop h)) = None).
Proof. intros ops h i s. apply op_drop. apply settled_run, settled_none. Qed.
Print Assumptions C108_drop.

(** The cleaner removes the file exactly when nobody uses it. *)
Theorem C108_clean : forall ops, let s := fold_left op_step ops no_files in
  f_hs (op_step s Clean) = f_hs s
  /\ ((exists k j, uses s k j) -> f_path (op_step s Clean) = f_path s)
  /\ (~ (exists k j, uses s k j) -> f_path (op_step s Clean) = None).
Proof. intros ops s. apply op_clean. apply settled_run, settled_none. Qed.
Print Assumptions C108_clean.

(** While one user stays, every interleaving of the system calls of all the others,
    their crashes and the cleaner keeps everybody on its memory. *)
Theorem C108_keeper : forall ops k i cs, let s := fold_left op_step ops no_files in uses s k i ->
  Forall (fun c => c <> TryExclusive k /\ c <> Crash k) cs ->
  let t := fold_left call_step cs s in
  uses t k i /\ f_path t = Some i /\ forall h j, uses t h j -> j = i.
Proof.
  intros ops k i cs s U F t. assert (S : settled s) by (apply settled_run, settled_none).
  destruct (kept_run k i cs s F (kept_start s k i S U)) as (_ & P & U' & H).
  split; [exact U'|]. split; [exact P|]. intros h j UJ. destruct (H h _ UJ) as [E|[E|E]]; [discriminate|congruence|discriminate].
Qed.
Print Assumptions C108_keeper.

(** When nobody stays it fails.  One process opens the topic while its only user [h]
    leaves; the file goes between the newcomer's open and its lock, and the next to
    come makes a second memory: both are in use.  Then the first of the two, leaving,
    removes the file of the other. *)
Theorem C108_join_refuted : forall ops h i, let s := fold_left op_step ops no_files in
  uses s h i -> (forall k j, uses s k j -> k = h) ->
  let n := length (f_hs s) in
  let t := fold_left call_step
    [CreateOrOpen; TryExclusive h; Unlink h; LockShared n; CreateOrOpen; LockShared (S n)] s in
  (uses t n i /\ exists j, uses t (S n) j /\ i <> j /\ f_path t = Some j)
  /\ (let u := fold_left call_step [TryExclusive n; Unlink n] t in f_path u = None /\ exists j, uses u (S n) j).
Proof. intros ops h i s U SO. apply (race_join s h i); [apply settled_run, settled_none|exact U|exact SO]. Qed.
Print Assumptions C108_join_refuted.

(** The same with the cleaner and a file left by a crash. *)
Theorem C108_cleaner_refuted : forall ops i, let s := fold_left op_step ops no_files in
  f_path s = Some i -> (forall k j, ~ uses s k j) ->
  let n := length (f_hs s) in
  let t := fold_left call_step
    [CheckStale; CreateOrOpen; LockShared n; RemoveStale; CreateOrOpen; LockShared (S n)] s in
  uses t n i /\ exists j, uses t (S n) j /\ i <> j /\ f_path t = Some j.
Proof. intros ops i s P NO. apply (race_clean s i); [apply settled_run, settled_none|exact P|exact NO]. Qed.
Print Assumptions C108_cleaner_refuted.

Example C108_ex :
  let s := fold_left op_step [New; New; Drop 0; Clean; New; Kill 1] no_files in
  f_hs s = [Gone; Gone; Live 0] /\ f_path s = Some 0
  /\ f_path (op_step s (Drop 2)) = None
  /\ f_hs (fold_left op_step [Drop 2; New] s) = [Gone; Gone; Gone; Live 1]
  /\ (let t := fold_left op_step [New; Kill 0] no_files in f_path t = Some 0 /\ f_hs t = [Gone] /\ f_path (op_step t Clean) = None).
Proof. repeat split. Qed.

(** ** C109 *)

(** All regions of one size, and no growth: no interleaving maps beyond the file. *)
Theorem C109_same_size : forall n cs, Forall (same_size n) cs -> ~ past_end (fold_left scall_step cs no_sized).
Proof. intros n cs F. apply (fitting_end n), fitting_run; [exact F|apply fitting_none]. Qed.
Print Assumptions C109_same_size.

(** One region at a time, of any sizes, growing to no less than the file: neither. *)
Theorem C109_serial : forall os, careful no_sized os -> ~ past_end (fold_left sop_step os no_sized).
Proof. intros os C. apply resting_end, resting_run; [apply resting_none|exact C]. Qed.
Print Assumptions C109_serial.

(** And a region opened later leaves what the others have written. *)
Theorem C109_kept : forall os n, careful no_sized os ->
  z_data (sop_step (fold_left sop_step os no_sized) (ONew n)) = z_data (fold_left sop_step os no_sized).
Proof. intros os n C. apply new_keeps, resting_run; [apply resting_none|exact C]. Qed.
Print Assumptions C109_kept.

(** Sizes that differ: a joiner that looked before the creator set the length cuts
    the file below the creator's mapping. *)
Theorem C109_sizes_refuted : forall a b, 0 < b -> b < a ->
  past_end (fold_left scall_step [SOpen a; SOpen b; SStat 1; SSetNew 0; SClear 0; SFit 1] no_sized).
Proof.
  intros a b B L. exists 0, a, b. cbn. destruct b as [|b]; [lia|]. cbn. auto.
Qed.
Print Assumptions C109_sizes_refuted.

(** Growth: two users of size [a]; one grows to [b], the other to less. *)
Theorem C109_growth_refuted : forall a g b, 0 < a -> a < g -> g < b ->
  past_end (fold_left sop_step [ONew a; ONew a; OGrow 0 b; OGrow 1 g] no_sized).
Proof.
  intros a g b A G L. cbn [fold_left]. rewrite (new_result no_sized a) by apply resting_none. cbn [z_len no_sized].
  rewrite new_result. 2: { split; [discriminate|]. intros [|[|h]] p; cbn; try discriminate. intros [= <-]. eauto. }
  cbn [z_len z_hs z_data app]. rewrite Nat.max_id. unfold sop_step. cbn [scalls_of fold_left].
  assert (E1 : scall_step (Sized (Some a) None [SMapped a; SMapped a]) (SGrow 0 b) = Sized (Some b) None [SMapped b; SMapped a]).
  { cbn [scall_step z_hs nth_error]. replace (a <? b) with true by (symmetry; apply Nat.ltb_lt; lia). reflexivity. }
  rewrite E1.
  assert (E2 : scall_step (Sized (Some b) None [SMapped b; SMapped a]) (SGrow 1 g) = Sized (Some g) None [SMapped b; SMapped g]).
  { cbn [scall_step z_hs nth_error]. replace (a <? g) with true by (symmetry; apply Nat.ltb_lt; lia). reflexivity. }
  rewrite E2. exists 0, b, g. cbn. auto.
Qed.
Print Assumptions C109_growth_refuted.

(** The creator clears the memory last: what a quicker joiner wrote by then is lost. *)
Theorem C109_cleared_refuted : forall a b v,
  let s := fold_left scall_step [SOpen a; SSetNew 0; SOpen b; SStat 1; SFit 1; SWrite 1 v] no_sized in
  z_data s = Some v /\ z_data (scall_step s (SClear 0)) = None.
Proof.
  intros a b v. cbn [fold_left].
  assert (E : scall_step (Sized (Some a) None [SClearing a; SSeen b a]) (SFit 1) = Sized (Some (Nat.max a b)) None [SClearing a; SMapped (Nat.max a b)]).
  { cbn [scall_step z_hs nth_error z_data z_len store].
    destruct (Nat.ltb_spec a b); [rewrite Nat.max_r by lia|rewrite Nat.max_l by lia]; reflexivity. }
  set (s4 := scall_step _ (SStat 1)).
  assert (E4 : s4 = Sized (Some a) None [SClearing a; SSeen b a]) by reflexivity. rewrite E4, E.
  split; reflexivity.
Qed.
Print Assumptions C109_cleared_refuted.

Example C109_ex :
  let s := fold_left sop_step [ONew 64; OWrite 0 7; ONew 32; ONew 128; OGrow 1 256; ONew 8] no_sized in
  z_len s = Some 256 /\ z_data s = Some 7 /\ z_hs s = [SMapped 64; SMapped 256; SMapped 128; SMapped 256]
  /\ careful no_sized [ONew 64; OWrite 0 7; ONew 32; ONew 128; OGrow 1 256; ONew 8]
  /\ Forall (same_size 64) [SOpen 64; SOpen 64; SStat 1; SSetNew 0; SFit 1; SWrite 1 3; SClear 0].
Proof.
  repeat split; try (intros h new l [= <- <-] [= <-]; cbn; lia); try (intros h new l [=]).
  repeat constructor.
Qed.
