(** C110-C112: which nodes are visible, here and from other machines. *)
From Coq Require Import String.
From Verif.Base Require Import Prelude Bytes Str AMap.
From Verif.Model Require Import ShmFiles Presence.
From Verif.Spec Require Import ShmFilesSpec PresenceSpec.
From Verif.Proofs Require Import ShmFilesProofs PresenceProofs.
Open Scope N_scope.
Open Scope list_scope.

(** ** C110 *)

(** A scan lists a node with what it last announced exactly while it has not
    withdrawn and its process still runs, whatever scans, exits and reuses of
    process numbers came before. *)
Theorem C110_listing : forall h n r, proper h -> plain_name n ->
  (In (presence_file n, r) (fst (read_all (p_run h)))
   <-> announced h n = Some r /\ running h (pr_pid r) = Some (pr_start r)).
Proof. exact listing. Qed.
Print Assumptions C110_listing.

(** A node whose name looks like a host record is never listed. *)
Theorem C110_prefix_refuted : forall h n r x, n = bs "remote_" ++ x \/ n = bs "bridged_" ++ x ->
  ~ In (presence_file n, r) (fst (read_all (p_run h))).
Proof. exact hidden. Qed.
Print Assumptions C110_prefix_refuted.

(** Two processes with a node of one name: one of them leaving hides the other,
    which still runs, until it announces itself again. *)
Theorem C110_duplicate_refuted : forall h n r r2, proper h -> plain_name n ->
  running h (pr_pid r) = Some (pr_start r) -> running h (pr_pid r2) = Some (pr_start r2) ->
  let h' := h ++ [Announce n r2; Announce n r; Withdraw n] in
  proper h' /\ running h' (pr_pid r) = Some (pr_start r)
  /\ forall x, ~ In (presence_file n, x) (fst (read_all (p_run h'))).
Proof.
  intros h n r r2 P PL R R2 h'.
  assert (P' : proper h').
  { intros pre e post E. unfold h' in E. assert (C : exists k, h = pre ++ e :: k \/ (pre = h /\ e = Announce n r2)
      \/ (pre = h ++ [Announce n r2] /\ e = Announce n r) \/ e = Withdraw n).
    { clear - E. revert pre E. induction h as [|a h IH]; intros pre E.
      - exists []. destruct pre as [|p1 [|p2 [|p3 pre]]]; cbn in E; injection E; intros; subst; auto 6.
        destruct pre; discriminate.
      - destruct pre as [|p pre]; cbn in E; injection E as -> E.
        + exists h. auto.
        + destruct (IH pre E) as (k & [->|[[-> ->]|[[-> ->]| ->]]]); exists k; auto 6. }
    destruct C as (k & [E'|[[-> ->]|[[-> ->]| ->]]]).
    - apply (P pre e k E').
    - split; [apply PL|exact R2].
    - split; [apply PL|]. unfold running. rewrite fold_left_app. exact R.
    - exact I. }
  split; [exact P'|]. split.
  - unfold h', running. rewrite fold_left_app. exact R.
  - intros x X. apply C110_listing in X as [A _]; [|exact P'|exact PL]. unfold h', announced in A.
    rewrite fold_left_app in A. cbn [fold_left] in A. rewrite (proj2 (beqb_spec n n) eq_refl) in A. discriminate.
Qed.
Print Assumptions C110_duplicate_refuted.

(** A scan that read a dead node's file and removes it after the node came back:
    the new file goes, and the running node is not listed. *)
Theorem C110_scan_race_refuted : forall h n old r, proper h -> plain_name n ->
  In (presence_file n, Valid old) (w_dir (p_run h)) -> is_alive (w_procs (p_run h)) old = false ->
  running h (pr_pid r) = Some (pr_start r) ->
  let w := p_step (p_run h) (Announce n r) in
  let w' := World (w_procs w) (remove beqb (presence_file n) (w_dir w)) in
  In (presence_file n, r) (fst (read_all w)) /\ forall x, ~ In (presence_file n, x) (fst (read_all w')).
Proof.
  intros h n old r P PL I D R w w'. split.
  - apply in_listed. cbn [w p_step w_dir w_procs]. split; [apply in_insert; auto|]. split; [apply plain_file; exact PL|].
    split; [apply file_json; apply PL|]. apply alive_running; [exact P|eapply running_nonzero; eauto|exact R].
  - intros x X. apply in_listed in X as (X & _). cbn [w' w_dir] in X. apply in_remove in X as [N _]. congruence.
Qed.
Print Assumptions C110_scan_race_refuted.

(** The command line listing does not look at start times: a dead node whose process
    number another program got is listed as running. *)
Theorem C110_recycled_refuted : forall h n r s, proper h -> plain_name n -> pr_pid r <> 0 -> s <> 0 ->
  announced h n = Some r -> running h (pr_pid r) = Some (pr_start r) -> ~ In (Run (pr_pid r) s) h ->
  let h' := h ++ [Exit (pr_pid r); Run (pr_pid r) s] in
  In (presence_file n, r) (find_nodes (p_run h')) /\ ~ In (presence_file n, r) (fst (read_all (p_run h'))).
Proof.
  intros h n r s P PL NZ SZ A R FR h'. destruct (seen_run h P) as [I1 _]. pose proof (I1 n r (proj1 PL) A R PL) as I.
  assert (W : p_run h' = p_step (p_step (p_run h) (Exit (pr_pid r))) (Run (pr_pid r) s)) by (unfold h', p_run; rewrite fold_left_app; reflexivity).
  assert (L : lookup N.eqb (pr_pid r) (w_procs (p_run h')) = Some s).
  { rewrite W. cbn [p_step w_procs]. apply lookup_insert_eq. apply N.eqb_eq. }
  split.
  - unfold find_nodes. apply in_flat_map. exists (presence_file n, Valid r). split; [rewrite W; exact I|].
    rewrite file_json by apply PL. apply N.eqb_neq in NZ. rewrite NZ, L. left. reflexivity.
  - intro X. apply in_listed in X as (_ & _ & _ & AL). unfold is_alive in AL. rewrite L in AL.
    pose proof (running_nonzero _ _ _ P R) as RZ. apply N.eqb_neq in RZ, SZ. rewrite RZ, SZ in AL. cbn [orb] in AL.
    apply N.eqb_eq in AL. subst s. apply FR. apply running_in. exact R.
Qed.
Print Assumptions C110_recycled_refuted.

Example C110_ex :
  let r1 := PRecord 10 500 1 in let r2 := PRecord 10 900 2 in
  let h := [Run 10 500; Announce (bs "lidar") r1; Scan; Exit 10; Run 10 900] in
  fst (read_all (p_run h)) = [] /\ find_nodes (p_run h) = [(bs "lidar.json", r1)]
  /\ fst (read_all (p_run (h ++ [Announce (bs "lidar") r2]))) = [(bs "lidar.json", r2)]
  /\ announced h (bs "lidar") = Some r1 /\ running h 10 = Some 900 /\ running [Run 10 500] 10 = Some 500
  /\ node_name_ok (bs "lidar") = true /\ host_record (bs "lidar.json") = false /\ node_name_ok (bs "a..b") = false.
Proof. repeat split. Qed.
Example C110_ex_proper : proper [Run 10 500; Announce (bs "lidar") (PRecord 10 500 1); Exit 10] /\ plain_name (bs "lidar").
Proof.
  split.
  - intros pre e post E. destruct pre as [|a [|b [|c pre]]]; cbn in E; injection E; intros; subst; cbn; auto.
    + split; [discriminate|tauto].
    + destruct pre; discriminate.
  - split; [reflexivity|]. split; intros [r E]; discriminate.
Qed.

(** ** C111 *)

(** One writer, dying at any point and starting again: a reader finds nothing or a
    whole record. *)
Theorem C111_whole : forall w cs, Forall (by_one w) cs ->
  let s := fold_left w_step cs no_presence in p_read s = None \/ exists r, p_read s = Some (Whole r).
Proof. intros w cs F s. apply (solo_read w). apply solo_run; [exact F|apply solo_none]. Qed.
Print Assumptions C111_whole.

(** Only the rename changes what a reader finds. *)
Theorem C111_unchanged : forall w cs c, Forall (by_one w) cs -> by_one w c -> c <> WRename w ->
  let s := fold_left w_step cs no_presence in p_read (w_step s c) = p_read s.
Proof. intros w cs c F B N s. apply (solo_same w); auto. apply solo_run; [exact F|apply solo_none]. Qed.
Print Assumptions C111_unchanged.

(** A write that runs to its end is found, whatever was left behind before. *)
Theorem C111_found : forall w cs r, Forall (by_one w) cs ->
  p_read (fold_left w_step (cs ++ [WDie w; WOpenTmp w; WWrite w r; WRename w]) no_presence) = Some (Whole r).
Proof. intros w cs r F. rewrite fold_left_app. apply solo_write. apply solo_run; [exact F|apply solo_none]. Qed.
Print Assumptions C111_found.

(** Two processes with a node of the same name use the same temporary file: a reader
    can find an empty file, and a mixture of both records. *)
Theorem C111_two_writers_refuted : forall r r2,
  p_read (fold_left w_step [WOpenTmp 0; WWrite 0 r; WOpenTmp 1; WRename 0] no_presence) = Some Empty
  /\ p_read (fold_left w_step [WOpenTmp 0; WOpenTmp 1; WWrite 0 r; WWrite 1 r2; WRename 0] no_presence) = Some Mixed.
Proof. intros r r2. split; reflexivity. Qed.
Print Assumptions C111_two_writers_refuted.

Example C111_ex :
  let r := PRecord 1 1 1 in let r2 := PRecord 1 1 2 in
  p_read (fold_left w_step [WOpenTmp 0; WWrite 0 r; WRename 0; WOpenTmp 0; WWrite 0 r2; WDie 0; WOpenTmp 0] no_presence) = Some (Whole r)
  /\ Forall (by_one 0) [WOpenTmp 0; WWrite 0 r; WRename 0; WOpenTmp 0; WWrite 0 r2; WDie 0; WOpenTmp 0].
Proof. split; [reflexivity|repeat constructor]. Qed.

(** ** C112 *)

(** A host's broadcast is read back as it was sent. *)
Theorem C112_round_trip : forall c rest, safe_component (c_host c) = true -> N.of_nat (length (c_ns c)) < 65536 ->
  c_time c < 2 ^ 64 -> N.of_nat (length (c_nodes c)) < 65536 ->
  Forall (fun n => N.of_nat (length (fst n)) < 65536 /\ snd n < 2 ^ 64) (c_nodes c) ->
  get_cast (c_ns c) (put_cast c ++ rest) = Some c.
Proof. exact cast_round. Qed.
Print Assumptions C112_round_trip.

(** Whatever arrives, a file the receiver keeps is one for a host that announced
    itself in this namespace, directly in the nodes directory. *)
Theorem C112_confined : forall ns h f c dir, ordered h -> ordinary dir -> In (f, c) (v_files (r_run ns h)) ->
  exists host t, f = remote_file host /\ heard ns h host = Some (t, c) /\ c_ns c = ns
    /\ resolve (topic_path dir f) = dir ++ [f].
Proof.
  intros ns h f c dir O D I. destruct (files_heard ns h f c O I) as (host & t & -> & H).
  destruct (heard_safe _ _ _ _ _ H) as (SA & NS & _). exists host, t. split; [reflexivity|]. split; [exact H|]. split; [exact NS|].
  assert (S1 : split_at slash (remote_file host) = [remote_file host]).
  { apply split_plain_. unfold remote_file. apply Forall_app. split; [repeat constructor; discriminate|].
    apply Forall_app. split; [apply safe_no_slash; exact SA|repeat constructor; discriminate]. }
  assert (P : topic_path dir (remote_file host) = dir ++ [remote_file host]) by (rewrite <- S1; reflexivity).
  rewrite P. unfold resolve. destruct (ordinary_filter dir D) as [D1 D2].
  rewrite walk_good; [|apply Forall_app; split; [exact D1|repeat constructor; discriminate]].
  cbn [app]. rewrite filter_app, D2. reflexivity.
Qed.
Print Assumptions C112_confined.

(** Cleaning leaves exactly the hosts heard in the last 30 seconds, each with its last
    broadcast; without cleaning they are there too. *)
Theorem C112_cleaned : forall ns h now host c, ordered (h ++ [CleanHosts now]) ->
  (In (remote_file host, c) (v_files (r_run ns (h ++ [CleanHosts now])))
   <-> exists t, heard ns h host = Some (t, c) /\ now <= t + 30000000000).
Proof. exact cleaned. Qed.
Print Assumptions C112_cleaned.
Theorem C112_present : forall ns h host t c, ordered h -> heard ns h host = Some (t, c) ->
  last_time h <= t + 30000000000 -> In (remote_file host, c) (v_files (r_run ns h)).
Proof.
  intros ns h host t c O H L. destruct (hosts_run ns h O) as (I1 & _ & I3). destruct (I1 _ _ (I3 host t c H L)) as (c' & H' & F).
  rewrite H in H'. injection H' as <-. exact F.
Qed.
Print Assumptions C112_present.

(** Names are put in the file as they come: one node with a crafted name is written
    exactly as two nodes are. *)
Theorem C112_injection_refuted : forall rate ns host t a b x y rest,
  let forged := a ++ bs """,""rate_hz"":" ++ rate x ++ bs "},{""name"":""" ++ b in
  cast_text rate (PCast ns host t ((forged, y) :: rest)) = cast_text rate (PCast ns host t ((a, x) :: (b, y) :: rest)).
Proof.
  intros rate ns host t a b x y rest forged. unfold cast_text. cbn [c_host c_time c_ns c_nodes map].
  do 8 f_equal. unfold forged, node_text. cbn [fst snd]. 
  destruct rest as [|n rest]; cbn [commas]; rewrite <- !app_assoc; reflexivity.
Qed.
Print Assumptions C112_injection_refuted.

(** The time shown is the sender's: how a host appears depends on its clock.  Behind
    by more than 31 seconds it is never shown, though a broadcast just came; ahead it
    is running for as long as its file lasts. *)
Theorem C112_clock_refuted : forall now sent,
  (sent + 31000000000 <= now -> remote_status now sent = None)
  /\ (now <= sent -> remote_status now sent = Some Running).
Proof.
  intros now sent. unfold remote_status. split; intro H.
  - replace (30 <? (now - sent) / 1000000000) with true; [reflexivity|]. symmetry. apply N.ltb_lt.
    apply N.lt_le_trans with 31; [lia|]. apply N.div_le_lower_bound; lia.
  - replace (now - sent) with 0 by lia. reflexivity.
Qed.
Print Assumptions C112_clock_refuted.
(** With clocks that agree it is the age of the broadcast. *)
Theorem C112_status : forall now sent, sent <= now ->
  (remote_status now sent = Some Running <-> now - sent < 4000000000)
  /\ (remote_status now sent = None <-> 31000000000 <= now - sent).
Proof.
  intros now sent L. unfold remote_status. set (d := now - sent). clearbody d. clear now sent L.
  pose proof (N.div_mod d 1000000000 ltac:(lia)) as E. pose proof (N.mod_lt d 1000000000 ltac:(lia)) as M.
  set (q := d / 1000000000) in *. clearbody q. set (m := d mod 1000000000) in *. clearbody m.
  destruct (N.ltb_spec 30 q) as [A|A]; [|destruct (N.ltb_spec 3 q) as [B|B]]; split; split; intro; try discriminate; try lia; auto.
Qed.
Print Assumptions C112_status.

Example C112_ex :
  let c := PCast (bs "default") (bs "1a2b") 5 [(bs "lidar", 7); (bs "cam", 9)] in
  safe_component (bs "1a2b") = true /\ safe_component (bs "../etc") = false /\ safe_component (bs ".") = false
  /\ get_cast (bs "default") (put_cast c) = Some c /\ get_cast (bs "other") (put_cast c) = None
  /\ map fst (v_files (r_run (bs "default") [Cast 1 (put_cast c)])) = [bs "remote_1a2b.json"]
  /\ v_files (r_run (bs "default") [Cast 1 (put_cast c); CleanHosts 30000000002]) = []
  /\ heard (bs "default") [Cast 1 (put_cast c)] (bs "1a2b") = Some (1, c)
  /\ ordered [Cast 1 (put_cast c)].
Proof.
  repeat split; try (vm_compute; reflexivity). intros pre e post E.
  destruct pre as [|a pre]; cbn in E; injection E; intros; subst; [discriminate|destruct pre; discriminate].
Qed.
