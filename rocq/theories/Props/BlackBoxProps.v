(** The flight recorder (C39). *)
From Verif Require Import Base.Prelude Model.BlackBox Spec.BlackBoxSpec Proofs.BlackBoxProofs.

Section C39.
Context {E : Type}.
Variable enc : rec E -> list nat.
Variable dec : list nat -> option (rec E).

(** After any history the recorder holds exactly the newest records since the
    last clear, in order, up to its capacity, and reports the rest as lost. *)
Theorem C39_ring_exact mb ops : 0 < mb ->
  let b := run enc (new mb) ops in
  let all := since_clear 0 [] ops in
  let cap := Nat.max (mb * 1024 * 1024 / 200) 1000 in
  buf b = newest cap all /\ lost b = N.of_nat (length all - cap).
Proof.
  intros M b all cap. apply (ring_run enc ops (new mb) [] 0%N).
  split; [|split; [|split; [|split]]]; unfold new; cbn [enabled max buf lost tick].
  - now apply Nat.ltb_lt.
  - pose proof (Nat.le_max_r (mb * 1024 * 1024 / 200) 1000). lia.
  - unfold newest. now rewrite skipn_nil.
  - reflexivity.
  - reflexivity.
Qed.

(** A recorder of size 0 records nothing. *)
Theorem C39_disabled ops : buf (run enc (new 0) ops) = [] /\ lost (run enc (new 0) ops) = 0%N.
Proof.
  assert (forall ops b, enabled b = false -> buf b = [] -> lost b = 0%N ->
          buf (run enc b ops) = [] /\ lost (run enc b ops) = 0%N) as K.
  { clear. induction ops as [|o ops IH]; intros b En B L; auto. unfold run. cbn [fold_left].
    apply IH; destruct o; cbn; unfold record, flush, drain, save; rewrite ?En;
      try (destruct (wal b) as [[d p]|]); auto. }
  now apply K.
Qed.

(** Crash at any point of any history: the WAL reads back as what was there
    before, followed by a prefix of this run's records that misses at most the
    newest [interval - 1] of them. *)
Theorem C39_crash_keeps_prefix mb k old f ops : codec_ok enc dec -> 0 < mb ->
  let b := with_path (with_interval (new mb) k) (flat_map (line enc) old) f in
  exists m,
    load_wal dec (wal_after_crash (run enc b ops)) = old ++ firstn m (made 0 ops)
    /\ length (made 0 ops) < m + Nat.max k 1.
Proof.
  intros OK M b. assert (wal_inv enc b (flat_map (line enc) old) []) as I.
  { split; [|split]; cbn; [destruct mb; [lia|reflexivity]|lia|].
    eexists _, []. repeat split. exists [], []. repeat split. cbn. rewrite app_nil_r. lia. }
  destruct (wal_run enc ops b _ _ I) as [J Iv]. cbn [app] in J.
  destruct J as (_ & Si & d & p & W & Q & a & c & A & C & L).
  change (tick b) with 0%N in *. set (rs := made 0 ops) in *.
  unfold wal_after_crash. rewrite W.
  assert (d = flat_map (line enc) old ++ firstn (length d - length (flat_map (line enc) old)) (flat_map (line enc) rs)) as D.
  { assert (length (flat_map (line enc) old) <= length d) as Lo by (rewrite app_length in L; lia).
    assert (firstn (length d) (d ++ p) = d) as F
      by (rewrite firstn_app, firstn_all, Nat.sub_diag, firstn_O; apply app_nil_r).
    rewrite Q, firstn_app in F. rewrite firstn_all2 in F by lia. now symmetry. }
  set (n := length d - length (flat_map (line enc) old)) in *.
  destruct (load_cut enc dec OK rs n) as (k0 & Ek & Hk).
  exists k0. split.
  - rewrite D, (load_stream enc dec OK). now rewrite Ek.
  - assert (length a <= k0) as La.
    { apply Hk.
      - rewrite A, app_length. lia.
      - rewrite A, firstn_app, firstn_all, Nat.sub_diag, firstn_O, app_nil_r.
        rewrite app_length in L. lia. }
    assert (interval b = Nat.max k 1) as Ib by reflexivity.
    rewrite A, app_length, C. rewrite Iv, Ib in Si. lia.
Qed.

(** After an explicit flush nothing is missing. *)
Theorem C39_flush_complete mb k old f ops : codec_ok enc dec -> 0 < mb ->
  let b := with_path (with_interval (new mb) k) (flat_map (line enc) old) f in
  load_wal dec (wal_after_crash (run enc b (ops ++ [Flush]))) = old ++ made 0 ops.
Proof.
  intros OK M b. assert (wal_inv enc b (flat_map (line enc) old) []) as I.
  { split; [|split]; cbn; [destruct mb; [lia|reflexivity]|lia|].
    eexists _, []. repeat split. exists [], []. repeat split. cbn. rewrite app_nil_r. lia. }
  destruct (wal_run enc ops b _ _ I) as [J Iv]. cbn [app] in J.
  destruct J as (_ & Si & d & p & W & Q & _).
  unfold run in *. rewrite fold_left_app. cbn [fold_left step]. unfold flush. rewrite W.
  cbn [wal_after_crash wal]. rewrite Q, (load_stream enc dec OK).
  change (tick b) with 0%N. rewrite <- (app_nil_r (flat_map (line enc) (made 0 ops))).
  rewrite (load_stream enc dec OK). cbn. now rewrite app_nil_r.
Qed.

(** A snapshot saved at the end of any history loads back into a fresh recorder
    with the same records and loss count. *)
Theorem C39_save_load mb mb' disk disk' f ops :
  let b1 := run enc (with_path (new mb) disk f) ops in
  exists b2, load (with_path (new mb') disk' (file (save b1))) = Some b2
  /\ buf b2 = buf b1 /\ lost b2 = lost b1.
Proof.
  intros b1. assert (wal b1 <> None) as W.
  { subst b1. assert (wal (with_path (@new E mb) disk f) <> None) as W by discriminate.
    revert W. generalize (with_path (@new E mb) disk f). clear.
    induction ops as [|o ops IH]; intros b W; auto. unfold run. cbn [fold_left]. apply IH.
    destruct (wal b) as [[d p]|] eqn:Wb; [|congruence].
    destruct o; cbn [step]; unfold record, do_tick, flush, drain, save, clear; rewrite ?Wb; cbn [wal];
      try destruct (enabled b); try destruct (interval b <=? S (since b)); cbn [wal]; congruence. }
  unfold load, save. destruct (wal b1) as [[d p]|]; [|congruence]. cbn. eexists. repeat split.
Qed.

(** *** What does not hold *)
(** A run that crashed inside a line makes the next run's first record
    unreadable, although it was written out in full: the two share a line.  If
    only the newline was missing, the crashed run's last record, readable until
    then, is lost as well. *)
Theorem C39_next_run_readable_refuted old r1 k r2 rest : codec_ok enc dec ->
  0 < k <= length (enc r1) ->
  dec (firstn k (enc r1) ++ enc r2) = None ->
  load_wal dec (flat_map (line enc) old ++ firstn k (enc r1)
                ++ flat_map (line enc) (r2 :: rest)) = old ++ rest.
Proof.
  intros OK K N. rewrite (load_stream enc dec OK). f_equal. cbn [flat_map].
  unfold line at 1. rewrite <- !app_assoc.
  unfold load_wal. rewrite (app_assoc (firstn k (enc r1))).
  rewrite lines_word.
  2: { intros I. apply in_app_or in I. destruct I as [I|I].
       - apply in_firstn in I. exact (co_line _ _ OK _ I).
       - exact (co_line _ _ OK _ I). }
  cbn [app lines_acc]. rewrite Nat.eqb_refl, app_nil_r, rev_involutive. cbn [flat_map].
  rewrite N. cbn [app]. change (load_wal dec (flat_map (line enc) rest) = rest).
  rewrite <- (app_nil_r (flat_map (line enc) rest)), (load_stream enc dec OK). cbn. apply app_nil_r.
Qed.

(** An event dropped because the recorder was busy is not counted as lost. *)
Theorem C39_every_loss_counted_refuted b now e :
  buf (try_record enc b true now e) = buf b /\ lost (try_record enc b true now e) = lost b.
Proof. auto. Qed.

(** After a crash the command-line reader shows what the WAL kept, whatever
    snapshot an earlier run left behind. *)
Theorem C39_cli_after_crash mb k old f ops snap : codec_ok enc dec -> 0 < mb ->
  let b := with_path (with_interval (new mb) k) (flat_map (line enc) old) f in
  exists m, cli_load dec (Some (wal_after_crash (run enc b ops))) snap = Some (old ++ firstn m (made 0 ops))
    /\ length (made 0 ops) < m + Nat.max k 1.
Proof.
  intros OK M b. destruct (C39_crash_keeps_prefix mb k old f ops OK M) as (m & Em & L).
  exists m. split; auto. cbn [cli_load]. f_equal. exact Em.
Qed.

(** A snapshot larger than this recorder's capacity keeps it over capacity
    through any number of further records. *)
Theorem C39_capacity_after_load_refuted mb disk l ev b recs : 0 < mb ->
  load (with_path (new mb) disk (Some (Snap l ev))) = Some b ->
  max b < length ev ->
  length (buf (run enc b (map (fun te => Record (fst te) (snd te)) recs))) = length ev.
Proof.
  intros M H L. cbn in H. inv H. cbn [max] in L.
  assert (forall recs b, enabled b = true -> max b < length (buf b) ->
    length (buf (run enc b (map (fun te => Record (fst te) (snd te)) recs))) = length (buf b)) as K.
  { clear. induction recs as [|[t e] recs IH]; intros b En L; auto.
    unfold run in *. cbn [map fold_left step fst snd].
    assert (length (buf (record enc b t e)) = length (buf b) /\ enabled (record enc b t e) = true
            /\ max (record enc b t e) = max b) as (A & B & C).
    { unfold record. rewrite En. destruct (wal b) as [[d p]|]; [destruct (interval b <=? S (since b))|];
        cbn [buf enabled max]; (split; [|auto]);
        (destruct (max b <=? length (buf b)) eqn:F; [|apply Nat.leb_gt in F; lia]);
        rewrite app_length; destruct (buf b); cbn in *; lia. }
    rewrite IH; auto. lia. }
  apply K; cbn; auto. destruct mb; [lia|reflexivity].
Qed.

(** A crash while saving destroys the previous snapshot: loading then fails. *)
Theorem C39_save_atomic_refuted b mb disk : wal b <> None ->
  load (with_path (@new E mb) disk (file (save_cut b))) = None.
Proof. intros W. unfold save_cut. destruct (wal b) as [[d p]|]; [|congruence]. reflexivity. Qed.

(** The command-line reader rejects every snapshot the recorder saves. *)
Theorem C39_cli_reads_snapshot_refuted b : wal b <> None ->
  cli_load dec None (file (save b)) = None.
Proof. intros W. unfold save. destruct (wal b) as [[d p]|]; [|congruence]. reflexivity. Qed.
End C39.
Print Assumptions C39_ring_exact.
Print Assumptions C39_disabled.
Print Assumptions C39_crash_keeps_prefix.
Print Assumptions C39_flush_complete.
Print Assumptions C39_cli_after_crash.
Print Assumptions C39_save_load.
Print Assumptions C39_next_run_readable_refuted.
Print Assumptions C39_every_loss_counted_refuted.
Print Assumptions C39_capacity_after_load_refuted.
Print Assumptions C39_save_atomic_refuted.
Print Assumptions C39_cli_reads_snapshot_refuted.

(** A codec meeting the assumptions: a record of a small event is "{t}" with the
    fields in unary between braces. *)
Definition toy_enc (r : rec nat) : list nat :=
  123 :: repeat 49 (r_event r) ++ 44 :: repeat 49 (N.to_nat (r_tick r))
  ++ 44 :: repeat 49 (N.to_nat (r_time r)) ++ [125].
Fixpoint ones (l : list nat) : nat * list nat :=
  match l with
  | c :: r => if c =? 49 then let '(n, t) := ones r in (S n, t) else (0, l)
  | [] => (0, [])
  end.
Definition toy_dec (l : list nat) : option (rec nat) :=
  match l with
  | c :: l =>
      if c =? 123 then
        let '(e, l) := ones l in
        match l with
        | c :: l => if c =? 44 then
            let '(k, l) := ones l in
            match l with
            | c :: l => if c =? 44 then
                let '(t, l) := ones l in
                match l with
                | [c] => if c =? 125
                         then Some {| r_time := N.of_nat t; r_tick := N.of_nat k; r_event := e |}
                         else None
                | _ => None
                end else None
            | [] => None
            end else None
        | [] => None
        end
      else None
  | [] => None
  end.
Lemma ones_repeat n r : (match r with c :: _ => c <> 49 | [] => True end) ->
  ones (repeat 49 n ++ r) = (n, r).
Proof.
  intros H. induction n as [|n IH]; cbn; [|now rewrite IH].
  destruct r as [|c r]; auto. cbn. apply Nat.eqb_neq in H. now rewrite H.
Qed.
Lemma ones_incl x n t y : ones x = (n, t) -> In y t -> In y x.
Proof.
  revert n t. induction x as [|c x IH]; intros n t H I; cbn in H; [inv H; auto|].
  destruct (c =? 49); [|inv H; auto]. destruct (ones x) as [m u]. inv H. right. eauto.
Qed.
Lemma toy_closed l r : toy_dec l = Some r -> In 125 l.
Proof.
  intros H. destruct l as [|c l]; [discriminate|]. cbn [toy_dec] in H. right.
  destruct (c =? 123); [|discriminate]. destruct (ones l) as [e l1] eqn:O1.
  apply (ones_incl _ _ _ _ O1).
  destruct l1 as [|c1 l1]; [discriminate|]. right. destruct (c1 =? 44); [|discriminate].
  destruct (ones l1) as [k l2] eqn:O2. apply (ones_incl _ _ _ _ O2).
  destruct l2 as [|c2 l2]; [discriminate|]. right. destruct (c2 =? 44); [|discriminate].
  destruct (ones l2) as [t l3] eqn:O3. apply (ones_incl _ _ _ _ O3).
  destruct l3 as [|c3 [|? ?]]; try discriminate.
  destruct (c3 =? 125) eqn:C; [|discriminate]. apply Nat.eqb_eq in C. now left.
Qed.
Example toy_codec : codec_ok toy_enc toy_dec.
Proof.
  split.
  - intros r I. unfold toy_enc in I.
    repeat match goal with
    | H : _ \/ _ |- _ => destruct H
    | H : In _ (_ ++ _) |- _ => apply in_app_or in H
    | H : In _ (_ :: _) |- _ => apply in_inv in H
    | H : In _ [] |- _ => destruct H
    | H : In _ (repeat _ _) |- _ => apply repeat_spec in H
    end; discriminate.
  - discriminate.
  - intros r. unfold toy_enc, toy_dec. cbn [Nat.eqb].
    rewrite ones_repeat by discriminate. cbn [Nat.eqb].
    rewrite ones_repeat by discriminate. cbn [Nat.eqb].
    rewrite ones_repeat by discriminate. cbn [Nat.eqb].
    rewrite !N2Nat.id. now destruct r.
  - reflexivity.
  - intros r k K. destruct (toy_dec (firstn k (toy_enc r))) eqn:D; auto. exfalso.
    apply toy_closed in D. rename D into I.
    set (body := 123 :: repeat 49 (r_event r) ++ 44 :: repeat 49 (N.to_nat (r_tick r))
                 ++ 44 :: repeat 49 (N.to_nat (r_time r))).
    assert (toy_enc r = body ++ [125]) as B.
    { unfold toy_enc, body. cbn. f_equal. rewrite <- app_assoc. cbn. f_equal. f_equal.
      rewrite <- app_assoc. reflexivity. }
    rewrite B in *. rewrite app_length in K. change (length [125]) with 1 in K.
    rewrite firstn_app in I. replace (k - length body) with 0 in I by (clear - K; lia).
    rewrite firstn_O, app_nil_r in I. apply in_firstn in I. unfold body in I.
    repeat match goal with
    | H : _ \/ _ |- _ => destruct H
    | H : In _ (_ ++ _) |- _ => apply in_app_or in H
    | H : In _ (_ :: _) |- _ => apply in_inv in H
    | H : In _ [] |- _ => destruct H
    | H : In _ (repeat _ _) |- _ => apply repeat_spec in H
    end; discriminate.
Qed.
Definition rec1 (n : nat) : rec nat := {| r_time := 0; r_tick := 0; r_event := n |}.
(** A crash with one record buffered, and a torn line swallowing a record. *)
Example C39_example :
  let b := with_path (with_interval (new 1) 2) [] None in
  load_wal toy_dec (wal_after_crash (run toy_enc b [Record 0 5; Record 0 6; Tick; Record 1 7; Drain 2]))
    = [rec1 5; rec1 6]
  /\ load_wal toy_dec (flat_map (line toy_enc) [rec1 1] ++ toy_enc (rec1 2)) = [rec1 1; rec1 2]
  /\ load_wal toy_dec (flat_map (line toy_enc) [rec1 1] ++ toy_enc (rec1 2)
                       ++ flat_map (line toy_enc) [rec1 3; rec1 4]) = [rec1 1; rec1 4].
Proof. vm_compute. auto. Qed.
