(** Proofs about the flight recorder. *)
From Verif Require Import Base.Prelude Model.BlackBox Spec.BlackBoxSpec.

Section Facts.
Context {E : Type}.
Variable enc : rec E -> list nat.
Notation run := (run enc). Notation step := (step enc).

Lemma newest_short : forall A n (l : list A), length l <= n -> newest n l = l.
Proof. intros. unfold newest. replace (length l - n) with 0 by lia. reflexivity. Qed.
Lemma newest_length : forall A n (l : list A), length (newest n l) = Nat.min n (length l).
Proof. intros. unfold newest. rewrite skipn_length. lia. Qed.
Lemma newest_push : forall A n (l : list A) a, 0 < n ->
  newest n (l ++ [a]) =
  (if n <=? length (newest n l) then tl (newest n l) else newest n l) ++ [a].
Proof.
  intros A n l a N. rewrite newest_length. unfold newest. rewrite app_length. cbn [length].
  destruct (n <=? Nat.min n (length l)) eqn:L.
  - apply Nat.leb_le in L. replace (length l + 1 - n) with (S (length l - n)) by lia.
    rewrite skipn_app. replace (S (length l - n) - length l) with 0 by lia. cbn [skipn].
    f_equal. clear. generalize (length l - n). intros k. revert k.
    induction l as [|x l IH]; intros [|k]; cbn; auto.
  - apply Nat.leb_gt in L. replace (length l + 1 - n) with 0 by lia.
    replace (length l - n) with 0 by lia. reflexivity.
Qed.

(** *** The ring *)
Definition ring_inv (b : bb E) (acc : list (rec E)) (t : N) : Prop :=
  enabled b = true /\ 0 < max b /\ buf b = newest (max b) acc
  /\ lost b = N.of_nat (length acc - max b) /\ tick b = t.
Lemma ring_run : forall ops b acc t, ring_inv b acc t ->
  buf (run b ops) = newest (max b) (since_clear t acc ops)
  /\ lost (run b ops) = N.of_nat (length (since_clear t acc ops) - max b).
Proof.
  induction ops as [|o ops IH]; intros b acc t (En & M & B & L & T).
  - auto.
  - assert (forall b' acc' t', ring_inv b' acc' t' -> max b' = max b ->
            since_clear t acc (o :: ops) = since_clear t' acc' ops -> step b o = b' ->
            buf (run b (o :: ops)) = newest (max b) (since_clear t acc (o :: ops))
            /\ lost (run b (o :: ops)) = N.of_nat (length (since_clear t acc (o :: ops)) - max b)) as K.
    { intros b' acc' t' I Mx S St. rewrite S. unfold BlackBox.run. cbn [fold_left].
      rewrite St. destruct (IH b' acc' t' I) as [X Y]. rewrite Mx in *. auto. }
    destruct o as [now e| | |k| |]; cbn [BlackBox.step] in *.
    + apply (K (record enc b now e)
               (acc ++ [{| r_time := now; r_tick := t; r_event := e |}]) t); auto.
      2: { unfold record. rewrite En. destruct (wal b) as [[d p]|];
           [destruct (interval b <=? S (since b))|]; reflexivity. }
      unfold record. rewrite En.
      destruct (wal b) as [[d p]|]; [destruct (interval b <=? S (since b))|];
        (split; [|split; [|split; [|split]]]; cbn [enabled max buf lost tick]; auto;
         [ rewrite T, newest_push by auto; now rewrite B
         | rewrite app_length; cbn [length];
           destruct (max b <=? length (buf b)) eqn:F; rewrite B, newest_length in F;
           [apply Nat.leb_le in F|apply Nat.leb_gt in F]; rewrite L; lia ]).
    + apply (K (do_tick b) acc (t + 1)%N); auto. repeat split; cbn; auto. now rewrite T.
    + apply (K (flush b) acc t); auto; unfold flush; destruct (wal b) as [[d p]|]; repeat split; auto.
    + apply (K (drain b k) acc t); auto; unfold drain; destruct (wal b) as [[d p]|]; repeat split; auto.
    + apply (K (save b) acc t); auto; unfold save; destruct (wal b) as [[d p]|]; repeat split; auto.
    + apply (K (clear b) [] 0%N); auto. repeat split; cbn; auto.
Qed.

(** *** The WAL *)
Notation stream := (flat_map (line enc)).
Definition wal_inv (b : bb E) (d0 : list nat) (all : list (rec E)) : Prop :=
  enabled b = true /\ since b < interval b /\
  exists d p, wal b = Some (d, p) /\ d ++ p = d0 ++ stream all
  /\ exists a c, all = a ++ c /\ length c = since b
     /\ length (d0 ++ stream a) <= length d.
Lemma wal_run : forall ops b d0 all, wal_inv b d0 all ->
  wal_inv (run b ops) d0 (all ++ made (tick b) ops) /\ interval (run b ops) = interval b.
Proof.
  induction ops as [|o ops IH]; intros b d0 all I.
  - cbn. rewrite app_nil_r. auto.
  - assert (forall b' all', wal_inv b' d0 all' -> interval b' = interval b ->
            all ++ made (tick b) (o :: ops) = all' ++ made (tick b') ops -> step b o = b' ->
            wal_inv (run b (o :: ops)) d0 (all ++ made (tick b) (o :: ops))
            /\ interval (run b (o :: ops)) = interval b) as K.
    { intros b' all' I' Iv S St. rewrite S. unfold BlackBox.run. cbn [fold_left]. rewrite St.
      destruct (IH b' d0 all' I') as [X Y]. rewrite Iv in Y. auto. }
    destruct I as (En & Si & d & p & W & Q & a & c & A & C & L).
    destruct o as [now e| | |k| |]; cbn [BlackBox.step] in *.
    + set (r := {| r_time := now; r_tick := tick b; r_event := e |}).
      assert (d ++ p ++ line enc r = d0 ++ stream (all ++ [r])) as HS.
      { rewrite app_assoc, Q, flat_map_app. cbn [flat_map]. rewrite app_nil_r. now rewrite app_assoc. }
      assert (all ++ made (tick b) (Record now e :: ops) = (all ++ [r]) ++ made (tick b) ops) as M.
      { rewrite <- app_assoc. reflexivity. }
      destruct (interval b <=? S (since b)) eqn:F.
      * apply (K (record enc b now e) (all ++ [r])); auto; unfold record; rewrite En, W, F; fold r;
          cbn [interval tick]; auto.
        split; [|split]; cbn [enabled since interval wal]; [auto|lia|].
        exists (d ++ p ++ line enc r), []. repeat split.
        -- rewrite app_nil_r. exact HS.
        -- exists (all ++ [r]), []. rewrite app_nil_r. repeat split; auto. rewrite HS. lia.
      * apply Nat.leb_gt in F. assert (interval b <=? S (since b) = false) as F' by now apply Nat.leb_gt.
        apply (K (record enc b now e) (all ++ [r])); auto; unfold record; rewrite En, W, F'; fold r;
          cbn [interval tick]; auto.
        split; [|split]; cbn [enabled since interval wal]; [auto|lia|].
        exists d, (p ++ line enc r). repeat split; auto.
        exists a, (c ++ [r]). rewrite A, <- app_assoc. repeat split; auto.
        rewrite app_length. cbn. lia.
    + apply (K (do_tick b) all); auto.
      split; [|split]; auto. exists d, p. split; auto. split; auto. exists a, c. auto.
    + apply (K (flush b) all); auto; unfold flush; rewrite W; auto.
      split; [|split]; cbn; auto; [lia|]. exists (d ++ p), []. repeat split.
      * now rewrite app_nil_r.
      * exists all, []. rewrite app_nil_r. repeat split; auto. rewrite Q. lia.
    + apply (K (drain b k) all); auto; unfold drain; rewrite W; auto.
      split; [|split]; cbn; auto. exists (d ++ firstn k p), (skipn k p). repeat split.
      * now rewrite <- app_assoc, firstn_skipn.
      * exists a, c. repeat split; auto. rewrite (app_length d). lia.
    + apply (K (save b) all); auto; unfold save; rewrite W; auto.
      split; [|split]; cbn; auto. exists d, p. split; auto. split; auto. exists a, c. auto.
    + apply (K (clear b) all); auto.
      split; [|split]; auto. exists d, p. split; auto. split; auto. exists a, c. auto.
Qed.

(** *** Reading a WAL cut anywhere *)
Section Reader.
Variable dec : list nat -> option (rec E).
Hypothesis OK : codec_ok enc dec.
Notation load_wal := (load_wal dec).

Lemma lines_word : forall x acc r, ~ In 10 x -> lines_acc acc (x ++ r) = lines_acc (rev x ++ acc) r.
Proof.
  induction x as [|c x IH]; intros acc r H; auto. cbn [app lines_acc].
  destruct (c =? 10) eqn:C.
  - apply Nat.eqb_eq in C. exfalso. apply H. now left.
  - rewrite IH by (intros I; apply H; now right). cbn [rev]. now rewrite <- app_assoc.
Qed.
Lemma lines_line : forall r rest, lines_acc [] (line enc r ++ rest) = enc r :: lines_acc [] rest.
Proof.
  intros. unfold line. rewrite <- app_assoc, lines_word by apply (co_line _ _ OK).
  cbn. rewrite app_nil_r, rev_involutive. reflexivity.
Qed.
Lemma load_line : forall r rest, load_wal (line enc r ++ rest) = r :: load_wal rest.
Proof.
  intros. unfold BlackBox.load_wal. rewrite lines_line. cbn [flat_map].
  now rewrite (co_roundtrip _ _ OK).
Qed.
Lemma load_stream : forall rs rest, load_wal (stream rs ++ rest) = rs ++ load_wal rest.
Proof.
  induction rs as [|r rs IH]; intros rest; auto. cbn [flat_map app].
  rewrite <- app_assoc, load_line, IH. reflexivity.
Qed.
Lemma load_word : forall x, ~ In 10 x ->
  load_wal x = match dec x with Some r => [r] | None => [] end.
Proof.
  intros x H. unfold BlackBox.load_wal. replace x with (x ++ []) at 1 by apply app_nil_r.
  rewrite lines_word by auto. cbn. rewrite app_nil_r. destruct (rev x) eqn:R.
  - apply (f_equal (@rev nat)) in R. rewrite rev_involutive in R. subst x. cbn.
    now rewrite (co_empty _ _ OK).
  - rewrite <- R, rev_involutive. cbn. now rewrite app_nil_r.
Qed.
Lemma in_firstn : forall A (x : A) k l, In x (firstn k l) -> In x l.
Proof. intros A x k l H. rewrite <- (firstn_skipn k l). apply in_or_app. now left. Qed.

(** Cutting the stream anywhere leaves a prefix of the records, including all
    those whose lines were complete. *)
Lemma load_cut : forall rs n, exists k,
  load_wal (firstn n (stream rs)) = firstn k rs
  /\ forall j, j <= length rs -> length (stream (firstn j rs)) <= n -> j <= k.
Proof.
  induction rs as [|r rs IH]; intros n.
  - exists 0. cbn. rewrite firstn_nil. split; [reflexivity|]. intros; lia.
  - cbn [flat_map]. destruct (Nat.le_gt_cases (length (line enc r)) n) as [L|L].
    + rewrite firstn_app, firstn_all2 by lia. rewrite load_line.
      destruct (IH (n - length (line enc r))) as (k & Ek & Hk).
      exists (S k). rewrite Ek. split; auto. intros j J H. destruct j as [|j]; [lia|].
      cbn [firstn flat_map] in H. rewrite app_length in H. cbn in J.
      specialize (Hk j). lia.
    + rewrite firstn_app. replace (n - length (line enc r)) with 0 by lia. rewrite firstn_O, app_nil_r.
      assert (length (line enc r) = S (length (enc r))) as Le
        by (unfold line; rewrite app_length; cbn; lia).
      assert (firstn n (line enc r) = firstn n (enc r)) as ->.
      { unfold line. rewrite firstn_app. replace (n - length (enc r)) with 0 by lia.
        now rewrite firstn_O, app_nil_r. }
      assert (forall j, j <= length (r :: rs) -> length (stream (firstn j (r :: rs))) <= n -> j = 0) as J0.
      { intros [|j] _ H; auto. cbn [firstn flat_map] in H. rewrite app_length in H. lia. }
      rewrite load_word by (intros I; apply in_firstn in I; exact (co_line _ _ OK _ I)).
      destruct (Nat.eq_dec n (length (enc r))) as [->|Ne].
      * rewrite firstn_all, (co_roundtrip _ _ OK). exists 1. split; auto.
        intros j J H. specialize (J0 j J H). lia.
      * rewrite (co_cut _ _ OK) by lia. exists 0. split; auto.
        intros j J H. specialize (J0 j J H). lia.
Qed.
End Reader.
End Facts.
