From Verif.Base Require Import Prelude Bytes Str.
From Verif.Model Require Import LogEntry NodeTable.
From Verif.Spec Require Import NodeTableSpec.
Open Scope nat_scope.

(** ** Memory *)
Lemma get_length : forall m a n, length (get m a n) = n.
Proof. intros; unfold get. rewrite map_length, seq_length. reflexivity. Qed.
Lemma get_put_other : forall m a bs b n, b + n <= a \/ a + length bs <= b -> get (put m a bs) b n = get m b n.
Proof.
  intros m a bs b n D. unfold get. apply map_ext_in. intros x I. apply in_seq in I. unfold put.
  destruct (Nat.leb_spec a x); cbn [andb]; [|reflexivity]. destruct (Nat.ltb_spec x (a + length bs)); [lia|reflexivity].
Qed.
Lemma get_put_same : forall m a bs n, length bs = n -> get (put m a bs) a n = bs.
Proof.
  intros m a bs n <-. unfold get. apply nth_ext with (d := 0%N) (d' := 0%N).
  - rewrite map_length, seq_length. reflexivity.
  - intros k K. rewrite map_length, seq_length in K.
    rewrite nth_indep with (d' := put m a bs 0) by (rewrite map_length, seq_length; lia).
    rewrite map_nth, seq_nth by lia. unfold put.
    destruct (Nat.leb_spec a (a + k)); [|lia]. destruct (Nat.ltb_spec (a + k) (a + length bs)); [|lia].
    cbn [andb]. f_equal. lia.
Qed.

(** ** Fields *)
Definition apart (f g : nat * nat) : Prop := fst f + snd f <= fst g \/ fst g + snd g <= fst f.
Definition inside (f : nat * nat) : Prop := 48 <= fst f /\ fst f + snd f <= 192.

Lemma write_other : forall fs vs m b a n, Forall inside fs -> a + n <= b + 48 \/ b + 192 <= a ->
  get (write_fields m b fs vs) a n = get m a n.
Proof.
  induction fs as [|[o w] fs IH]; intros [|v vs] m b a n F D; cbn [write_fields]; auto.
  inversion F as [|? ? [I1 I2] F']; subst. cbn [fst snd] in *. rewrite IH by auto. apply get_put_other. rewrite le_enc_length. lia.
Qed.
Lemma write_apart : forall fs vs m b f, Forall (apart f) fs -> get (write_fields m b fs vs) (b + fst f) (snd f) = get m (b + fst f) (snd f).
Proof.
  induction fs as [|[o w] fs IH]; intros [|v vs] m b f F; cbn [write_fields]; auto.
  inversion F as [|? ? I F']; subst. unfold apart in I. cbn [fst snd] in *. rewrite IH by auto. apply get_put_other. rewrite le_enc_length. lia.
Qed.
Lemma read_write : forall fs vs m b, ForallOrdPairs apart fs -> Forall2 (fun v f => v < 256 ^ N.of_nat (snd f))%N vs fs ->
  read_fields (write_fields m b fs vs) b fs = vs.
Proof.
  intros fs vs m b A; revert vs m; induction A as [|[o w] fs F A IH]; intros vs m V; inversion V as [|v ? vs' ? V1 V2]; subst; [reflexivity|].
  cbn [write_fields]. unfold read_fields in *. cbn [map]. f_equal; [|apply IH; auto].
  rewrite write_apart by auto. cbn [fst snd]. rewrite get_put_same by apply le_enc_length. apply le_dec_enc. exact V1.
Qed.
Lemma read_other : forall gs m m' b, (forall a n, b + 48 <= a -> a + n <= b + 192 -> get m' a n = get m a n) -> Forall inside gs ->
  read_fields m' b gs = read_fields m b gs.
Proof.
  intros gs m m' b E F. unfold read_fields. apply map_ext_in. intros f I. rewrite Forall_forall in F. destruct (F f I).
  rewrite E by lia. reflexivity.
Qed.

Lemma fields_inside : Forall inside fields.
Proof. unfold fields, inside. repeat (constructor; [cbn; lia|]). constructor. Qed.
Lemma ufields_inside : Forall inside ufields.
Proof. unfold ufields, inside. repeat (constructor; [cbn; lia|]). constructor. Qed.
Lemma fields_apart : ForallOrdPairs apart fields.
Proof.
  unfold fields. repeat (apply FOP_cons; [repeat (apply Forall_cons; [unfold apart; cbn; lia|]); apply Forall_nil|]). apply FOP_nil.
Qed.
Lemma ufields_apart : ForallOrdPairs apart ufields.
Proof.
  unfold ufields. repeat (apply FOP_cons; [repeat (apply Forall_cons; [unfold apart; cbn; lia|]); apply Forall_nil|]). apply FOP_nil.
Qed.

Lemma slots_apart : forall i j, i < j -> slot_at i + 192 <= slot_at j.
Proof. intros; unfold slot_at, HEADER, SLOT. nia. Qed.
Lemma slot_after : forall i, 64 <= slot_at i.
Proof. intros; unfold slot_at, HEADER. lia. Qed.

(** ** Names *)
Lemma to_zero_good : forall n k, ~ In 0%N n -> to_zero (n ++ repeat 0%N (S k)) = n.
Proof.
  induction n as [|x n IH]; intros k H; cbn [app to_zero]; [reflexivity|].
  destruct (N.eqb_spec x 0) as [->|]; [destruct H; cbn; auto|]. f_equal. apply IH. intros I; apply H; cbn; auto.
Qed.
Lemma name_length : forall n, length (name_field n) = 48.
Proof. intros; unfold name_field. rewrite app_length, repeat_length, !firstn_length. lia. Qed.
Lemma name_good : forall n, good_name n -> to_zero (name_field n) = n.
Proof.
  intros n (_ & _ & Z & L). unfold name_field. rewrite firstn_all2 by lia.
  replace (48 - length n) with (S (47 - length n)) by lia. apply to_zero_good, Z.
Qed.

(** ** The table *)
Definition entry_ok (m : mem) (k : nat) (s : shown) : Prop :=
  fst s <> [] /\ read_name m k = fst s /\ read_fields m (slot_at k) fields = snd s /\ length (snd s) = 14.
Definition table (m : mem) (t : list shown) : Prop :=
  get m 0 8 = le_enc 8 REG_MAGIC /\ count_of m = length t /\ length t <= 64 /\
  forall k s, nth_error t k = Some s -> entry_ok m k s.

Lemma table_read : forall m t, table m t -> read_all m = Some t.
Proof.
  intros m t (M & C & L & E). unfold read_all. rewrite M, le_dec_enc by reflexivity. rewrite N.eqb_refl, C, Nat.min_l by exact L. f_equal.
  assert (G : forall u j, (forall k s, nth_error u k = Some s -> entry_ok m (j + k) s) -> flat_map (read_slot m) (seq j (length u)) = u).
  { induction u as [|s u IH]; intros j H; [reflexivity|]. cbn [length seq flat_map].
    destruct (H 0 s eq_refl) as (N1 & N2 & N3 & _). rewrite Nat.add_0_r in N2, N3. rewrite IH by (intros k x K; specialize (H (S k) x K); rewrite <- plus_n_Sm in H; exact H).
    unfold read_slot. rewrite N2, N3. destruct s as [nm vs]. cbn [fst snd] in *. destruct nm; [congruence|]. reflexivity. }
  apply G. intros k s K. apply E, K.
Qed.

Lemma count_step : forall m n, n < 65 -> count_of (put m 12 (le_enc 4 (N.of_nat n))) = n.
Proof.
  intros m n L. unfold count_of. rewrite get_put_same by apply le_enc_length. rewrite le_dec_enc; [apply Nat2N.id|].
  change (256 ^ N.of_nat 4)%N with 4294967296%N. lia.
Qed.

Lemma entry_frame : forall m m' k s, entry_ok m k s ->
  (forall a n, slot_at k <= a -> a + n <= slot_at k + 192 -> get m' a n = get m a n) -> entry_ok m' k s.
Proof.
  intros m m' k s (A & B & C & D) E. split; [auto|]. split; [|split; [|auto]].
  - unfold read_name in *. rewrite E by lia. exact B.
  - rewrite <- C. apply read_other; [intros; apply E; lia|apply fields_inside].
Qed.

Lemma table_register : forall m t n o r c, table m t -> length t < 64 -> good_name n -> (o < 256)%N -> (c < 256)%N -> (r < 256 ^ 4)%N ->
  snd (register m n o r c) = length t /\ table (fst (register m n o r c)) (t ++ [fresh n o r c]).
Proof.
  intros m t n o r c (M & C & L & E) L2 G O K R. unfold register. rewrite C.
  destruct (Nat.leb_spec MAX_NODES (length t)) as [X|X]; [unfold MAX_NODES in X; lia|]. cbn [fst snd]. split; [reflexivity|].
  set (b := slot_at (length t)). set (m1 := put m b (name_field n)).
  set (m2 := write_fields m1 b fields _).
  pose proof (slot_after (length t)) as B. fold b in B.
  assert (Low : forall a k, a + k <= b -> get m2 a k = get m a k).
  { intros a k H. unfold m2. rewrite write_other by (try apply fields_inside; lia). unfold m1. apply get_put_other. lia. }
  repeat split.
  - rewrite get_put_other by (rewrite le_enc_length; lia). rewrite Low by lia. exact M.
  - rewrite count_step by lia. rewrite app_length. reflexivity.
  - rewrite app_length. cbn [length]. lia.
  - apply nth_error_split in H as (l1 & l2 & H & _). destruct l2 as [|y l2 _] using rev_ind.
    + apply app_inj_tail in H as [_ <-]. cbn [fresh fst]. apply G.
    + rewrite app_comm_cons, app_assoc in H. apply app_inj_tail in H as [H _].
      assert (I : In s t) by (rewrite H; apply in_or_app; cbn; auto). apply In_nth_error in I as [j I]. apply (E j s I).
  - revert H. destruct (Nat.lt_ge_cases k (length t)) as [Lt|Ge].
    + rewrite nth_error_app1 by exact Lt. intros H. eapply entry_frame; [exact (E k s H)|].
      intros a j A1 A2. pose proof (slots_apart k (length t) Lt). pose proof (slot_after k). fold b in H0.
      rewrite get_put_other by (rewrite le_enc_length; lia). apply Low. lia.
    + rewrite nth_error_app2 by exact Ge. destruct (k - length t) as [|j] eqn:J; [|destruct j; discriminate]. intros [= <-].
      assert (k = length t) as -> by lia. unfold read_name. fold b. rewrite get_put_other by (rewrite le_enc_length; lia).
      unfold m2. rewrite write_other by (try apply fields_inside; lia). unfold m1. rewrite get_put_same by apply name_length.
      rewrite name_good by exact G. destruct G as (_ & U & _). rewrite U. reflexivity.
  - revert H. destruct (Nat.lt_ge_cases k (length t)) as [Lt|Ge].
    + rewrite nth_error_app1 by exact Lt. intros H. eapply entry_frame; [exact (E k s H)|].
      intros a j A1 A2. pose proof (slots_apart k (length t) Lt). pose proof (slot_after k). fold b in H0.
      rewrite get_put_other by (rewrite le_enc_length; lia). apply Low. lia.
    + rewrite nth_error_app2 by exact Ge. destruct (k - length t) as [|j] eqn:J; [|destruct j; discriminate]. intros [= <-].
      assert (k = length t) as -> by lia. fold b.
      rewrite (read_other fields m2) by (try apply fields_inside; intros; apply get_put_other; rewrite le_enc_length; lia).
      unfold m2. apply read_write; [apply fields_apart|]. unfold fields.
      repeat (apply Forall2_cons; [first [exact O | exact K | exact R | reflexivity]|]). apply Forall2_nil.
  - revert H. destruct (Nat.lt_ge_cases k (length t)) as [Lt|Ge].
    + rewrite nth_error_app1 by exact Lt. intros H. apply (E k s H).
    + rewrite nth_error_app2 by exact Ge. destruct (k - length t) as [|j]; [|destruct j; discriminate]. intros [= <-]. reflexivity.
Qed.

Lemma change_length : forall A i (f : A -> A) l, length (change i f l) = length l.
Proof. intros A i f l; revert i; induction l as [|x l IH]; intros [|i]; cbn [change length]; auto. Qed.
Lemma change_nth : forall A i (f : A -> A) l k, nth_error (change i f l) k = if k =? i then option_map f (nth_error l k) else nth_error l k.
Proof.
  intros A i f l; revert i; induction l as [|x l IH]; intros [|i] [|k]; cbn [change nth_error Nat.eqb option_map]; auto.
  - destruct (k =? i); reflexivity.
Qed.

Lemma table_update : forall m t i vs, table m t -> i < length t -> fits vs ->
  table (update m i vs) (change i (fun s => with_numbers s vs) t).
Proof.
  intros m t i vs (M & C & L & E) I V. unfold update.
  destruct (Nat.leb_spec MAX_NODES i) as [X|X]; [unfold MAX_NODES in X; lia|].
  set (b := slot_at i). set (m' := write_fields m b ufields vs). pose proof (slot_after i) as B. fold b in B.
  assert (Oth : forall a n, a + n <= b + 48 \/ b + 192 <= a -> get m' a n = get m a n) by (intros; apply write_other; [apply ufields_inside|auto]).
  split; [rewrite Oth by lia; exact M|]. split; [|split].
  - rewrite change_length, <- C. unfold count_of. rewrite Oth by lia. reflexivity.
  - rewrite change_length. exact L.
  - intros k s. rewrite change_nth. destruct (Nat.eqb_spec k i) as [->|Ne].
    + destruct (nth_error t i) as [s0|] eqn:S0; [|discriminate]. intros [= <-].
      destruct (E i s0 S0) as (A1 & A2 & A3 & A4). destruct s0 as [nm us]. cbn [fst snd] in *.
      assert (RW : read_fields m' b ufields = vs).
      { apply read_write; [apply ufields_apart|]. unfold ufields. unfold fits in V.
        repeat (match goal with H : Forall2 _ _ (_ :: _) |- _ => inversion H; clear H; subst end).
        match goal with H : Forall2 _ _ [] |- _ => inversion H; subst end.
        repeat (apply Forall2_cons; [assumption|]). apply Forall2_nil. }
      assert (KP : forall f, In f [(48, 1); (50, 1); (51, 1); (52, 4)] -> get m' (b + fst f) (snd f) = get m (b + fst f) (snd f)).
      { intros f F. apply write_apart. unfold ufields.
        destruct F as [<-|[<-|[<-|[<-|[]]]]]; repeat (apply Forall_cons; [unfold apart; cbn; lia|]); apply Forall_nil. }
      fold b in A3. unfold fields, read_fields in A3. cbn [map fst snd] in A3. rewrite <- A3.
      unfold read_fields, ufields in RW. cbn [map fst snd] in RW. rewrite <- RW. unfold with_numbers. cbn [fst snd].
      split; [exact A1|]. cbn [fst snd]. split; [|split; [|reflexivity]].
      * unfold read_name in *. fold b in A2 |- *. rewrite Oth by lia. exact A2.
      * fold b. unfold read_fields, fields. cbn [map fst snd].
        pose proof (KP (48, 1) ltac:(cbn; auto)) as K1. pose proof (KP (50, 1) ltac:(cbn; auto)) as K2.
        pose proof (KP (51, 1) ltac:(cbn; auto)) as K3. pose proof (KP (52, 4) ltac:(cbn; auto)) as K4.
        cbn [fst snd] in K1, K2, K3, K4. rewrite K1, K2, K3, K4. reflexivity.
    + intros H. eapply entry_frame; [exact (E k s H)|]. intros a n A1 A2. apply Oth. fold b.
      destruct (Nat.lt_total k i) as [Lt|[->|Lt]]; [pose proof (slots_apart k i Lt); unfold b; lia|lia|pose proof (slots_apart i k Lt); unfold b; lia].
Qed.

Lemma table_open : forall m pid, table (init_header m pid) [].
Proof.
  intros m pid. unfold init_header. split; [apply get_put_same, le_enc_length|]. split; [|split; [cbn; lia|]].
  - unfold count_of. rewrite !get_put_other by (rewrite le_enc_length; lia). rewrite get_put_same by apply le_enc_length. reflexivity.
  - intros [|k] s H; discriminate.
Qed.

Lemma run_table : forall os m t, table m t -> history (length t) os -> table (run m os) (fold_left expected_step os t).
Proof.
  induction os as [|[n o r c|i vs] os IH]; intros m t T H; cbn [history] in H; cbn [run fold_left]; [exact T| |].
  - destruct H as (H1 & H2 & H3 & H4 & H5 & H6). apply IH.
    + cbn [step expected_step]. apply table_register; auto.
    + cbn [expected_step]. rewrite app_length. cbn [length]. rewrite Nat.add_1_r. exact H6.
  - destruct H as (H1 & H2 & H3). apply IH.
    + cbn [step expected_step]. apply table_update; auto.
    + cbn [expected_step]. rewrite change_length. exact H3.
Qed.
