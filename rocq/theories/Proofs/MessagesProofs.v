From Coq Require Import String.
From Verif.Base Require Import Prelude Bytes Str.
From Verif.Model Require Import LogEntry Messages.
From Verif.Spec Require Import MessagesSpec.
From Verif.Proofs Require Import LogEntryProofs.
Open Scope list_scope.
Open Scope nat_scope.

Lemma some_eq {A} (x y : A) : Some x = Some y -> x = y.
Proof. congruence. Qed.
Lemma zeros_length n : length (zeros n) = n.
Proof. apply repeat_length. Qed.
Lemma blit_length buf s : length s <= length buf -> length (blit buf s) = length buf.
Proof. intros L. unfold blit. rewrite app_length, skipn_length. lia. Qed.
Lemma blit_prefix buf s : length s <= length buf -> prefix (blit buf s) (length s) = Some s.
Proof.
  intros L. unfold prefix. rewrite blit_length by auto.
  replace (length s <=? length buf) with true by (symmetry; apply Nat.leb_le; auto).
  unfold blit. rewrite firstn_app, firstn_all, Nat.sub_diag. cbn. rewrite app_nil_r. reflexivity.
Qed.

Lemma new_none d : gm_new d = None <-> 4096 < length d.
Proof.
  unfold gm_new, MAX_GENERIC_PAYLOAD. destruct (Nat.ltb_spec 4096 (length d)); [tauto|].
  destruct (length d <=? INLINE_BUFFER_SIZE); split; try discriminate; lia.
Qed.

Lemma new_spec d m : gm_new d = Some m ->
  sound m /\ gm_data m = Some d /\ meta m = zeros 256 /\ meta_len m = 0.
Proof.
  unfold gm_new. change MAX_GENERIC_PAYLOAD with (256 + 3840). change INLINE_BUFFER_SIZE with 256.
  change OVERFLOW_SIZE with 3840. change METADATA_SIZE with 256.
  destruct (Nat.ltb_spec (256 + 3840) (length d)) as [|L]; [discriminate|].
  destruct (Nat.leb_spec (length d) 256) as [S|S]; intros H; apply some_eq in H; subst m;
    unfold sound, gm_data; cbn [inline_data inline_len overflow_data overflow_len meta meta_len].
  - rewrite blit_length, blit_prefix; rewrite ?zeros_length; auto.
    replace (0 <? 0) with false by reflexivity. repeat split; auto; lia.
  - assert (F : length (firstn 256 d) = 256) by (rewrite firstn_length; lia).
    assert (K : length (skipn 256 d) <= 3840) by (rewrite skipn_length; lia).
    assert (K0 : 0 < length (skipn 256 d)) by (rewrite skipn_length; lia).
    rewrite blit_length, blit_prefix; rewrite ?zeros_length; auto.
    unfold prefix. rewrite F. replace (256 <=? 256) with true by reflexivity.
    rewrite firstn_firstn. change (Nat.min 256 256) with 256.
    replace (0 <? length (skipn 256 d)) with true by (symmetry; apply Nat.ltb_lt; auto).
    rewrite firstn_skipn. repeat split; auto; lia.
Qed.

Lemma with_metadata_none d md : gm_with_metadata d md = None <-> 4096 < length d \/ 255 < length md.
Proof.
  unfold gm_with_metadata. destruct (gm_new d) as [m|] eqn:E.
  - assert (~ 4096 < length d) by (rewrite <- new_none; congruence).
    destruct (Nat.ltb_spec 255 (length md)); split; try discriminate; auto. lia.
  - apply new_none in E. tauto.
Qed.

Lemma with_metadata_spec d md m : utf8 md = true -> gm_with_metadata d md = Some m ->
  sound m /\ reads m d (given md).
Proof.
  intros U. unfold gm_with_metadata. destruct (gm_new d) as [n|] eqn:E; [|discriminate].
  destruct (Nat.ltb_spec 255 (length md)) as [|L]; [discriminate|]. intros H. apply some_eq in H; subst m.
  apply new_spec in E as (S & D & M & _). destruct S as (A1 & A2 & A3 & A4 & A5 & A6).
  split.
  - unfold sound; cbn [inline_data inline_len overflow_data overflow_len meta meta_len].
    rewrite blit_length by lia. repeat split; auto; lia.
  - split; [exact D|]. unfold gm_metadata; cbn [meta meta_len].
    rewrite blit_prefix by lia. destruct md as [|b md]; [reflexivity|]. cbn [length Nat.eqb given].
    rewrite U. reflexivity.
Qed.

Lemma sound_reads m : sound m -> gm_data m <> None /\ gm_metadata m <> None.
Proof.
  intros (A1 & A2 & A3 & A4 & A5 & A6). unfold gm_data, gm_metadata, prefix. rewrite A1, A3, A5.
  rewrite (leb_correct _ _ A2), (leb_correct _ _ A4), (leb_correct _ _ A6).
  split; [destruct (0 <? overflow_len m)|destruct (meta_len m =? 0)]; discriminate.
Qed.

Lemma rebuild_sound i il o ol md : sound (rebuild i il o ol md).
Proof.
  unfold sound, rebuild; cbn [inline_data inline_len overflow_data overflow_len meta meta_len].
  change INLINE_BUFFER_SIZE with 256. change OVERFLOW_SIZE with 3840. change METADATA_SIZE with 256.
  rewrite !blit_length; rewrite ?zeros_length, ?firstn_length; try lia.
Qed.

Lemma decoded_sound d m : gm_de d = Some m -> sound m.
Proof.
  destruct d as [l|l]; [|discriminate]. cbn [gm_de].
  destruct (read_fields _ l) as [[[i|] [il|] [o|] [ol|] [md|]]|]; try discriminate.
  intros H. apply some_eq in H; subst m. apply rebuild_sound.
Qed.

(** * Round trip through a map *)
Lemma sound_fields m : sound m -> gm_fields m =
  Some [(bs "inline_data", VBytes (firstn (inline_len m) (inline_data m))); (bs "inline_len", VNum (N.of_nat (inline_len m)));
        (bs "overflow_data", VBytes (firstn (overflow_len m) (overflow_data m))); (bs "overflow_len", VNum (N.of_nat (overflow_len m)));
        (bs "metadata", VBytes (firstn (meta_len m) (meta m)))].
Proof.
  intros (A1 & A2 & A3 & A4 & A5 & A6). unfold gm_fields, prefix. rewrite A1, A3, A5.
  rewrite (leb_correct _ _ A2), (leb_correct _ _ A4), (leb_correct _ _ A6). reflexivity.
Qed.

Lemma read_five i (il : N) o (ol : N) md : (il < 65536)%N -> (ol < 4294967296)%N ->
  read_fields (Acc None None None None None)
    [(bs "inline_data", VBytes i); (bs "inline_len", VNum il); (bs "overflow_data", VBytes o);
     (bs "overflow_len", VNum ol); (bs "metadata", VBytes md)]
  = Some (Acc (Some i) (Some il) (Some o) (Some ol) (Some md)).
Proof.
  intros A B. apply N.ltb_lt in A, B.
  cbn [read_fields]. unfold read_field.
  repeat match goal with |- context [beqb (bs ?a) (bs ?b)] =>
    let v := eval vm_compute in (beqb (bs a) (bs b)) in change (beqb (bs a) (bs b)) with v end.
  cbn [a_inline a_inline_len a_over a_over_len a_meta]. rewrite A. cbn [a_inline a_inline_len a_over a_over_len a_meta].
  rewrite B. reflexivity.
Qed.

Lemma rebuild_reads m : sound m ->
  let m' := rebuild (firstn (inline_len m) (inline_data m)) (N.of_nat (inline_len m))
              (firstn (overflow_len m) (overflow_data m)) (N.of_nat (overflow_len m))
              (firstn (meta_len m) (meta m)) in
  gm_data m' = gm_data m /\ gm_metadata m' = gm_metadata m.
Proof.
  intros (A1 & A2 & A3 & A4 & A5 & A6). cbv zeta.
  assert (F1 : length (firstn (inline_len m) (inline_data m)) = inline_len m) by (rewrite firstn_length; lia).
  assert (F2 : length (firstn (overflow_len m) (overflow_data m)) = overflow_len m) by (rewrite firstn_length; lia).
  assert (F3 : length (firstn (meta_len m) (meta m)) = meta_len m) by (rewrite firstn_length; lia).
  unfold rebuild, gm_data, gm_metadata. cbn [inline_data inline_len overflow_data overflow_len meta meta_len].
  change INLINE_BUFFER_SIZE with 256. change OVERFLOW_SIZE with 3840. change METADATA_SIZE with 256.
  rewrite F1, F2, F3. rewrite (Nat.min_l _ _ A2), (Nat.min_l _ _ A4), (Nat.min_l _ _ A6).
  rewrite !firstn_firstn, !Nat.min_id, !N.min_id, !Nat2N.id.
  rewrite N.mod_small, N.min_id, Nat2N.id by lia.
  set (a := firstn (inline_len m) (inline_data m)) in *.
  set (b := firstn (overflow_len m) (overflow_data m)) in *.
  set (c := firstn (meta_len m) (meta m)) in *.
  assert (P1 : prefix (blit (zeros 256) a) (inline_len m) = prefix (inline_data m) (inline_len m)).
  { rewrite <- F1 at 1. rewrite blit_prefix by (rewrite zeros_length; lia).
    unfold prefix. rewrite A1, (leb_correct _ _ A2). reflexivity. }
  assert (P2 : prefix (blit (zeros 3840) b) (overflow_len m) = prefix (overflow_data m) (overflow_len m)).
  { rewrite <- F2 at 1. rewrite blit_prefix by (rewrite zeros_length; lia).
    unfold prefix. rewrite A3, (leb_correct _ _ A4). reflexivity. }
  assert (P3 : prefix (blit (zeros 256) c) (meta_len m) = prefix (meta m) (meta_len m)).
  { rewrite <- F3 at 1. rewrite blit_prefix by (rewrite zeros_length; lia).
    unfold prefix. rewrite A5, (leb_correct _ _ A6). reflexivity. }
  rewrite P1, P2, P3. auto.
Qed.

Lemma map_round m : sound m -> exists d m', ser_map m = Some d /\ gm_de d = Some m'
  /\ gm_data m' = gm_data m /\ gm_metadata m' = gm_metadata m.
Proof.
  intros S. unfold ser_map. rewrite (sound_fields _ S). cbn [option_map].
  eexists _, _. split; [reflexivity|]. cbn [gm_de].
  destruct S as (A1 & A2 & A3 & A4 & A5 & A6).
  rewrite read_five by lia. split; [reflexivity|].
  apply rebuild_reads. repeat split; auto.
Qed.

Lemma seq_refused m d : ser_seq m = Some d -> gm_de d = None.
Proof. unfold ser_seq. destruct (gm_fields m); cbn; [|discriminate]. intros H; injection H as <-. reflexivity. Qed.
Lemma seq_sound m : sound m -> exists d, ser_seq m = Some d.
Proof. intros S. unfold ser_seq. rewrite (sound_fields _ S). eexists; reflexivity. Qed.

(** * The image in shared memory *)
Lemma slice_at a b c i k : length a = i -> length b = k -> slice i k (a ++ b ++ c) = b.
Proof.
  intros <- <-. unfold slice. rewrite skipn_app, skipn_all, Nat.sub_diag. cbn [app skipn].
  rewrite firstn_app, firstn_all, Nat.sub_diag. cbn. apply app_nil_r.
Qed.

Lemma raw_round m : sound m -> of_raw (to_raw m) = m.
Proof.
  intros (A1 & A2 & A3 & A4 & A5 & A6). destruct m as [i il o ol md ml]. cbn [inline_data inline_len overflow_data overflow_len meta meta_len] in *.
  unfold of_raw, to_raw, get_le; cbn [inline_data inline_len overflow_data overflow_len meta meta_len].
  set (i2 := le_enc 2 (N.of_nat il)). set (o2 := le_enc 4 (N.of_nat ol)). set (m2 := le_enc 2 (N.of_nat ml)).
  assert (Hi : length i2 = 2) by apply le_enc_length.
  assert (Ho : length o2 = 4) by apply le_enc_length.
  assert (Hm : length m2 = 2) by apply le_enc_length.
  set (z := [0%N; 0%N]). assert (Hz : length z = 2) by reflexivity.
  clearbody z.
  f_equal.
  - apply (slice_at [] i _ 0 256); auto.
  - rewrite (slice_at i i2 _ 256 2) by auto. subst i2. rewrite le_dec_enc by (change (256 ^ N.of_nat 2)%N with 65536%N; lia). lia.
  - rewrite (app_assoc i). apply slice_at; auto. rewrite app_length. lia.
  - replace (i ++ i2 ++ o ++ z ++ o2 ++ md ++ m2 ++ z) with ((i ++ i2 ++ o ++ z) ++ o2 ++ md ++ m2 ++ z) by (rewrite <- !app_assoc; reflexivity).
    rewrite (slice_at (i ++ i2 ++ o ++ z) o2 _ 4100 4) by (rewrite ?app_length; lia). subst o2.
    rewrite le_dec_enc by (change (256 ^ N.of_nat 4)%N with 4294967296%N; lia). lia.
  - replace (i ++ i2 ++ o ++ z ++ o2 ++ md ++ m2 ++ z) with ((i ++ i2 ++ o ++ z ++ o2) ++ md ++ m2 ++ z) by (rewrite <- !app_assoc; reflexivity).
    apply slice_at; rewrite ?app_length; lia.
  - replace (i ++ i2 ++ o ++ z ++ o2 ++ md ++ m2 ++ z) with ((i ++ i2 ++ o ++ z ++ o2 ++ md) ++ m2 ++ z) by (rewrite <- !app_assoc; reflexivity).
    rewrite (slice_at (i ++ i2 ++ o ++ z ++ o2 ++ md) m2 _ 4360 2) by (rewrite ?app_length; lia). subst m2.
    rewrite le_dec_enc by (change (256 ^ N.of_nat 2)%N with 65536%N; lia). lia.
Qed.

Lemma raw_panics raw : length raw = RAW_SIZE ->
  (gm_data (of_raw raw) = None <-> (256 < get_le 256 2 raw \/ 3840 < get_le 4100 4 raw)%N)
  /\ (gm_metadata (of_raw raw) = None <-> (256 < get_le 4360 2 raw)%N).
Proof.
  unfold RAW_SIZE. intros L.
  assert (S : forall i k, i + k <= 4364 -> length (slice i k raw) = k).
  { intros i k H. unfold slice. rewrite firstn_length, skipn_length. lia. }
  unfold gm_data, gm_metadata, of_raw, prefix; cbn [inline_data inline_len overflow_data overflow_len meta meta_len].
  rewrite !S by (apply leb_complete; reflexivity).
  generalize (get_le 256 2 raw) (get_le 4100 4 raw) (get_le 4360 2 raw). intros a b c.
  destruct (Nat.leb_spec (N.to_nat a) 256), (Nat.leb_spec (N.to_nat b) 3840), (Nat.leb_spec (N.to_nat c) 256),
    (Nat.ltb_spec 0 (N.to_nat b)), (Nat.eqb_spec (N.to_nat c) 0);
    split; split; intros; try discriminate; try reflexivity; first [lia|exfalso; lia].
Qed.

(** * Truncation *)
Lemma truncate_spec s max : utf8 s = true ->
  exists n, truncate_on_char_boundary s max = firstn n s /\ n <= length s
    /\ length (firstn n s) <= max /\ utf8 (firstn n s) = true
    /\ (forall k, k <= length s -> k <= max -> utf8 (firstn k s) = true -> k <= n).
Proof.
  intros U. unfold truncate_on_char_boundary. destruct (Nat.leb_spec (length s) max).
  - exists (length s). rewrite firstn_all. repeat split; auto.
  - pose proof (back_up_le s max). exists (back_up s max). split; [auto|]. split; [lia|].
    split; [rewrite firstn_length; lia|]. split.
    + rewrite prefix_utf8; auto using utf8_chars', back_up_boundary. lia.
    + intros k Hk Hm Hu. apply back_up_max; auto. rewrite <- prefix_utf8; auto using utf8_chars'.
Qed.

(** * Text fields *)
Lemma until_nul_app s r : no_nul s -> until_nul (s ++ 0%N :: r) = s.
Proof.
  induction 1 as [|b s Hb Hs IH]; [reflexivity|]. cbn [app until_nul].
  replace (b =? 0)%N with false by (symmetry; apply N.eqb_neq; auto). rewrite IH. reflexivity.
Qed.
Lemma no_nul_firstn n s : no_nul s -> no_nul (firstn n s).
Proof. intros H. revert n. induction H; intros [|n]; cbn; constructor; auto. apply IHForall. Qed.

Lemma field_set_zero size s : 0 < size ->
  exists r, field_set size s = firstn (size - 1) s ++ 0%N :: r.
Proof.
  intros L. unfold field_set, zeros. set (p := firstn (size - 1) s).
  assert (length p < size) by (unfold p; rewrite firstn_length; lia).
  destruct (size - length p) as [|k] eqn:E; [lia|]. exists (repeat 0%N k). reflexivity.
Qed.
Lemma field_set_length size s : 0 < size -> length (field_set size s) = size.
Proof. intros L. unfold field_set. rewrite app_length, zeros_length, firstn_length. lia. Qed.
Lemma field_over_length old s : 0 < length old -> length (field_over old s) = length old.
Proof. intros L. unfold field_over. rewrite !app_length, skipn_length, firstn_length. cbn. lia. Qed.

Lemma until_nul_cut s r : until_nul (s ++ 0%N :: r) = until_nul s.
Proof. induction s as [|b s IH]; [reflexivity|]. cbn [app until_nul]. rewrite IH. reflexivity. Qed.

Lemma set_get size s : 0 < size -> field_get (field_set size s) = field_get (firstn (size - 1) s).
Proof.
  intros L. destruct (field_set_zero size s L) as [r E]. unfold field_get.
  rewrite E, until_nul_cut. reflexivity.
Qed.
Lemma over_get old s : 0 < length old -> field_get (field_over old s) = field_get (firstn (length old - 1) s).
Proof. intros L. unfold field_get, field_over. cbn [app]. rewrite until_nul_cut. reflexivity. Qed.

Lemma until_nul_id s : no_nul s -> until_nul s = s.
Proof.
  induction 1 as [|b s Hb Hs IH]; [reflexivity|]. cbn [until_nul].
  replace (b =? 0)%N with false by (symmetry; apply N.eqb_neq; auto). rewrite IH. reflexivity.
Qed.
Lemma get_text s n : no_nul s -> utf8 s = true -> n <= length s ->
  field_get (firstn n s) = if is_char_boundary s n then firstn n s else [].
Proof.
  intros H U L. unfold field_get. rewrite until_nul_id by (apply no_nul_firstn; auto).
  rewrite (prefix_utf8 s); auto using utf8_chars'.
Qed.
