(** C99: the generic message.  C100: text fields of fixed size and clock offsets. *)
From Coq Require Import String.
From Verif.Base Require Import Prelude Bytes Str.
From Verif.Model Require Import LogEntry Messages.
From Verif.Spec Require Import MessagesSpec.
From Verif.Proofs Require Import LogEntryProofs MessagesProofs.
Open Scope list_scope.
Open Scope nat_scope.

(** Every payload of up to 4096 bytes and metadata of up to 255 bytes is accepted
    and read back whole, before and after it crosses shared memory; everything
    larger is refused. *)
Theorem C99_carries : forall data md, utf8 md = true ->
  match gm_with_metadata data md with
  | Some m => length data <= 4096 /\ length md <= 255
      /\ reads m data (given md) /\ reads (of_raw (to_raw m)) data (given md)
  | None => 4096 < length data \/ 255 < length md
  end.
Proof.
  intros d md U. destruct (gm_with_metadata d md) as [m|] eqn:E.
  - assert (N : ~ (4096 < length d \/ 255 < length md)) by (rewrite <- with_metadata_none; congruence).
    apply with_metadata_spec in E as [S R]; auto. rewrite raw_round by auto. split; [lia|]. split; [lia|auto].
  - apply with_metadata_none, E.
Qed.
Print Assumptions C99_carries.

Theorem C99_carries_data : forall data,
  match gm_new data with
  | Some m => length data <= 4096 /\ reads m data None /\ reads (of_raw (to_raw m)) data None
  | None => 4096 < length data
  end.
Proof.
  intros d. destruct (gm_new d) as [m|] eqn:E.
  - assert (N : ~ 4096 < length d) by (rewrite <- new_none; congruence).
    apply new_spec in E as (S & D & _ & M). rewrite raw_round by auto.
    assert (R : reads m d None) by (split; [auto|unfold gm_metadata; rewrite M; reflexivity]).
    split; [lia|auto].
  - apply new_none, E.
Qed.
Print Assumptions C99_carries_data.

Example C99_ex_carries : gm_with_metadata (repeat 7%N 300) (bs "pose") <> None /\ gm_new (repeat 7%N 4097) = None.
Proof. split; [rewrite with_metadata_none; rewrite repeat_length; cbn; lia|apply new_none; rewrite repeat_length; lia]. Qed.

(** The documented limit of 256 bytes of metadata is not the limit: none of that
    length is accepted. *)
Theorem C99_metadata_limit_refuted : forall data md, length md = 256 -> gm_with_metadata data md = None.
Proof. intros d md L. apply with_metadata_none. lia. Qed.
Print Assumptions C99_metadata_limit_refuted.

(** Written as a map and read back, a message carries the same payload and metadata. *)
Theorem C99_named_format : forall data md m, utf8 md = true -> gm_with_metadata data md = Some m ->
  exists d m', ser_map m = Some d /\ gm_de d = Some m' /\ reads m' data (given md).
Proof.
  intros data md m U E. apply with_metadata_spec in E as [S [R1 R2]]; auto.
  destruct (map_round m S) as (d & m' & A & B & C & D). exists d, m'. repeat split; auto; congruence.
Qed.
Print Assumptions C99_named_format.

(** Whatever a map claims, the message read from it can be read without a panic. *)
Theorem C99_decoded_safe : forall d m, gm_de d = Some m -> exists data md, reads m data md.
Proof.
  intros d m E. apply decoded_sound, sound_reads in E as [A B]. unfold reads.
  destruct (gm_data m) as [x|], (gm_metadata m) as [y|]; try congruence. eauto.
Qed.
Print Assumptions C99_decoded_safe.

Example C99_ex_decoded :
  exists m, gm_de (DMap [(bs "metadata", VBytes []); (bs "inline_len", VNum 900); (bs "inline_data", VBytes [1; 2; 3]%N);
                         (bs "extra", VNum 1); (bs "overflow_data", VBytes []); (bs "overflow_len", VNum 5)]) = Some m
            /\ reads m [1; 2; 3]%N None.
Proof. eexists. split; [reflexivity|]. split; reflexivity. Qed.

(** Written in a format that stores structs as sequences, no message can be read back. *)
Theorem C99_compact_format_refuted : forall data md m, utf8 md = true -> gm_with_metadata data md = Some m ->
  exists d, ser_seq m = Some d /\ gm_de d = None.
Proof.
  intros data md m U E. apply with_metadata_spec in E as [S _]; auto.
  destruct (seq_sound m S) as [d H]. exists d. split; auto. eapply seq_refused; eauto.
Qed.
Print Assumptions C99_compact_format_refuted.

(** A message taken from shared memory is not checked: reading it panics exactly
    when the bytes at the places of the three lengths are out of range, as the
    bytes of another type on the same topic may be. *)
Theorem C99_foreign_bytes_refuted : forall raw, length raw = RAW_SIZE ->
  (gm_data (of_raw raw) = None <-> (256 < get_le 256 2 raw \/ 3840 < get_le 4100 4 raw)%N)
  /\ (gm_metadata (of_raw raw) = None <-> (256 < get_le 4360 2 raw)%N).
Proof. exact raw_panics. Qed.
Print Assumptions C99_foreign_bytes_refuted.

Example C99_ex_foreign : exists raw, length raw = RAW_SIZE /\ gm_data (of_raw raw) = None.
Proof.
  exists (repeat 255%N RAW_SIZE). split; [apply repeat_length|].
  apply raw_panics; [apply repeat_length|]. left. reflexivity.
Qed.

(** A preview of a message is the longest well-formed beginning of its text that
    fits the budget. *)
Theorem C99_preview : forall s max, utf8 s = true ->
  exists n, truncate_on_char_boundary s max = firstn n s /\ n <= length s
    /\ length (firstn n s) <= max /\ utf8 (firstn n s) = true
    /\ (forall k, k <= length s -> k <= max -> utf8 (firstn k s) = true -> k <= n).
Proof. exact truncate_spec. Qed.
Print Assumptions C99_preview.

Example C99_ex_preview : truncate_on_char_boundary [65; 195; 169; 66]%N 2 = [65]%N.
Proof. reflexivity. Qed.

(** A name shorter than its field, without NUL, is read back as it was given,
    whether the field was cleared first or overwritten in place. *)
Theorem C100_round_trip : forall size s, utf8 s = true -> no_nul s -> length s < size ->
  field_get (field_set size s) = s
  /\ forall old, length old = size -> field_get (field_over old s) = s.
Proof.
  intros size s U H L. assert (G : field_get (firstn (size - 1) s) = s).
  { rewrite firstn_all2 by lia. rewrite <- (firstn_all s) at 1. rewrite get_text, boundary_all by auto. apply firstn_all. }
  split; [rewrite set_get by lia; auto|]. intros old Ho. rewrite over_get by lia. rewrite Ho. auto.
Qed.
Print Assumptions C100_round_trip.

Example C100_ex_round_trip : field_get (field_set 32 (bs "gps")) = bs "gps"
  /\ field_get (field_over (field_set 32 (bs "a longer source")) (bs "gps")) = bs "gps".
Proof. split; reflexivity. Qed.

(** A longer name is cut to the field when the cut falls between two characters,
    and is lost altogether when it falls inside one. *)
Theorem C100_long_name_refuted : forall size s, utf8 s = true -> no_nul s -> 0 < size <= length s ->
  field_get (field_set size s) = if is_char_boundary s (size - 1) then firstn (size - 1) s else [].
Proof. intros size s U H L. rewrite set_get by lia. apply get_text; auto. lia. Qed.
Print Assumptions C100_long_name_refuted.

(** Such a name exists for every field of two bytes or more. *)
Example C100_ex_long_name : forall size, 2 <= size ->
  let s := repeat 97%N (size - 2) ++ [195; 169]%N in
  utf8 s = true /\ no_nul s /\ length s = size /\ field_get (field_set size s) = [].
Proof.
  intros size L s.
  assert (U : forall k, utf8 (repeat 97%N k ++ [195; 169]%N) = true) by (induction k; auto).
  assert (Hn : no_nul s).
  { unfold no_nul, s. apply Forall_app. split; [|repeat constructor; discriminate].
    clear. induction (size - 2); cbn; constructor; auto; discriminate. }
  assert (Hl : length s = size) by (unfold s; rewrite app_length, repeat_length; cbn; lia).
  split; [apply U|]. split; [auto|]. split; [auto|].
  rewrite C100_long_name_refuted by (auto; try apply U; lia).
  unfold is_char_boundary. replace (size - 1 =? 0) with false by (symmetry; apply Nat.eqb_neq; lia).
  unfold s. rewrite nth_error_app2; rewrite repeat_length; [|lia].
  replace (size - 1 - (size - 2)) with 1 by lia. reflexivity.
Qed.

(** Two names that agree up to the field's size cannot be told apart. *)
Theorem C100_same_prefix_refuted : forall size a b, firstn (size - 1) a = firstn (size - 1) b ->
  field_set size a = field_set size b.
Proof. intros size a b E. unfold field_set. rewrite E. reflexivity. Qed.
Print Assumptions C100_same_prefix_refuted.

Example C100_ex_same_prefix :
  firstn 31 (bs "warehouse_7_ground_floor_lidar_front") = firstn 31 (bs "warehouse_7_ground_floor_lidar_flank")
  /\ bs "warehouse_7_ground_floor_lidar_front" <> bs "warehouse_7_ground_floor_lidar_flank".
Proof. split; [reflexivity|discriminate]. Qed.

(** The corrected time is the local time less the offset, kept within 64 bits, and
    an offset measured as the documentation says turns the local time into the
    reference time. *)
Theorem C100_correction : forall offset local,
  (- 2 ^ 63 <= offset < 2 ^ 63)%Z -> (0 <= local < 2 ^ 64)%Z ->
  correct_timestamp offset local = Z.max 0 (Z.min (2 ^ 64 - 1) (local - offset)).
Proof.
  intros offset local A B. unfold correct_timestamp. change (2 ^ 64)%Z with 18446744073709551616%Z in *.
  change (2 ^ 63)%Z with 9223372036854775808%Z in *.
  destruct (Z.leb_spec 0 offset); lia.
Qed.
Print Assumptions C100_correction.

Theorem C100_reference : forall local reference,
  (0 <= local < 2 ^ 63)%Z -> (0 <= reference < 2 ^ 63)%Z ->
  correct_timestamp (local - reference) local = reference.
Proof.
  intros local reference A B. unfold correct_timestamp. change (2 ^ 64)%Z with 18446744073709551616%Z in *.
  change (2 ^ 63)%Z with 9223372036854775808%Z in *.
  destruct (Z.leb_spec 0 (local - reference)); lia.
Qed.
Print Assumptions C100_reference.

Example C100_ex_reference : correct_timestamp (5 - 9) 5 = 9%Z /\ correct_timestamp (9 - 5) 9 = 5%Z.
Proof. split; reflexivity. Qed.
