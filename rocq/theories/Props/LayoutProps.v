(** C11: memory layout and mappings. *)
From Verif.Base Require Import Prelude.
From Verif.Model Require Import Layout.
From Verif.Spec Require Import LayoutSpec.
From Verif.Proofs Require Import LayoutProofs.
Local Open Scope N_scope.

(** Header, ready words and data slots never overlap and all lie inside the region, whatever the capacity and
    the stride. *)
Theorem C11_slots_disjoint : forall cap st i j, i < cap -> j < cap ->
  disjoint 0 HEADER_SIZE (seq_slot_offset i) 8 /\
  disjoint (seq_slot_offset i) 8 (data_slot_offset cap j st) st /\
  (i <> j -> disjoint (seq_slot_offset i) 8 (seq_slot_offset j) 8) /\
  (i <> j -> disjoint (data_slot_offset cap i st) st (data_slot_offset cap j st) st) /\
  inside (data_slot_offset cap j st) st (required_region_len cap st).
Proof.
  intros cap st i j Hi Hj. unfold disjoint, inside, required_region_len, data_slot_offset, data_region_offset, seq_slot_offset, HEADER_SIZE.
  pose proof (slot_end _ _ st Hj). pose proof (slot_end _ _ 8 Hi).
  repeat split; try lia. intros Hn. assert (K : i < j \/ j < i) by lia. destruct K as [K|K].
  - left. pose proof (slot_end j i st K) as X. lia.
  - right. pose proof (slot_end i j st K) as X. lia.
Qed.
Print Assumptions C11_slots_disjoint.

(** For what the constructor accepts, the region it asks for has room for every slot the send routines touch:
    always for plain-data types, and for serialised ones when the slot holds at least its own 16 bytes of
    bookkeeping. *)
Theorem C11_send_stays_in_its_slot : forall capacity slot_size is_pod type_size len i,
  accepted capacity slot_size = true ->
  let cap := next_power_of_two capacity in let slot := actual_slot_size is_pod type_size slot_size in
  (is_pod = false -> 16 <= slot /\ stored_inline slot len = true) -> i < cap ->
  capacity <= cap /\
  let st := stride is_pod type_size slot in
  touched is_pod type_size len <= st /\
  inside (data_slot_offset cap i st) (touched is_pod type_size len) (required_region_len cap slot).
Proof.
  intros capacity slot_size is_pod type_size len i Ha cap slot Hs Hi. split.
  - apply next_pow2_ge. unfold accepted in Ha. bool_prop. lia.
  - cbv zeta.
    assert (A : stride is_pod type_size slot <= slot /\ touched is_pod type_size len <= stride is_pod type_size slot).
    { unfold stride, touched, slot, actual_slot_size, stored_inline in *. destruct is_pod.
      - destruct (N.leb_spec (type_size + 8) 64); lia.
      - destruct (Hs eq_refl) as (H1 & H2). apply N.leb_le in H2. fold slot in H1, H2. unfold slot, actual_slot_size in H1, H2.
        destruct slot_size; lia. }
    destruct A as (A1 & A2). split; auto. unfold inside, data_slot_offset, required_region_len, data_region_offset.
    pose proof (slot_end cap i (stride is_pod type_size slot) Hi). pose proof (N.mul_le_mono_l _ _ cap A1). lia.
Qed.
Print Assumptions C11_send_stays_in_its_slot.

(** Any number of handles opening the topic with any capacities and slot sizes of their own, and taking over the
    creator's on first use or on an epoch change: as long as the creator was first and nobody grows the slots,
    no handle ever reaches outside its mapping or the file. *)
Theorem C11_mappings_cover_partial : forall ops, orderly ops -> no_grow ops ->
  exists file, m_file (m_run ops) = Some file /\ forall h x, m_h (m_run ops) h = Some x -> in_bounds file x.
Proof.
  intros ops Ho Hg. destruct (orderly_inv ops Ho Hg) as (file & cap & slot & F & D & R & H).
  exists file. split; auto. intros h x Hx. destruct (H _ _ Hx) as (A & _ & C). apply covered; auto.
Qed.
Print Assumptions C11_mappings_cover_partial.

(** The grown handle itself has room for the message that did not fit. *)
Theorem C11_grow_makes_room : forall old needed, needed + 16 <= grown_slot old needed /\ old * 2 <= grown_slot old needed /\
  stored_inline (grown_slot old needed) needed = true.
Proof.
  intros old needed. unfold grown_slot, stored_inline.
  pose proof (next_pow2_ge (needed + 16 + needed / 4) ltac:(lia)). pose proof (N.le_0_l (needed / 4)). repeat split; try lia.
Qed.
Print Assumptions C11_grow_makes_room.

(** A handle that takes an epoch change over can reach every slot of the current geometry within its own
    mapping, whatever happened before: growing, late joiners, open races. *)
Theorem C11_epoch_catches_up : forall ops h x cap slot, m_h (m_run ops) h = Some x -> m_hdr (m_run ops) = Some (cap, slot) ->
  exists x', m_h (m_run (ops ++ [MEpoch h])) h = Some x' /\ h_cap x' = cap /\ h_slot x' = slot /\
  forall i, i < cap -> inside (seq_slot_offset i) 8 (h_map x') /\ inside (data_slot_offset cap i slot) slot (h_map x').
Proof.
  intros ops h x cap slot Hx Hh. unfold m_run. rewrite fold_left_app. fold (m_run ops). cbn [fold_left m_step]. rewrite Hx, Hh.
  unfold grow_unchecked. cbn [h_map h_cap h_slot m_hdr m_wait m_h].
  destruct (N.ltb_spec (h_map x) (required_region_len cap slot)) as [L|L]; cbn [m_h]; rewrite updh_eq; eexists; (split; [reflexivity|]); cbn [h_cap h_slot h_map];
    (split; [auto|]); (split; [auto|]); intros i Hi.
  - destruct (covered (MHandle (required_region_len cap slot) cap slot) ltac:(cbn; lia) _ (N.le_refl _) i Hi) as (A & B & _). auto.
  - destruct (covered (MHandle (h_map x) cap slot) ltac:(cbn; lia) _ (N.le_refl _) i Hi) as (A & B & _). auto.
Qed.
Print Assumptions C11_epoch_catches_up.
Example C11_epoch_catches_up_ex : let s := m_run [MOpen 0 4 64; MSetLen 0; MEnsure 0; MOpen 1 4 64; MEnsure 1; MGrow 0 100] in
  m_h s 1%nat = Some (MHandle 928 4 64) /\ m_hdr s = Some (4, 256).
Proof. vm_compute. auto. Qed.

(** A handle that grew the slots can itself reach every one of them, in its mapping and in the file. *)
Theorem C11_grower_in_bounds : forall ops h needed, let s := m_run ops in let s' := m_run (ops ++ [MGrow h needed]) in
  m_hdr s' <> m_hdr s -> (forall x, m_h s h = Some x -> exists slot, m_hdr s = Some (h_cap x, slot)) ->
  exists x' file, m_h s' h = Some x' /\ m_file s' = Some file /\ in_bounds file x' /\ m_hdr s' = Some (h_cap x', h_slot x') /\ needed + 16 <= h_slot x'.
Proof.
  intros ops h needed s s' Hd Hc. revert Hd. unfold s', s in *. unfold m_run. rewrite fold_left_app. fold (m_run ops). cbn [fold_left m_step].
  destruct (m_h (m_run ops) h) as [x|] eqn:Hx; [|congruence]. destruct (Hc x eq_refl) as (sl & Hh). rewrite Hh.
  destruct (h_cap x =? 0) eqn:Z; [congruence|]. unfold grow_unchecked. cbn [m_hdr m_wait m_h].
  destruct (N.ltb_spec (h_map x) (required_region_len (h_cap x) (grown_slot (h_slot x) needed))); [|congruence].
  intros _. cbn [m_file m_hdr m_h]. rewrite updh_eq. eexists _, _. split; [reflexivity|]. split; [reflexivity|].
  split; [apply covered; cbn; lia|]. split; [reflexivity|]. cbn [h_slot]. apply C11_grow_makes_room.
Qed.
Print Assumptions C11_grower_in_bounds.
Example C11_grower_in_bounds_ex : let s := m_run [MOpen 0 4 64; MSetLen 0; MEnsure 0] in
  m_hdr (m_run ([MOpen 0 4 64; MSetLen 0; MEnsure 0] ++ [MGrow 0 100])) <> m_hdr s /\ m_h s 0%nat = Some (MHandle 928 4 64) /\ m_hdr s = Some (4, 64).
Proof. vm_compute. split; [discriminate|auto]. Qed.

(** A slot size below 16 is accepted, and storing even an empty message then reaches past the end of the region. *)
Theorem C11_tiny_slot_refuted : forall s, 0 < s -> s < 16 ->
  accepted 1 (Some s) = true /\ stored_inline s 0 = true /\
  ~ inside (data_slot_offset 1 0 s) (touched false 0 0) (required_region_len 1 s).
Proof.
  intros s H1 H2. split; [|split].
  - unfold accepted, MAX_SLOT_SIZE. cbn [N.eqb negb andb]. destruct (N.eqb_spec s 0); [lia|]. cbn [negb andb]. apply N.leb_le. lia.
  - apply N.leb_le. lia.
  - unfold inside, data_slot_offset, required_region_len, touched. lia.
Qed.
Print Assumptions C11_tiny_slot_refuted.

Ltac mrun := repeat (progress (cbn [fold_left m_step m_file m_wait m_hdr m_h updh Nat.eqb h_slot h_cap h_map]; unfold grow_unchecked)).

(** One handle grows the slots; another one that uses the topic for the first time afterwards takes over the
    larger slot size but keeps its old mapping, and writes beyond it. *)
Theorem C11_grow_then_join_refuted : forall cap slot needed, 0 < cap -> 0 < slot ->
  exists file x, let s := m_run [MOpen 0 cap slot; MSetLen 0; MEnsure 0; MOpen 1 cap slot; MGrow 0 needed; MEnsure 1] in
  m_file s = Some file /\ m_h s 1%nat = Some x /\ ~ in_bounds file x.
Proof.
  intros cap slot needed Hc Hs.
  set (g := grown_slot slot needed). pose proof (proj1 (proj2 (C11_grow_makes_room slot needed))) as G. fold g in G.
  assert (L : required_region_len cap slot < required_region_len cap g).
  { unfold required_region_len. assert (cap * slot < cap * g) by (apply N.mul_lt_mono_pos_l; lia). lia. }
  eexists _, (MHandle (required_region_len cap slot) cap g). cbv zeta. unfold m_run, m_init. mrun.
  rewrite (proj2 (N.eqb_neq cap 0)) by lia. fold g.
  replace (required_region_len cap slot <? required_region_len cap g) with true by (symmetry; apply N.ltb_lt; auto). mrun.
  split; [reflexivity|]. split; [rewrite N.max_id; reflexivity|].
  intros B. destruct (B (cap - 1)) as (_ & B2 & _); cbn [h_cap h_slot h_map] in *; [lia|].
  unfold inside, data_slot_offset, required_region_len in *.
  assert (cap * g = (cap - 1) * g + g) by (replace cap with ((cap - 1) + 1) at 1 by lia; rewrite N.mul_add_distr_r; lia). lia.
Qed.
Print Assumptions C11_grow_then_join_refuted.

(** The creator has made the file but not yet set its length when another process opens the topic with a
    smaller capacity; that one later indexes by the creator's capacity with its own small mapping. *)
Theorem C11_open_race_refuted : forall cap cap' slot, 0 < slot -> cap' < cap ->
  exists file x, let s := m_run [MOpen 0 cap slot; MOpen 1 cap' slot; MSetLen 0; MEnsure 1] in
  m_file s = Some file /\ m_h s 1%nat = Some x /\ ~ in_bounds file x.
Proof.
  intros cap cap' slot Hs Hc.
  eexists _, (MHandle (required_region_len cap' slot) cap slot). cbv zeta. unfold m_run, m_init. mrun.
  split; [reflexivity|]. split; [rewrite N.max_0_r; reflexivity|].
  intros B. destruct (B (cap - 1)) as (_ & B2 & _); cbn [h_cap h_slot h_map] in *; [lia|].
  unfold inside, data_slot_offset, required_region_len, data_region_offset, HEADER_SIZE in *.
  assert (cap' * slot <= cap * slot) by (apply N.mul_le_mono_r; lia).
  assert (cap * slot = (cap - 1) * slot + slot) by (replace cap with ((cap - 1) + 1) at 1 by lia; rewrite N.mul_add_distr_r; lia). lia.
Qed.
Print Assumptions C11_open_race_refuted.

(** Two handles grow one after the other: the second knows nothing of the first growth, asks for less, and
    cuts the file short under the first one's mapping. *)
Theorem C11_second_grow_shrinks_refuted : forall cap slot big small, 0 < cap -> 0 < slot -> grown_slot slot small < grown_slot slot big ->
  exists file x, let s := m_run [MOpen 0 cap slot; MSetLen 0; MOpen 1 cap slot; MEnsure 0; MEnsure 1; MGrow 0 big; MGrow 1 small] in
  m_file s = Some file /\ m_h s 0%nat = Some x /\ file < h_map x /\ ~ in_bounds file x.
Proof.
  intros cap slot big small Hc Hs Hg.
  pose proof (proj1 (proj2 (C11_grow_makes_room slot big))) as G1. pose proof (proj1 (proj2 (C11_grow_makes_room slot small))) as G2.
  set (g := grown_slot slot big) in *. set (f := grown_slot slot small) in *.
  assert (L : forall a b, a < b -> required_region_len cap a < required_region_len cap b).
  { intros a b H. unfold required_region_len. assert (cap * a < cap * b) by (apply N.mul_lt_mono_pos_l; lia). lia. }
  pose proof (L slot g ltac:(lia)) as L1. pose proof (L slot f ltac:(lia)) as L2. pose proof (L f g Hg) as L3.
  exists (required_region_len cap f), (MHandle (required_region_len cap g) cap g). cbv zeta. unfold m_run, m_init. mrun.
  rewrite (proj2 (N.eqb_neq cap 0)) by lia. fold g.
  replace (required_region_len cap slot <? required_region_len cap g) with true by (symmetry; apply N.ltb_lt; auto). mrun.
  rewrite (proj2 (N.eqb_neq cap 0)) by lia. rewrite N.max_id. fold f.
  replace (required_region_len cap slot <? required_region_len cap f) with true by (symmetry; apply N.ltb_lt; auto). mrun.
  split; [reflexivity|]. split; [reflexivity|]. split; auto.
  intros B. destruct (B 0) as (_ & _ & B3); cbn [h_cap h_map] in *; lia.
Qed.
Print Assumptions C11_second_grow_shrinks_refuted.

(** Creator with 1024 slots of 64 bytes; a joiner that asked for 16 slots of 8192 bytes takes over the
    creator's geometry and has enough mapped. *)
Example C11_ex : let s := m_run [MOpen 0 1024 64; MSetLen 0; MOpen 1 16 8192; MEnsure 1] in
  m_file s = Some 131840 /\ m_h s 1%nat = Some (MHandle 131840 1024 64) /\ required_region_len 1024 64 = 74368.
Proof. vm_compute. auto. Qed.
Example C11_ex_ok : orderly [MOpen 0 1024 64; MSetLen 0; MOpen 1 16 8192; MEnsure 1] /\ no_grow [MOpen 0 1024 64; MSetLen 0; MOpen 1 16 8192; MEnsure 1].
Proof. split; [split; auto|]; repeat constructor. Qed.
