(** Arithmetic of the topic layout, and mappings that cover it. *)
From Verif.Base Require Import Prelude.
From Verif.Model Require Import Layout.
From Verif.Spec Require Import LayoutSpec.
Local Open Scope N_scope.

Lemma slot_end cap i st : i < cap -> i * st + st <= cap * st.
Proof. intros H. rewrite <- N.mul_succ_l. apply N.mul_le_mono_r. lia. Qed.

Lemma covered x : required_region_len (h_cap x) (h_slot x) <= h_map x -> forall file, h_map x <= file -> in_bounds file x.
Proof.
  intros H file Hf i Hi. unfold inside, required_region_len, data_slot_offset, data_region_offset, seq_slot_offset, HEADER_SIZE in *.
  pose proof (slot_end _ _ (h_slot x) Hi). pose proof (slot_end _ _ 8 Hi). repeat split; auto; lia.
Qed.

Lemma req_zero cap st st' : required_region_len 0 st' <= required_region_len cap st.
Proof. unfold required_region_len, data_region_offset, HEADER_SIZE. lia. Qed.

(** After an orderly creation and without growth, every mapping covers both what its handle has cached and
    what the header says. *)
Definition minv (s : msys) : Prop :=
  exists file cap slot, m_file s = Some file /\ m_hdr s = Some (cap, slot) /\ required_region_len cap slot <= file /\
  (forall h x, m_h s h = Some x -> required_region_len (h_cap x) (h_slot x) <= h_map x /\ required_region_len cap slot <= h_map x /\ h_map x <= file).
Lemma updh_eq {B} (f : nat -> B) i b : updh f i b i = b.
Proof. unfold updh. rewrite Nat.eqb_refl. auto. Qed.
Lemma minv_step s o : minv s -> (forall h, m_wait s h = None) ->
  (match o with MSetLen _ | MGrow _ _ => False | _ => True end) ->
  minv (m_step s o) /\ (forall h, m_wait (m_step s o) h = None).
Proof.
  intros (file & cap & slot & F & D & R & H) W No. destruct o as [h c sl|h|h|h|h n]; try contradiction; cbn [m_step].
  - rewrite F, D. cbn [m_wait]. split; auto. exists (N.max (required_region_len c sl) file), cap, slot. cbn [m_file m_hdr m_h].
    split; auto. split; auto. split; [lia|]. intros h' x H'. unfold updh in H'. destruct (Nat.eqb_spec h' h).
    + injection H' as <-. cbn [h_cap h_slot h_map]. pose proof (req_zero cap slot slot). lia.
    + apply H in H'. lia.
  - destruct (m_h s h) as [x|] eqn:E; [|split; auto; exists file, cap, slot; auto]. rewrite D. cbn [m_wait]. split; auto.
    exists file, cap, slot. cbn [m_file m_hdr m_h]. split; auto. split; auto. split; auto. intros h' x' H'. unfold updh in H'.
    destruct (Nat.eqb_spec h' h); [|eauto]. injection H' as <-. cbn [h_cap h_slot h_map]. apply H in E. lia.
  - destruct (m_h s h) as [x|] eqn:E; [|split; auto; exists file, cap, slot; auto]. rewrite D. unfold grow_unchecked. cbn [h_map h_cap h_slot].
    pose proof (H _ _ E) as (E1 & E2 & E3).
    destruct (N.ltb_spec (h_map x) (required_region_len cap slot)); [lia|]. cbn [m_wait]. split; auto.
    exists file, cap, slot. cbn [m_file m_hdr m_h]. split; auto. split; auto. split; auto. intros h' x' H'. unfold updh in H'.
    destruct (Nat.eqb_spec h' h); [|eauto]. injection H' as <-. cbn [h_cap h_slot h_map]. lia.
Qed.

Lemma minv_run s ops : minv s -> (forall h, m_wait s h = None) ->
  Forall (fun o => match o with MSetLen _ => False | _ => True end) ops -> no_grow ops -> minv (fold_left m_step ops s).
Proof.
  revert s; induction ops as [|o ops IH]; intros s I W F G; cbn [fold_left]; auto.
  inversion F; subst. inversion G; subst.
  destruct (minv_step s o I W) as (A & B); [destruct o; auto|]. apply IH; auto.
Qed.
Lemma orderly_inv ops : orderly ops -> no_grow ops -> minv (m_run ops).
Proof.
  destruct ops as [|[h c sl| | | |] [|[| h'| | |] ops]]; cbn [orderly]; try contradiction. intros (<- & F) G.
  inversion G as [|? ? _ G']; subst. inversion G' as [|? ? _ G2]; subst.
  unfold m_run. cbn [fold_left]. apply minv_run; auto; cbn [m_step m_init m_file m_wait m_hdr m_h]; rewrite !updh_eq; cbn [m_wait].
  - exists (required_region_len c sl), c, sl. cbn [m_file m_hdr m_h]. split; auto. split; auto. split; [lia|]. intros h' x H. unfold updh in H.
    destruct (Nat.eqb_spec h' h); [|discriminate]. injection H as <-. cbn [h_cap h_slot h_map]. pose proof (req_zero c sl sl). lia.
  - intros k. unfold updh. destruct (Nat.eqb k h); auto.
Qed.

Lemma next_pow2_ge n : 0 < n -> n <= next_power_of_two n.
Proof. intros H. unfold next_power_of_two. destruct (N.eq_dec n 1) as [->|]; [vm_compute; discriminate|]. apply N.log2_up_spec. lia. Qed.
