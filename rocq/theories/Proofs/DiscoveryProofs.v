From Coq Require Import Permutation.
From Verif.Base Require Import Prelude Bytes AMap Str.
From Verif.Model Require Import Wire Registry NetFilter LogEntry Discovery.
From Verif.Spec Require Import WireSpec DiscoverySpec.
From Verif.Proofs Require Import WireProofs.
Local Open Scope N_scope.

(** ** Entries *)
Lemma get_byte v rest : v < 256 -> get_le 0 1 (v :: rest) = v.
Proof. intros. unfold get_le, slice. cbn. lia. Qed.

Lemma encode_topic_length w : length (encode_topic w) = 76%nat.
Proof.
  unfold encode_topic. cbv zeta. set (k := Nat.min (length (wt_name w)) MAX_TOPIC_NAME).
  rewrite !app_length, !le_enc_length, firstn_length, repeat_length. cbn [length].
  assert (k <= 63)%nat by (unfold k, MAX_TOPIC_NAME; lia).
  assert (k <= length (wt_name w))%nat by (unfold k; lia).
  unfold MAX_TOPIC_NAME. lia.
Qed.

Definition wire_wf (w : WireTopic) : Prop :=
  (length (wt_name w) <= 63)%nat /\ utf8 (wt_name w) = true
  /\ u32 (wt_hash w) /\ u32 (wt_size w) /\ u8 (wt_role w) /\ u8 (wt_pod w) /\ u8 (wt_prio w).

Lemma decode_encode_topic w tail :
  wire_wf w -> decode_topic (encode_topic w ++ tail) = Some w.
Proof.
  intros (Hl & Hu & Hh & Hs & Hr & Hp & Hq).
  unfold decode_topic. rewrite app_length, encode_topic_length.
  rewrite ltb_false by lia.
  set (n := length (wt_name w)) in *.
  set (pre := N.of_nat n :: wt_name w ++ repeat 0 (63 - n)).
  assert (Hpre : length pre = 64%nat).
  { unfold pre. cbn [length]. rewrite app_length, repeat_length. fold n. lia. }
  assert (Eenc : encode_topic w = pre ++ le_enc 4 (wt_hash w) ++ le_enc 4 (wt_size w)
     ++ le_enc 1 (wt_role w) ++ le_enc 1 (wt_pod w) ++ le_enc 1 (wt_prio w) ++ [0]).
  { unfold encode_topic, pre. cbv zeta. fold n. unfold MAX_TOPIC_NAME. rewrite Nat.min_l by lia.
    unfold n at 2. rewrite firstn_all. fold n. cbn [app]. rewrite <- !app_assoc. reflexivity. }
  assert (H0 : get_le 0 1 (encode_topic w ++ tail) = N.of_nat n).
  { rewrite Eenc. unfold pre. cbn [app]. apply get_byte. lia. }
  rewrite H0, Nat2N.id. unfold MAX_TOPIC_NAME. rewrite ltb_false by lia.
  assert (H1 : slice 1 n (encode_topic w ++ tail) = wt_name w).
  { rewrite Eenc. unfold pre. cbn [app]. unfold slice. cbn [skipn].
    rewrite <- !app_assoc. unfold n. rewrite firstn_app, Nat.sub_diag, firstn_all. cbn. apply app_nil_r. }
  rewrite H1, Hu. cbn [negb].
  assert (F1 : get_le 64 4 (encode_topic w ++ tail) = wt_hash w).
  { eapply get_field' with (pre := pre); [rewrite Eenc, <- !app_assoc; reflexivity | lia | auto with wire]. }
  assert (F2 : get_le 68 4 (encode_topic w ++ tail) = wt_size w).
  { eapply get_field' with (pre := pre ++ le_enc 4 (wt_hash w));
      [rewrite Eenc, <- !app_assoc; reflexivity | rewrite app_length, le_enc_length; lia | auto with wire]. }
  assert (F3 : get_le 72 1 (encode_topic w ++ tail) = wt_role w).
  { eapply get_field' with (pre := pre ++ le_enc 4 (wt_hash w) ++ le_enc 4 (wt_size w));
      [rewrite Eenc, <- !app_assoc; reflexivity | rewrite !app_length, !le_enc_length; lia | auto with wire]. }
  assert (F4 : get_le 73 1 (encode_topic w ++ tail) = wt_pod w).
  { eapply get_field' with (pre := pre ++ le_enc 4 (wt_hash w) ++ le_enc 4 (wt_size w) ++ le_enc 1 (wt_role w));
      [rewrite Eenc, <- !app_assoc; reflexivity | rewrite !app_length, !le_enc_length; lia | auto with wire]. }
  assert (F5 : get_le 74 1 (encode_topic w ++ tail) = wt_prio w).
  { eapply get_field' with (pre := pre ++ le_enc 4 (wt_hash w) ++ le_enc 4 (wt_size w) ++ le_enc 1 (wt_role w)
        ++ le_enc 1 (wt_pod w));
      [rewrite Eenc, <- !app_assoc; reflexivity | rewrite !app_length, !le_enc_length; lia | auto with wire]. }
  rewrite F1, F2, F3, F4, F5. destruct w; reflexivity.
Qed.

Lemma decode_topics_encode ws tail :
  Forall wire_wf ws -> decode_topics (length ws) (flat_map encode_topic ws ++ tail) = ws.
Proof.
  induction 1 as [|w ws Hw _ IH]; [reflexivity|].
  cbn [length decode_topics flat_map]. rewrite <- app_assoc.
  rewrite app_length, encode_topic_length, ltb_false by lia.
  rewrite decode_encode_topic by auto.
  rewrite skipn_app, encode_topic_length, Nat.sub_diag, skipn_all2 by (rewrite encode_topic_length; lia).
  cbn [app skipn]. f_equal. exact IH.
Qed.

Lemma entry_wire_wf ne : entry_wf ne -> wire_wf (wire_of_entry ne).
Proof.
  intros (A & B & C & D & F). unfold wire_wf, wire_of_entry; cbn. repeat (split; auto).
  - unfold u8. destruct (te_role (snd ne)); cbn; lia.
  - unfold u8. destruct (te_pod (snd ne)); lia.
  - unfold u8. destruct (infer_from_topic (fst ne)); cbn; lia.
Qed.
Lemma entry_conveys ne : conveys ne (wire_of_entry ne).
Proof. unfold conveys, wire_of_entry; cbn. repeat split. Qed.

(** ** Headers *)
Lemma decode_encode_ann_header h tail :
  ah_magic h = MAGIC -> ah_version h = VERSION -> u8 (ah_flags h) ->
  has_flag (ah_flags h) ANNOUNCEMENT_FLAG = true ->
  length (ah_peer h) = 16%nat -> u16 (ah_port h) -> length (ah_secret h) = 4%nat -> u16 (ah_count h) ->
  decode_ann_header (encode_ann_header h ++ tail) = Some h.
Proof.
  intros Hm Hv Hf Hb Hp Hq Hs Hc. unfold decode_ann_header.
  destruct h as [mg ve fl pe po se co]; cbn [ah_magic ah_version ah_flags ah_peer ah_port ah_secret ah_count] in *. subst.
  set (L := encode_ann_header _ ++ tail).
  assert (EL : L = le_enc 4 MAGIC ++ le_enc 1 VERSION ++ le_enc 1 fl ++ pe ++ le_enc 2 po ++ se ++ le_enc 2 co ++ tail).
  { unfold L, encode_ann_header; cbn [ah_magic ah_version ah_flags ah_peer ah_port ah_secret ah_count].
    rewrite <- !app_assoc. reflexivity. }
  assert (HL : (30 <= length L)%nat).
  { rewrite EL, !app_length, !le_enc_length. lia. }
  rewrite ltb_false by lia.
  assert (F0 : get_le 0 4 L = MAGIC).
  { eapply get_field' with (pre := []); [rewrite EL; reflexivity | reflexivity | reflexivity]. }
  assert (F1 : get_le 4 1 L = VERSION).
  { eapply get_field' with (pre := le_enc 4 MAGIC); [rewrite EL; reflexivity | reflexivity | reflexivity]. }
  assert (F2 : get_le 5 1 L = fl).
  { eapply get_field' with (pre := le_enc 4 MAGIC ++ le_enc 1 VERSION);
      [rewrite EL, <- !app_assoc; reflexivity | reflexivity | auto with wire]. }
  set (p6 := le_enc 4 MAGIC ++ le_enc 1 VERSION ++ le_enc 1 fl).
  assert (L6 : length p6 = 6%nat) by (unfold p6; rewrite !app_length, !le_enc_length; reflexivity).
  assert (F3 : slice 6 16 L = pe).
  { rewrite EL. replace (le_enc 4 MAGIC ++ _) with (p6 ++ pe ++ le_enc 2 po ++ se ++ le_enc 2 co ++ tail)
      by (unfold p6; rewrite <- !app_assoc; reflexivity).
    rewrite slice_app_r by lia. rewrite L6. cbn [Nat.sub]. rewrite slice_app_l by lia. apply slice_all; auto. }
  assert (F4 : get_le 22 2 L = po).
  { eapply get_field' with (pre := p6 ++ pe);
      [rewrite EL; unfold p6; rewrite <- !app_assoc; reflexivity | rewrite app_length; lia | auto with wire]. }
  assert (F5 : slice 24 4 L = se).
  { rewrite EL. replace (le_enc 4 MAGIC ++ _) with ((p6 ++ pe ++ le_enc 2 po) ++ se ++ le_enc 2 co ++ tail)
      by (unfold p6; rewrite <- !app_assoc; reflexivity).
    rewrite slice_app_r by (rewrite !app_length, le_enc_length; lia).
    rewrite !app_length, le_enc_length, L6, Hp. cbn [Nat.sub Nat.add].
    rewrite slice_app_l by lia. apply slice_all; auto. }
  assert (F6 : get_le 28 2 L = co).
  { eapply get_field' with (pre := p6 ++ pe ++ le_enc 2 po ++ se);
      [rewrite EL; unfold p6; rewrite <- !app_assoc; reflexivity
      | rewrite !app_length, le_enc_length; lia | auto with wire]. }
  rewrite F0, F1, F2, F3, F4, F5, F6, Hb, !N.eqb_refl. reflexivity.
Qed.

Lemma flat_map_map {A B C} (f : B -> list C) (g : A -> B) l :
  flat_map (fun x => f (g x)) l = flat_map f (map g l).
Proof. induction l; cbn; auto. rewrite IHl; auto. Qed.

Lemma ann_flags_ok (b : bool) :
  u8 (N.lor ANNOUNCEMENT_FLAG (if b then ANNOUNCEMENT_HAS_SECRET else 0))
  /\ has_flag (N.lor ANNOUNCEMENT_FLAG (if b then ANNOUNCEMENT_HAS_SECRET else 0)) ANNOUNCEMENT_FLAG = true
  /\ has_flag (N.lor ANNOUNCEMENT_FLAG (if b then ANNOUNCEMENT_HAS_SECRET else 0)) ANNOUNCEMENT_HAS_SECRET = b.
Proof. destruct b; cbv; auto. Qed.

Lemma encode_ann_header_length h :
  length (ah_peer h) = 16%nat -> length (ah_secret h) = 4%nat -> length (encode_ann_header h) = 30%nat.
Proof. intros Hp Hs. unfold encode_ann_header. rewrite !app_length, !le_enc_length, Hp, Hs. reflexivity. Qed.

Lemma decode_encode_announcement peer port secret reg from :
  identity_wf peer secret port -> Forall entry_wf reg ->
  decode_announcement (encode_announcement peer port secret reg) from
  = Some (mkAnn peer port secret (negb (beqb secret zero_secret)) (map wire_of_entry (firstn 200 reg)) from).
Proof.
  intros (Hp & Hpo & Hs & Hso & Hq) Hreg.
  unfold decode_announcement, encode_announcement. cbv zeta.
  destruct (ann_flags_ok (negb (beqb secret zero_secret))) as (A & B & C).
  set (k := Nat.min (length reg) MAX_TOPICS_PER_ANNOUNCEMENT).
  assert (Hk : (k <= 200)%nat) by (unfold k, MAX_TOPICS_PER_ANNOUNCEMENT; lia).
  assert (Hk' : N.of_nat k mod 2 ^ 16 = N.of_nat k) by (apply N.mod_small; lia).
  rewrite Hk'.
  rewrite decode_encode_ann_header; cbn [ah_magic ah_version ah_flags ah_peer ah_port ah_secret ah_count]; auto;
    [|unfold u16; lia].
  rewrite C. do 2 f_equal.
  rewrite skipn_app, encode_ann_header_length by auto.
  rewrite skipn_all2 by (rewrite encode_ann_header_length by auto; lia).
  cbn [app Nat.sub skipn].
  rewrite flat_map_map, Nat2N.id.
  assert (Ef : firstn k reg = firstn 200 reg).
  { unfold k, MAX_TOPICS_PER_ANNOUNCEMENT. destruct (Nat.le_ge_cases (length reg) 200).
    - rewrite Nat.min_l by lia. rewrite !firstn_all2 by lia. auto.
    - rewrite Nat.min_r by lia. auto. }
  rewrite Ef.
  assert (Elen : k = length (map wire_of_entry (firstn 200 reg))).
  { rewrite map_length, firstn_length. unfold k, MAX_TOPICS_PER_ANNOUNCEMENT. lia. }
  rewrite Elen.
  rewrite <- (app_nil_r (flat_map encode_topic _)).
  apply decode_topics_encode.
  apply Forall_map. apply Forall_forall. intros e He. apply entry_wire_wf.
  rewrite Forall_forall in Hreg. apply Hreg. rewrite <- (firstn_skipn 200 reg). apply in_or_app; auto.
Qed.

Lemma decoded_topics peer port secret reg from ann :
  identity_wf peer secret port -> Forall entry_wf reg ->
  decode_announcement (encode_announcement peer port secret reg) from = Some ann ->
  an_topics ann = map wire_of_entry (firstn 200 reg).
Proof.
  intros Hi Hr H. rewrite decode_encode_announcement in H by auto.
  assert (E : ann = mkAnn peer port secret (negb (beqb secret zero_secret)) (map wire_of_entry (firstn 200 reg)) from)
    by congruence.
  rewrite E. reflexivity.
Qed.

(** Whatever arrives, what is decoded fits in the datagram and every topic name is legal. *)
Lemma decode_topic_legal buf w :
  decode_topic buf = Some w -> (length (wt_name w) <= 63)%nat /\ utf8 (wt_name w) = true.
Proof.
  unfold decode_topic. cbv zeta. intros H. repeat case_match_in H; try discriminate.
  inv H. cbn [wt_name]. bool_prop. split; auto.
  unfold slice. rewrite firstn_length. unfold MAX_TOPIC_NAME in *. lia.
Qed.
Lemma decode_topics_legal c : forall rest,
  (length (decode_topics c rest) <= c)%nat /\ (76 * length (decode_topics c rest) <= length rest)%nat
  /\ Forall (fun w => (length (wt_name w) <= 63)%nat /\ utf8 (wt_name w) = true) (decode_topics c rest).
Proof.
  induction c as [|c IH]; intros rest; cbn [decode_topics]; [cbn; repeat split; auto; lia|].
  destruct (length rest <? 76)%nat eqn:E1; [cbn; repeat split; auto; lia|].
  apply Nat.ltb_ge in E1.
  destruct (IH (skipn 76 rest)) as (A & B & C). rewrite skipn_length in B.
  destruct (decode_topic rest) eqn:E2.
  - cbn [length]. repeat split; try lia. constructor; auto. eapply decode_topic_legal; eauto.
  - repeat split; auto; lia.
Qed.

(** ** Matching *)
Lemma In_match_one m l w : In m (match_one l w) <->
  fst l = wt_name w /\ te_type_hash (snd l) = wt_hash w
  /\ m = mkMatch (fst l) (role_pub (te_role (snd l)) && wire_sub (wt_role w))
                 (role_sub (te_role (snd l)) && wire_pub (wt_role w)) (te_type_hash (snd l)) (te_pod (snd l))
  /\ (role_pub (te_role (snd l)) && wire_sub (wt_role w)) || (role_sub (te_role (snd l)) && wire_pub (wt_role w)) = true.
Proof.
  unfold match_one. destruct (beqb (fst l) (wt_name w)) eqn:E1; cbn [negb].
  - apply beqb_spec in E1. destruct (te_type_hash (snd l) =? wt_hash w) eqn:E2; cbn [negb].
    + apply N.eqb_eq in E2. cbv zeta. destruct (_ || _) eqn:E3.
      * cbn. split; [intros [<-|[]]; auto | intros (_ & _ & -> & _); auto].
      * cbn. split; [tauto|]. intros (_ & _ & _ & H); discriminate.
    + apply N.eqb_neq in E2. cbn. tauto.
  - split; [intros []|]. intros (H & _). apply beqb_spec in H. congruence.
Qed.
Lemma In_find_matches m reg remote : In m (find_matches reg remote) <->
  exists l w, In l reg /\ In w remote /\ In m (match_one l w).
Proof.
  unfold find_matches. rewrite in_flat_map. split.
  - intros (l & A & B). apply in_flat_map in B. destruct B as (w & B & C). eauto.
  - intros (l & w & A & B & C). exists l. split; auto. apply in_flat_map; eauto.
Qed.
Lemma will_export_iff reg remote t : will_export (find_matches reg remote) t <->
  exists e w, In (t, e) reg /\ In w remote /\ wt_name w = t /\ wt_hash w = te_type_hash e
    /\ role_pub (te_role e) = true /\ wire_sub (wt_role w) = true.
Proof.
  unfold will_export. split.
  - intros (m & Hm & Ht & Hx). apply In_find_matches in Hm. destruct Hm as ([n e] & w & A & B & C).
    apply In_match_one in C. cbn [fst snd] in C. destruct C as (C1 & C2 & -> & C3).
    cbn [ma_topic ma_export] in *. subst n. bool_prop. exists e, w. repeat split; auto; congruence.
  - intros (e & w & A & B & C & D & F & G).
    exists (mkMatch t (role_pub (te_role e) && wire_sub (wt_role w)) (role_sub (te_role e) && wire_pub (wt_role w))
              (te_type_hash e) (te_pod e)).
    cbn [ma_topic ma_export]. rewrite F, G. repeat split; auto.
    apply In_find_matches. exists (t, e), w. repeat split; auto. apply In_match_one. cbn [fst snd].
    rewrite F, G. repeat split; auto.
Qed.
Lemma will_import_iff reg remote t : will_import (find_matches reg remote) t <->
  exists e w, In (t, e) reg /\ In w remote /\ wt_name w = t /\ wt_hash w = te_type_hash e
    /\ role_sub (te_role e) = true /\ wire_pub (wt_role w) = true.
Proof.
  unfold will_import. split.
  - intros (m & Hm & Ht & Hx). apply In_find_matches in Hm. destruct Hm as ([n e] & w & A & B & C).
    apply In_match_one in C. cbn [fst snd] in C. destruct C as (C1 & C2 & -> & C3).
    cbn [ma_topic ma_import] in *. subst n. bool_prop. exists e, w. repeat split; auto; congruence.
  - intros (e & w & A & B & C & D & F & G).
    exists (mkMatch t (role_pub (te_role e) && wire_sub (wt_role w)) (role_sub (te_role e) && wire_pub (wt_role w))
              (te_type_hash e) (te_pod e)).
    cbn [ma_topic ma_import]. rewrite F, G. repeat split; auto.
    apply In_find_matches. exists (t, e), w. repeat split; auto. apply In_match_one. cbn [fst snd].
    rewrite F, G, orb_true_r. repeat split; auto.
Qed.
Lemma role_pub_iff r : role_pub r = true <-> r <> Subscriber.
Proof. destruct r; cbn; split; congruence. Qed.
Lemma role_sub_iff r : role_sub r = true <-> r <> Publisher.
Proof. destruct r; cbn; split; congruence. Qed.
Lemma wire_pub_iff v : wire_pub v = true <-> v = 1 \/ v = 3.
Proof. unfold wire_pub. rewrite orb_true_iff, !N.eqb_eq. tauto. Qed.
Lemma wire_sub_iff v : wire_sub v = true <-> v = 2 \/ v = 3.
Proof. unfold wire_sub. rewrite orb_true_iff, !N.eqb_eq. tauto. Qed.
Lemma wire_sub_role ne : wire_sub (wt_role (wire_of_entry ne)) = role_sub (te_role (snd ne)).
Proof. cbn. destruct (te_role (snd ne)); reflexivity. Qed.
Lemma wire_pub_role ne : wire_pub (wt_role (wire_of_entry ne)) = role_pub (te_role (snd ne)).
Proof. cbn. destruct (te_role (snd ne)); reflexivity. Qed.

Lemma export_declared ra rb t :
  will_export (find_matches ra (map wire_of_entry rb)) t <-> exists h, publishes ra t h /\ subscribes rb t h.
Proof.
  rewrite will_export_iff. split.
  - intros (e & w & A & B & C & D & F & G). apply in_map_iff in B. destruct B as ([n e'] & <- & B).
    rewrite wire_sub_role in G. cbn [fst snd wt_name wt_hash wire_of_entry] in *. subst n.
    exists (te_type_hash e). split; [exists e | exists e']; repeat split; auto;
      [apply role_pub_iff | apply role_sub_iff]; auto.
  - intros (h & (e & A & B & C) & (e' & A' & B' & C')).
    exists e, (wire_of_entry (t, e')). rewrite wire_sub_role. cbn [fst snd wt_name wt_hash wire_of_entry].
    repeat split; auto; try congruence; [apply in_map; auto | apply role_pub_iff; auto | apply role_sub_iff; auto].
Qed.
Lemma import_declared ra rb t :
  will_import (find_matches ra (map wire_of_entry rb)) t <-> exists h, subscribes ra t h /\ publishes rb t h.
Proof.
  rewrite will_import_iff. split.
  - intros (e & w & A & B & C & D & F & G). apply in_map_iff in B. destruct B as ([n e'] & <- & B).
    rewrite wire_pub_role in G. cbn [fst snd wt_name wt_hash wire_of_entry] in *. subst n.
    exists (te_type_hash e). split; [exists e | exists e']; repeat split; auto;
      [apply role_sub_iff | apply role_pub_iff]; auto.
  - intros (h & (e & A & B & C) & (e' & A' & B' & C')).
    exists e, (wire_of_entry (t, e')). rewrite wire_pub_role. cbn [fst snd wt_name wt_hash wire_of_entry].
    repeat split; auto; try congruence; [apply in_map; auto | apply role_sub_iff; auto | apply role_pub_iff; auto].
Qed.

(** ** The peer table *)
Definition pinv (s : Peers) : Prop :=
  NoDup (keys s) /\ (length s <= 256)%nat /\ forall id p, In (id, p) s -> pi_alive p = true.

Lemma oldest_dead_alive s : (forall id p, In (id, p) s -> pi_alive p = true) -> oldest_dead s = None.
Proof.
  induction s as [|[id p] r IH]; cbn [oldest_dead]; auto. intros H.
  rewrite (H id p) by (left; auto). apply IH. intros; eapply H; right; eauto.
Qed.
Lemma update_peer_inv now a s : pinv s -> pinv (update_peer now a s).
Proof.
  intros (A & B & C). unfold update_peer.
  destruct (lookup beqb (an_peer a) s) eqn:El.
  - split; [apply NoDup_insert_keys; [apply beqb_spec|auto]|]. split.
    + erewrite insert_length_present; eauto. apply beqb_spec.
    + intros id q H. apply In_insert in H; [|apply beqb_spec]. destruct H as [H|[H _]]; [inv H; auto|eauto].
  - destruct (MAX_PEERS <=? length s)%nat eqn:Em.
    + rewrite oldest_dead_alive by auto. repeat split; auto.
    + apply Nat.leb_gt in Em. unfold MAX_PEERS in Em.
      split; [apply NoDup_insert_keys; [apply beqb_spec|auto]|]. split.
      * pose proof (insert_length_le beqb (an_peer a) (peer_of now a) s). lia.
      * intros id p H. apply In_insert in H; [|apply beqb_spec]. destruct H as [H|[H _]]; [inv H; auto|eauto].
Qed.
Lemma liveness_step timeout now s : pinv s ->
  fst (pstep timeout now PLiveness s) = filter (fun kp => negb (timeout <? now - pi_seen (snd kp))) s
  /\ snd (pstep timeout now PLiveness s) = map fst (filter (fun kp => timeout <? now - pi_seen (snd kp)) s).
Proof.
  intros (A & B & C). cbn [pstep]. unfold check_liveness.
  assert (Es : filter (fun kp => stale timeout now (snd kp)) s = filter (fun kp => timeout <? now - pi_seen (snd kp)) s).
  { apply filter_ext_in. intros [id p] Hin. unfold stale. cbn [snd]. rewrite (C _ _ Hin). reflexivity. }
  rewrite Es. cbn [fst snd]. split; auto.
  set (s1 := map _ s).
  assert (Er : remove_dead_peers s1 = filter (fun kp => negb (timeout <? now - pi_seen (snd kp))) s).
  { unfold s1, remove_dead_peers. clear Es s1 A B. revert C. induction s as [|[id p] r IH]; intros C; cbn [map filter]; auto.
    cbn [fst snd]. unfold stale. rewrite (C id p) by (left; auto). cbn [andb].
    destruct (timeout <? now - pi_seen p) eqn:Et; cbn [negb kill pi_alive].
    - apply IH. intros; eapply C; right; eauto.
    - rewrite (C id p) by (left; auto). f_equal. apply IH. intros; eapply C; right; eauto. }
  destruct (map fst _) eqn:Em; auto.
  apply map_eq_nil in Em. rewrite <- Er.
  unfold s1, remove_dead_peers. clear Es Er s1 A B. revert C Em.
  induction s as [|[id p] r IH]; intros C Em; cbn [map filter fst snd] in *; auto.
  unfold stale. rewrite (C id p) by (left; auto). cbn [andb].
  destruct (timeout <? now - pi_seen p); [discriminate|]. rewrite (C id p) by (left; auto).
  f_equal. apply IH; auto. intros; eapply C; right; eauto.
Qed.
Lemma NoDup_keys_filter {V} (f : bytes * V -> bool) (s : list (bytes * V)) :
  NoDup (keys s) -> NoDup (keys (filter f s)).
Proof.
  unfold keys. induction s as [|[a b] r IH]; cbn; auto. intros H; inv H.
  destruct (f (a, b)); cbn; auto. constructor; auto.
  intros Hin. apply H2. apply in_map_iff in Hin. destruct Hin as ([x y] & <- & Hin).
  apply filter_In in Hin. apply in_map_iff. exists (x, y). tauto.
Qed.
Lemma filter_len {A} (f : A -> bool) l : (length (filter f l) <= length l)%nat.
Proof. induction l; cbn; auto. destruct (f a); cbn; lia. Qed.
Lemma pstep_inv timeout now e s : pinv s -> pinv (fst (pstep timeout now e s)).
Proof.
  intros H. destruct e; [apply update_peer_inv; auto|].
  rewrite (proj1 (liveness_step timeout now s H)). destruct H as (A & B & C). split; [|split].
  - apply NoDup_keys_filter; auto.
  - pose proof (filter_len (fun kp => negb (timeout <? now - pi_seen (snd kp))) s). lia.
  - intros id p Hin. apply filter_In in Hin. eapply C, Hin.
Qed.
Lemma prun_app timeout h1 : forall s h2,
  fst (prun timeout s (h1 ++ h2)) = fst (prun timeout (fst (prun timeout s h1)) h2).
Proof.
  induction h1 as [|[t e] r IH]; intros s h2; auto. cbn [app prun].
  destruct (pstep timeout t e s) as [s1 o] eqn:Es.
  specialize (IH s1 h2). destruct (prun timeout s1 (r ++ h2)) eqn:E1, (prun timeout s1 r) eqn:E2. cbn [fst] in *. auto.
Qed.
Lemma prun_inv timeout h : forall s, pinv s -> pinv (fst (prun timeout s h)).
Proof.
  induction h as [|[t e] r IH]; intros s Hs; auto. cbn [prun].
  destruct (pstep timeout t e s) as [s1 o] eqn:Es.
  assert (H1 : pinv s1) by (pose proof (pstep_inv timeout t e s Hs); rewrite Es in *; auto).
  specialize (IH s1 H1). destruct (prun timeout s1 r); auto.
Qed.
Lemma pinv_nil : pinv [].
Proof. split; [constructor|]. split; cbn; [lia|tauto]. Qed.

Lemma keys_lookup_filter (f : PeerInfo -> bool) s p : NoDup (keys s) ->
  lookup beqb p (filter (fun kp => f (snd kp)) s)
  = match lookup beqb p s with Some i => if f i then Some i else None | None => None end.
Proof.
  induction s as [|[a b] r IH]; cbn [filter lookup keys map fst snd]; auto.
  intros H; inv H. destruct (beqb p a) eqn:Ep.
  - apply beqb_spec in Ep. subst a. destruct (f b); cbn [lookup].
    + rewrite (proj2 (beqb_spec p p)); auto.
    + apply lookup_None_keys; [apply beqb_spec|]. intros Hin. apply H2.
      unfold keys in *. apply in_map_iff in Hin. destruct Hin as ([x y] & <- & Hin).
      apply filter_In in Hin. apply in_map_iff. exists (x, y). tauto.
  - destruct (f b); cbn [lookup]; [rewrite Ep|]; apply IH; auto.
Qed.

(** One step of the history, seen from peer [p]. *)
Definition ids_in (s : Peers) (ids : list bytes) : Prop := forall p, In p (keys s) -> In p ids.
Lemma table_room s ids p : NoDup (keys s) -> ids_in s ids -> (length ids <= 256)%nat ->
  In p ids -> lookup beqb p s = None -> (length s < 256)%nat.
Proof.
  intros Hnd Hin Hl Hp Hn.
  assert (H : (length (p :: keys s) <= length ids)%nat).
  { apply NoDup_incl_length.
    - constructor; auto. apply (proj1 (lookup_None_keys beqb beqb_spec p s)); auto.
    - intros x [<-|Hx]; auto. }
  cbn [length] in H. unfold keys in H. rewrite map_length in H. lia.
Qed.
Lemma update_lookup_same now a s : (lookup beqb (an_peer a) s <> None \/ (length s < 256)%nat) ->
  update_peer now a s = insert beqb (an_peer a) (peer_of now a) s.
Proof.
  intros H. unfold update_peer. destruct (lookup beqb (an_peer a) s); auto.
  destruct H as [H|H]; [congruence|]. unfold MAX_PEERS.
  destruct (256 <=? length s)%nat eqn:E; auto. apply Nat.leb_le in E. lia.
Qed.
Lemma update_lookup_other now a s p : pinv s -> p <> an_peer a ->
  lookup beqb p (update_peer now a s) = lookup beqb p s.
Proof.
  intros (A & B & C) Hp. unfold update_peer.
  destruct (lookup beqb (an_peer a) s); [apply lookup_insert_neq; auto; apply beqb_spec|].
  destruct (_ <=? _)%nat; [rewrite oldest_dead_alive by auto; auto | apply lookup_insert_neq; auto; apply beqb_spec].
Qed.

Lemma snoc_cases {A} (h1 h2 : list A) x y l :
  l ++ [y] = h1 ++ x :: h2 -> (h2 = [] /\ l = h1 /\ y = x) \/ (exists h2', h2 = h2' ++ [y] /\ l = h1 ++ x :: h2').
Proof.
  intros H. destruct (@exists_last _ (x :: h2)) as (q & z & Eq); [discriminate|].
  destruct h2 as [|b h2'].
  - apply app_inj_tail in H. tauto.
  - right. destruct (@exists_last _ (b :: h2')) as (q' & z' & Eq'); [discriminate|].
    rewrite Eq' in *. rewrite app_comm_cons, app_assoc in H. apply app_inj_tail in H.
    destruct H as (-> & ->). exists q'. auto.
Qed.

Lemma current_snoc_announce timeout p t a h t' a' :
  current timeout p t a (h ++ [(t', PAnnounce a')])
  <-> (an_peer a' = p /\ t = t' /\ a = a') \/ (an_peer a' <> p /\ current timeout p t a h).
Proof.
  split.
  - intros (h1 & h2 & Eh & Hp & Hn & Hl). apply snoc_cases in Eh. destruct Eh as [(-> & -> & Eq)|(h2' & -> & ->)].
    + inv Eq. left; auto.
    + right. split; [apply (Hn t'); apply in_or_app; right; left; auto|].
      exists h1, h2'. repeat split; auto.
      * intros; eapply Hn; apply in_or_app; eauto.
      * intros; eapply Hl; apply in_or_app; eauto.
  - intros [(Hp & -> & ->)|(Hp & h1 & h2 & -> & Hq & Hn & Hl)].
    + exists h, []. repeat split; auto; cbn; tauto.
    + exists h1, (h2 ++ [(t', PAnnounce a')]). rewrite <- app_assoc. repeat split; auto.
      * intros t2 a2 Hin. apply in_app_or in Hin. destruct Hin as [Hin|[Hin|[]]]; [eauto|inv Hin; auto].
      * intros t2 Hin. apply in_app_or in Hin. destruct Hin as [Hin|[Hin|[]]]; [eauto|inv Hin].
Qed.
Lemma current_snoc_liveness timeout p t a h t' :
  current timeout p t a (h ++ [(t', PLiveness)]) <-> current timeout p t a h /\ t' - t <= timeout.
Proof.
  split.
  - intros (h1 & h2 & Eh & Hp & Hn & Hl). apply snoc_cases in Eh. destruct Eh as [(-> & -> & Eq)|(h2' & -> & ->)].
    + inv Eq.
    + split; [|apply Hl; apply in_or_app; right; left; auto].
      exists h1, h2'. repeat split; auto.
      * intros; eapply Hn; apply in_or_app; eauto.
      * intros; eapply Hl; apply in_or_app; eauto.
  - intros ((h1 & h2 & -> & Hq & Hn & Hl) & Ht).
    exists h1, (h2 ++ [(t', PLiveness)]). rewrite <- app_assoc. repeat split; auto.
    + intros t2 a2 Hin. apply in_app_or in Hin. destruct Hin as [Hin|[Hin|[]]]; [eauto|inv Hin].
    + intros t2 Hin. apply in_app_or in Hin. destruct Hin as [Hin|[Hin|[]]]; [eauto|inv Hin; auto].
Qed.

Lemma prun_one timeout s t e : fst (prun timeout s [(t, e)]) = fst (pstep timeout t e s).
Proof. cbn [prun]. destruct (pstep timeout t e s); auto. Qed.

Lemma keys_insert_in (k : bytes) (v : PeerInfo) s p : In p (keys (insert beqb k v s)) -> p = k \/ In p (keys s).
Proof. unfold insert, keys; cbn. intros [|H]; auto. right. apply (keys_remove_In beqb beqb_spec p k s) in H. tauto. Qed.

Lemma listed_iff timeout h : few_peers h ->
  forall p i, lookup beqb p (fst (prun timeout [] h)) = Some i
              <-> exists t a, current timeout p t a h /\ i = peer_of t a.
Proof.
  intros (ids & Hids & Hall).
  assert (G : ids_in (fst (prun timeout [] h)) ids
    /\ forall p i, lookup beqb p (fst (prun timeout [] h)) = Some i
              <-> exists t a, current timeout p t a h /\ i = peer_of t a).
  { revert Hall. induction h as [|[t e] h IH] using rev_ind; intros Hall.
    - cbn. split; [intros p []|]. intros p i. split; [discriminate|].
      intros (t & a & (h1 & h2 & Eh & _) & _). destruct h1; discriminate.
    - destruct IH as (IH1 & IH2). { intros; eapply Hall; apply in_or_app; eauto. }
      rewrite prun_app, prun_one.
      pose proof (prun_inv timeout h [] pinv_nil) as Hinv.
      set (s := fst (prun timeout [] h)) in *. destruct e as [a|].
      + assert (Hin : In (an_peer a) ids) by (eapply Hall; apply in_or_app; right; left; eauto).
        assert (Eu : fst (pstep timeout t (PAnnounce a) s) = insert beqb (an_peer a) (peer_of t a) s).
        { cbn [pstep fst]. apply update_lookup_same.
          destruct (lookup beqb (an_peer a) s) eqn:El; [left; congruence|right].
          eapply table_room; eauto. apply Hinv. }
        rewrite Eu. split.
        * intros p Hp. apply keys_insert_in in Hp. destruct Hp as [->|Hp]; auto.
        * intros p i. destruct (beqb p (an_peer a)) eqn:Ep.
          -- apply beqb_spec in Ep. subst p. rewrite lookup_insert_eq by apply beqb_spec. split.
             ++ intros H. injection H as <-. exists t, a. split; auto. apply current_snoc_announce. auto.
             ++ intros (t' & a' & Hc & ->). apply current_snoc_announce in Hc.
                destruct Hc as [(_ & -> & ->)|(Hc & _)]; auto. congruence.
          -- assert (p <> an_peer a) by (intros ->; rewrite (proj2 (beqb_spec _ _)) in Ep; auto; discriminate).
             rewrite lookup_insert_neq by (auto; apply beqb_spec). rewrite IH2. split.
             ++ intros (t' & a' & Hc & ->). exists t', a'. split; auto. apply current_snoc_announce. right; auto.
             ++ intros (t' & a' & Hc & ->). exists t', a'. split; auto. apply current_snoc_announce in Hc.
                destruct Hc as [(Hc & _)|(_ & Hc)]; auto. congruence.
      + rewrite (proj1 (liveness_step timeout t s Hinv)). split.
        * intros p Hp. apply IH1. unfold keys in *. apply in_map_iff in Hp. destruct Hp as (x & <- & Hp).
          apply filter_In in Hp. apply in_map; tauto.
        * intros p i.
          rewrite (keys_lookup_filter (fun i => negb (timeout <? t - pi_seen i)) s p (proj1 Hinv)).
          destruct (lookup beqb p s) as [j|] eqn:El.
          -- apply IH2 in El. destruct El as (t0 & a0 & Hc & ->). cbn [peer_of pi_seen].
             destruct (timeout <? t - t0) eqn:Et; cbn [negb].
             ++ apply N.ltb_lt in Et. split; [discriminate|].
                intros (t1 & a1 & Hc1 & ->). apply current_snoc_liveness in Hc1. destruct Hc1 as (Hc1 & Hle).
                assert (Es : Some (peer_of t1 a1) = Some (peer_of t0 a0)).
                { rewrite <- (proj2 (IH2 p (peer_of t1 a1))) by eauto.
                  rewrite <- (proj2 (IH2 p (peer_of t0 a0))) by eauto. reflexivity. }
                injection Es as _ _ _ Es _. exfalso; lia.
             ++ apply N.ltb_ge in Et. split.
                ** intros Ei. injection Ei as <-. exists t0, a0. split; auto. apply current_snoc_liveness; auto.
                ** intros (t1 & a1 & Hc1 & ->). apply current_snoc_liveness in Hc1. destruct Hc1 as (Hc1 & Hle).
                   rewrite <- (proj2 (IH2 p (peer_of t1 a1))) by eauto.
                   rewrite <- (proj2 (IH2 p (peer_of t0 a0))) by eauto. reflexivity.
          -- split; [discriminate|]. intros (t1 & a1 & Hc1 & ->). apply current_snoc_liveness in Hc1.
             rewrite (proj2 (IH2 p (peer_of t1 a1))) in El by (exists t1, a1; tauto). discriminate. }
  apply G.
Qed.

Lemma prun_out_app timeout h1 : forall s h2,
  snd (prun timeout s (h1 ++ h2)) = snd (prun timeout s h1) ++ snd (prun timeout (fst (prun timeout s h1)) h2).
Proof.
  induction h1 as [|[t e] r IH]; intros s h2; auto. cbn [app prun].
  destruct (pstep timeout t e s) as [s1 o] eqn:Es.
  specialize (IH s1 h2). destruct (prun timeout s1 (r ++ h2)) eqn:E1, (prun timeout s1 r) eqn:E2. cbn [fst snd app] in *.
  f_equal. auto.
Qed.
Lemma prun_out_length timeout h : forall s, length (snd (prun timeout s h)) = length h.
Proof.
  induction h as [|[t e] r IH]; intros s; auto. cbn [prun].
  destruct (pstep timeout t e s) as [s1 o]. specialize (IH s1). destruct (prun timeout s1 r). cbn [snd length] in *. auto.
Qed.
Lemma few_peers_app h1 h2 : few_peers (h1 ++ h2) -> few_peers h1.
Proof. intros (ids & A & B). exists ids. split; auto. intros; eapply B; apply in_or_app; eauto. Qed.
Lemma reported_iff timeout h1 t' h2 : few_peers (h1 ++ (t', PLiveness) :: h2) ->
  exists lost, nth_error (snd (prun timeout [] (h1 ++ (t', PLiveness) :: h2))) (length h1) = Some lost
    /\ NoDup lost
    /\ forall p, In p lost <-> exists t a, current timeout p t a h1 /\ timeout < t' - t.
Proof.
  intros Hf. rewrite prun_out_app.
  rewrite nth_error_app2 by (rewrite prun_out_length; lia). rewrite prun_out_length, Nat.sub_diag.
  pose proof (prun_inv timeout h1 [] pinv_nil) as Hinv.
  pose proof (listed_iff timeout h1 (few_peers_app _ _ Hf)) as Hl.
  set (s := fst (prun timeout [] h1)) in *. cbn [prun].
  destruct (liveness_step timeout t' s Hinv) as (_ & Ho).
  destruct (pstep timeout t' PLiveness s) as [s1 o] eqn:Es. cbn [snd] in Ho.
  exists o. split; [destruct (prun timeout s1 h2); reflexivity|]. subst o. split.
  - apply (NoDup_keys_filter _ s (proj1 Hinv)).
  - intros p. rewrite in_map_iff. split.
    + intros ([q i] & <- & Hin). apply filter_In in Hin. cbn [fst snd] in *. destruct Hin as (Hin & Ht).
      apply N.ltb_lt in Ht. apply (In_lookup beqb beqb_spec _ _ _ (proj1 Hinv)) in Hin.
      apply Hl in Hin. destruct Hin as (t & a & Hc & ->). exists t, a. auto.
    + intros (t & a & Hc & Ht). assert (Hp : lookup beqb p s = Some (peer_of t a)) by (apply Hl; eauto).
      apply (lookup_In beqb beqb_spec) in Hp. exists (p, peer_of t a). split; auto. apply filter_In. split; auto.
      cbn [snd peer_of pi_seen]. apply N.ltb_lt; auto.
Qed.

(** A listed peer stays listed whatever the others do. *)
Lemma listed_stays timeout h : forall s p i, pinv s -> lookup beqb p s = Some i ->
  (forall t a, In (t, PAnnounce a) h -> an_peer a <> p) ->
  (forall t, In (t, PLiveness) h -> t - pi_seen i <= timeout) ->
  lookup beqb p (fst (prun timeout s h)) = Some i.
Proof.
  induction h as [|[t e] r IH]; intros s p i Hs Hl Ha Hv; auto. cbn [prun].
  destruct (pstep timeout t e s) as [s1 o] eqn:Es.
  assert (H1 : pinv s1) by (pose proof (pstep_inv timeout t e s Hs); rewrite Es in *; auto).
  assert (H2 : lookup beqb p s1 = Some i).
  { destruct e as [a|].
    - cbn [pstep] in Es. injection Es as <- <-. rewrite update_lookup_other; auto.
      intros ->. eapply Ha; [left; eauto|auto].
    - pose proof (proj1 (liveness_step timeout t s Hs)) as El. rewrite Es in El. cbn [fst] in El. subst s1.
      rewrite (keys_lookup_filter (fun i => negb (timeout <? t - pi_seen i)) s p (proj1 Hs)), Hl.
      assert (t - pi_seen i <= timeout) by (apply Hv; left; auto).
      rewrite (proj2 (N.ltb_ge _ _)) by auto. reflexivity. }
  specialize (IH s1 p i H1 H2). destruct (prun timeout s1 r). apply IH; intros; [eapply Ha|eapply Hv]; right; eauto.
Qed.

(** A flood of made-up identities. *)
Definition forged (id : bytes) : Announcement := mkAnn id 9100 zero_secret false [] (V4 0, 9100).
Definition flood (ids : list bytes) : list (N * pev) := map (fun id => (0, PAnnounce (forged id))) ids.
Lemma flood_fills timeout ids : forall s, pinv s -> NoDup ids -> (forall x, In x ids -> ~ In x (keys s)) ->
  (length s + length ids <= 256)%nat ->
  length (fst (prun timeout s (flood ids))) = (length s + length ids)%nat
  /\ forall x, In x (keys (fst (prun timeout s (flood ids)))) -> In x ids \/ In x (keys s).
Proof.
  induction ids as [|id r IH]; intros s Hs Hnd Hnew Hl; cbn [flood map prun].
  - cbn [length fst]. split; [lia|auto].
  - cbn [pstep]. inv Hnd. cbn [length] in Hl.
    assert (Hn : lookup beqb id s = None).
    { apply (lookup_None_keys beqb beqb_spec). apply Hnew; left; auto. }
    assert (Eu : update_peer 0 (forged id) s = insert beqb id (peer_of 0 (forged id)) s).
    { apply update_lookup_same. right. lia. }
    assert (Hi : pinv (update_peer 0 (forged id) s)) by (apply update_peer_inv; auto).
    rewrite Eu in *. fold (flood r).
    assert (Hlen : length (insert beqb id (peer_of 0 (forged id)) s) = S (length s)).
    { apply insert_length_absent; auto. }
    destruct (IH (insert beqb id (peer_of 0 (forged id)) s)) as (A & B); auto.
    + intros x Hx Hk. apply keys_insert_in in Hk. destruct Hk as [->|Hk]; auto. eapply Hnew; [right|]; eauto.
    + lia.
    + destruct (prun timeout _ (flood r)). cbn [fst] in *. split; [cbn [length]; lia|].
      intros x Hx. destruct (B x Hx) as [|Hk]; [left; right; auto|].
      apply keys_insert_in in Hk. destruct Hk as [->|Hk]; [left; left; auto|auto].
Qed.
Definition id_of (i : nat) : bytes := N.of_nat i / 256 :: N.of_nat i mod 256 :: repeat 0 14.
Lemma id_of_inj i j : id_of i = id_of j -> i = j.
Proof.
  intros H. unfold id_of in H. injection H as H1 H2.
  apply Nat2N.inj. rewrite (N.div_mod (N.of_nat i) 256), (N.div_mod (N.of_nat j) 256) by lia. lia.
Qed.
Lemma NoDup_map_inj {A B} (f : A -> B) l : (forall x y, f x = f y -> x = y) -> NoDup l -> NoDup (map f l).
Proof.
  intros Hf. induction 1 as [|x l Hx _ IH]; cbn; constructor; auto.
  intros Hin. apply in_map_iff in Hin. destruct Hin as (y & E & Hy). apply Hf in E. subst. auto.
Qed.
Lemma filter_drop_one x (l : list bytes) : NoDup l ->
  (length l <= S (length (filter (fun y => negb (beqb y x)) l)))%nat.
Proof.
  induction 1 as [|y l Hy Hnd IH]; cbn [filter length]; auto.
  destruct (beqb y x) eqn:E; cbn [negb length]; [|lia].
  apply beqb_spec in E. subst y.
  assert (Ef : filter (fun y => negb (beqb y x)) l = l).
  { clear IH Hnd. induction l as [|z l IHl]; cbn; auto.
    rewrite (eqb_neq' beqb beqb_spec) by (intros ->; apply Hy; left; auto). cbn. f_equal. apply IHl. intros ?; apply Hy; right; auto. }
  rewrite Ef. lia.
Qed.
Definition other_ids (x : bytes) : list bytes :=
  firstn 256 (filter (fun y => negb (beqb y x)) (map id_of (seq 0 257))).
Lemma firstn_NoDup {A} n (l : list A) : NoDup l -> NoDup (firstn n l).
Proof. revert n; induction l; intros [|n] H; cbn; try constructor; inv H; auto.
  intros Hin. apply H2. rewrite <- (firstn_skipn n l). apply in_or_app; auto. Qed.
Lemma other_ids_spec x : NoDup (other_ids x) /\ ~ In x (other_ids x) /\ length (other_ids x) = 256%nat.
Proof.
  assert (Hnd : NoDup (map id_of (seq 0 257))) by (apply NoDup_map_inj; [apply id_of_inj | apply seq_NoDup]).
  unfold other_ids. split; [apply firstn_NoDup, NoDup_filter; auto|]. split.
  - intros Hin. assert (Hin' : In x (filter (fun y => negb (beqb y x)) (map id_of (seq 0 257)))).
    { rewrite <- (firstn_skipn 256 (filter _ _)). apply in_or_app; auto. }
    apply filter_In in Hin'. destruct Hin' as (_ & H). rewrite (proj2 (beqb_spec x x)) in H; auto. discriminate.
  - rewrite firstn_length. pose proof (filter_drop_one x _ Hnd) as H. rewrite map_length, seq_length in H. lia.
Qed.
Lemma flood_shuts_out timeout t a :
  lookup beqb (an_peer a) (fst (prun timeout [] (flood (other_ids (an_peer a)) ++ [(t, PAnnounce a)]))) = None.
Proof.
  destruct (other_ids_spec (an_peer a)) as (A & B & C).
  rewrite prun_app, prun_one. set (ids := other_ids (an_peer a)) in *.
  destruct (flood_fills timeout ids [] pinv_nil) as (D & F); auto; [cbn [length]; lia|].
  pose proof (prun_inv timeout (flood ids) [] pinv_nil) as (G1 & G2 & G3).
  set (s := fst (prun timeout [] (flood ids))) in *. cbn [pstep fst].
  assert (Hn : lookup beqb (an_peer a) s = None).
  { apply (lookup_None_keys beqb beqb_spec). intros Hk. apply F in Hk. destruct Hk as [|[]]; auto. }
  unfold update_peer. rewrite Hn. rewrite D, C. cbn [length Nat.add].
  unfold MAX_PEERS. rewrite Nat.leb_refl, oldest_dead_alive by auto. auto.
Qed.

Lemma flood_exists timeout t a : exists ids, ~ In (an_peer a) ids
  /\ lookup beqb (an_peer a) (fst (prun timeout [] (flood ids ++ [(t, PAnnounce a)]))) = None.
Proof.
  exact (ex_intro _ (other_ids (an_peer a))
           (conj (proj1 (proj2 (other_ids_spec (an_peer a)))) (flood_shuts_out timeout t a))).
Qed.
Lemma flood_ids t a ids : In (t, PAnnounce a) (flood ids) -> In (an_peer a) ids.
Proof.
  unfold flood. intros H. apply in_map_iff in H. destruct H as (id & Eq & Hin). injection Eq as <- <-. auto.
Qed.

(** ** Which topics are exchanged *)
Lemma existsb_beqb x l : existsb (beqb x) l = true <-> In x l.
Proof.
  rewrite existsb_exists. split.
  - intros (y & A & B). apply beqb_spec in B. subst; auto.
  - intros; exists x; split; auto. apply beqb_spec; auto.
Qed.
Lemma first_of_topic_sub ms : forall seen m, In m (first_of_topic seen ms) -> In m ms /\ ~ In (ma_topic m) seen.
Proof.
  induction ms as [|m0 r IH]; intros seen m; cbn [first_of_topic]; [intros []|].
  destruct (existsb (beqb (ma_topic m0)) seen) eqn:Ee.
  - intros H. apply IH in H. split; [right|]; tauto.
  - intros [<-|H].
    + split; [left; auto|]. intros Hin. apply existsb_beqb in Hin. congruence.
    + apply IH in H. destruct H as (A & B). split; [right; auto|]. intros Hin. apply B. right; auto.
Qed.
Lemma first_of_topic_has ms : forall seen m, In m ms -> ~ In (ma_topic m) seen ->
  exists m', In m' (first_of_topic seen ms) /\ ma_topic m' = ma_topic m.
Proof.
  induction ms as [|m0 r IH]; intros seen m Hin Hs; [destruct Hin|]. cbn [first_of_topic].
  destruct (existsb (beqb (ma_topic m0)) seen) eqn:Ee.
  - destruct Hin as [->|Hin]; [apply existsb_beqb in Ee; contradiction|eauto].
  - destruct Hin as [->|Hin]; [exists m; split; [left; auto|auto]|].
    destruct (beqb (ma_topic m) (ma_topic m0)) eqn:Em.
    + apply beqb_spec in Em. exists m0. split; [left; auto|auto].
    + destruct (IH (ma_topic m0 :: seen) m Hin) as (m' & A & B).
      * intros [H|H]; auto. rewrite H in Em. rewrite (proj2 (beqb_spec _ _)) in Em; auto. discriminate.
      * exists m'. split; [right; auto|auto].
Qed.
Lemma add_name_In n l x : In x (add_name n l) <-> x = n \/ In x l.
Proof.
  unfold add_name. destruct (existsb (beqb n) l) eqn:E.
  - apply existsb_beqb in E. split; [auto|]. intros [->|]; auto.
  - rewrite in_app_iff. cbn. split; [intros [|[|[]]]; auto|]. intros [->|]; auto.
Qed.
Lemma fold_add_In (f : Match -> bool) ms : forall l x,
  In x (fold_left (fun rs m => if f m then add_name (ma_topic m) rs else rs) ms l)
  <-> In x l \/ exists m, In m ms /\ f m = true /\ ma_topic m = x.
Proof.
  induction ms as [|m r IH]; intros l x; cbn [fold_left].
  - split; [auto|]. intros [|(m & [] & _)]; auto.
  - rewrite IH. destruct (f m) eqn:Ef.
    + rewrite add_name_In. split.
      * intros [[->|H]|(m' & A & B & C)]; auto; right; [exists m; split; [left; auto|auto] | exists m'; split; [right; auto|auto]].
      * intros [H|(m' & [->|A] & B & C)]; auto. right. eauto.
    + split.
      * intros [H|(m' & A & B & C)]; auto. right. exists m'. split; [right; auto|auto].
      * intros [H|(m' & [->|A] & B & C)]; auto; [congruence|]. right; eauto.
Qed.

Lemma some_order_In ord (s : Peers) x : some_order ord -> (In x (ord s) <-> In x s).
Proof. intros Ho. split; apply Permutation_in; [|symmetry]; apply Ho. Qed.
Definition candidates (ord : Peers -> Peers) (reg : Registry) (peers : Peers) : list Match :=
  flat_map (fun kp => find_matches reg (pi_topics (snd kp))) (alive_peers (ord peers)).
Lemma update_matches_readers ord co reg peers rs ws t :
  In t (snd (fst (update_matches ord co reg peers rs ws)))
  <-> (exists m, In m (candidates ord reg peers) /\ ma_topic m = t)
      /\ (In t rs \/ exists m, In m (first_of_topic [] (candidates ord reg peers)) /\ ma_export m = true /\ ma_topic m = t).
Proof.
  unfold update_matches. cbv zeta. cbn [fst snd]. fold (candidates ord reg peers).
  rewrite filter_In, fold_add_In. split.
  - intros (A & B). split; auto. apply existsb_exists in B. destruct B as (m & B & C). apply beqb_spec in C. subst t.
    exists m. split; auto. eapply first_of_topic_sub; eauto.
  - intros ((m & A & B) & C). split; auto. apply existsb_exists.
    destruct (first_of_topic_has _ [] m A) as (m' & D & F); [auto|]. exists m'. split; auto. apply beqb_spec. congruence.
Qed.
Lemma update_matches_writers ord co reg peers rs ws t :
  In t (snd (update_matches ord co reg peers rs ws))
  <-> (exists m, In m (candidates ord reg peers) /\ ma_topic m = t)
      /\ (In t ws \/ exists m, In m (first_of_topic [] (candidates ord reg peers)) /\ (ma_import m && co (ma_topic m)) = true /\ ma_topic m = t).
Proof.
  unfold update_matches. cbv zeta. cbn [fst snd]. fold (candidates ord reg peers).
  rewrite filter_In.
  rewrite (fold_add_In (fun m => ma_import m && co (ma_topic m))). split.
  - intros (A & B). split; auto. apply existsb_exists in B. destruct B as (m & B & C). apply beqb_spec in C. subst t.
    exists m. split; auto. eapply first_of_topic_sub; eauto.
  - intros ((m & A & B) & C). split; auto. apply existsb_exists.
    destruct (first_of_topic_has _ [] m A) as (m' & D & F); [auto|]. exists m'. split; auto. apply beqb_spec. congruence.
Qed.
Lemma In_candidates ord reg peers m : some_order ord -> In m (candidates ord reg peers) <->
  exists id p l w, In (id, p) peers /\ pi_alive p = true /\ In w (pi_topics p) /\ In l reg /\ In m (match_one l w).
Proof.
  intros Ho. unfold candidates. rewrite in_flat_map. split.
  - intros ([id p] & A & B). apply filter_In in A. cbn [snd] in *. rewrite (some_order_In ord _ _ Ho) in A. apply In_find_matches in B.
    destruct B as (l & w & B & C & D). exists id, p, l, w. tauto.
  - intros (id & p & l & w & A & B & C & D & F). exists (id, p). split; [apply filter_In; rewrite (some_order_In ord _ _ Ho); auto|].
    apply In_find_matches. eauto.
Qed.
Lemma NoDup_entry (reg : Registry) t e e' : NoDup (keys reg) -> In (t, e) reg -> In (t, e') reg -> e = e'.
Proof.
  intros Hn A B. apply (In_lookup beqb beqb_spec _ _ _ Hn) in A. apply (In_lookup beqb beqb_spec _ _ _ Hn) in B. congruence.
Qed.

(** The candidates of a topic published only, or subscribed only, all agree. *)
Lemma cand_publisher ord reg peers t e m : some_order ord -> NoDup (keys reg) -> In (t, e) reg -> te_role e = Publisher ->
  In m (candidates ord reg peers) -> ma_topic m = t -> ma_export m = true /\ ma_import m = false.
Proof.
  intros Ho Hn He Hr Hm Ht. apply In_candidates in Hm; auto. destruct Hm as (id & p & [n e'] & w & A & B & C & D & F).
  apply In_match_one in F. cbn [fst snd] in F. destruct F as (F1 & F2 & -> & F3). cbn [ma_topic ma_export ma_import] in *.
  assert (e' = e) by (rewrite Ht in D; exact (NoDup_entry reg t e' e Hn D He)). subst e'. rewrite Hr in *. cbn [role_pub role_sub andb orb] in *.
  rewrite orb_false_r in F3. auto.
Qed.
Lemma cand_subscriber ord reg peers t e m : some_order ord -> NoDup (keys reg) -> In (t, e) reg -> te_role e = Subscriber ->
  In m (candidates ord reg peers) -> ma_topic m = t -> ma_export m = false /\ ma_import m = true.
Proof.
  intros Ho Hn He Hr Hm Ht. apply In_candidates in Hm; auto. destruct Hm as (id & p & [n e'] & w & A & B & C & D & F).
  apply In_match_one in F. cbn [fst snd] in F. destruct F as (F1 & F2 & -> & F3). cbn [ma_topic ma_export ma_import] in *.
  assert (e' = e) by (rewrite Ht in D; exact (NoDup_entry reg t e' e Hn D He)). subst e'. rewrite Hr in *. cbn [role_pub role_sub andb orb] in *.
  auto.
Qed.
Lemma cand_sub_exists ord reg peers t e : some_order ord -> NoDup (keys reg) -> In (t, e) reg -> te_role e = Publisher ->
  (exists m, In m (candidates ord reg peers) /\ ma_topic m = t) <-> peer_subscribes peers t (te_type_hash e).
Proof.
  intros Ho Hn He Hr. split.
  - intros (m & Hm & Ht). apply In_candidates in Hm; auto. destruct Hm as (id & p & [n e'] & w & A & B & C & D & F).
    apply In_match_one in F. cbn [fst snd] in F. destruct F as (F1 & F2 & -> & F3). cbn [ma_topic] in *.
    assert (e' = e) by (rewrite Ht in D; exact (NoDup_entry reg t e' e Hn D He)). subst e'. rewrite Hr in *. cbn [role_pub role_sub andb orb] in *.
    rewrite orb_false_r in F3. apply wire_sub_iff in F3. exists id, p, w. repeat split; auto; congruence.
  - intros (id & p & w & A & B & C & D & F & G). apply wire_sub_iff in G.
    eexists. split; [apply In_candidates; [auto|]; exists id, p, (t, e), w; repeat split; eauto; apply In_match_one; cbn [fst snd];
      repeat split; eauto; rewrite Hr, G; reflexivity | reflexivity].
Qed.
Lemma cand_pub_exists ord reg peers t e : some_order ord -> NoDup (keys reg) -> In (t, e) reg -> te_role e = Subscriber ->
  (exists m, In m (candidates ord reg peers) /\ ma_topic m = t) <-> peer_publishes peers t (te_type_hash e).
Proof.
  intros Ho Hn He Hr. split.
  - intros (m & Hm & Ht). apply In_candidates in Hm; auto. destruct Hm as (id & p & [n e'] & w & A & B & C & D & F).
    apply In_match_one in F. cbn [fst snd] in F. destruct F as (F1 & F2 & -> & F3). cbn [ma_topic] in *.
    assert (e' = e) by (rewrite Ht in D; exact (NoDup_entry reg t e' e Hn D He)). subst e'. rewrite Hr in *. cbn [role_pub role_sub andb orb] in *.
    apply wire_pub_iff in F3. exists id, p, w. repeat split; auto; congruence.
  - intros (id & p & w & A & B & C & D & F & G). apply wire_pub_iff in G.
    eexists. split; [apply In_candidates; [auto|]; exists id, p, (t, e), w; repeat split; eauto; apply In_match_one; cbn [fst snd];
      repeat split; eauto; rewrite Hr, G; reflexivity | reflexivity].
Qed.

Lemma update_publisher ord co reg peers rs ws t e : some_order ord -> NoDup (keys reg) -> In (t, e) reg -> te_role e = Publisher ->
  ~ In t ws ->
  (In t (snd (fst (update_matches ord co reg peers rs ws))) <-> peer_subscribes peers t (te_type_hash e))
  /\ ~ In t (snd (update_matches ord co reg peers rs ws)).
Proof.
  intros Ho Hn He Hr Hw. split.
  - rewrite update_matches_readers, <- (cand_sub_exists ord reg peers t e) by auto. split; [tauto|].
    intros (m & A & B). split; [eauto|]. right.
    destruct (first_of_topic_has _ [] m A) as (m' & D & F); [auto|]. exists m'. split; auto.
    rewrite B in F. split; auto. apply first_of_topic_sub in D.
    eapply (cand_publisher ord reg peers t e m'); eauto. tauto.
  - rewrite update_matches_writers. intros (_ & [H|(m & A & B & C)]); auto.
    apply first_of_topic_sub in A. destruct (cand_publisher ord reg peers t e m Ho Hn He Hr (proj1 A) C) as (_ & G).
    rewrite G in B. discriminate.
Qed.
Lemma update_subscriber ord co reg peers rs ws t e : some_order ord -> NoDup (keys reg) -> In (t, e) reg -> te_role e = Subscriber ->
  co t = true -> ~ In t rs ->
  (In t (snd (update_matches ord co reg peers rs ws)) <-> peer_publishes peers t (te_type_hash e))
  /\ ~ In t (snd (fst (update_matches ord co reg peers rs ws))).
Proof.
  intros Ho Hn He Hr Hco Hw. split.
  - rewrite update_matches_writers, <- (cand_pub_exists ord reg peers t e) by auto. split; [tauto|].
    intros (m & A & B). split; [eauto|]. right.
    destruct (first_of_topic_has _ [] m A) as (m' & D & F); [auto|]. exists m'. split; auto.
    rewrite B in F. split; auto. rewrite F, Hco, andb_true_r. apply first_of_topic_sub in D.
    eapply (cand_subscriber ord reg peers t e m'); eauto. tauto.
  - rewrite update_matches_readers. intros (_ & [H|(m & A & B & C)]); auto.
    apply first_of_topic_sub in A. destruct (cand_subscriber ord reg peers t e m Ho Hn He Hr (proj1 A) C) as (G & _).
    rewrite G in B. discriminate.
Qed.
Lemma update_unregistered ord co reg peers rs ws t : some_order ord -> ~ In t (keys reg) ->
  ~ In t (snd (fst (update_matches ord co reg peers rs ws))) /\ ~ In t (snd (update_matches ord co reg peers rs ws)).
Proof.
  intros Ho Hn.
  assert (G : ~ exists m, In m (candidates ord reg peers) /\ ma_topic m = t).
  { intros (m & Hm & Ht). apply In_candidates in Hm; auto. destruct Hm as (id & p & [n e'] & w & A & B & C & D & F).
    apply In_match_one in F. cbn [fst snd] in F. destruct F as (F1 & F2 & -> & F3). cbn [ma_topic] in *. rewrite Ht in D.
    apply Hn. apply in_map_iff. exists (t, e'). auto. }
  rewrite update_matches_readers, update_matches_writers. tauto.
Qed.

(** A property of (peers, readers, writers) that [update_matches] establishes for any peers and preserves
    holds throughout a run. *)
Lemma liveness_nodead timeout now (s : Peers) : filter (fun kp => stale timeout now (snd kp)) s = [] ->
  map (fun kp => (fst kp, if stale timeout now (snd kp) then kill (snd kp) else snd kp)) s = s.
Proof.
  induction s as [|[id p] r IH]; cbn [filter map fst snd]; auto.
  destruct (stale timeout now p); [discriminate|]. intros; f_equal; auto.
Qed.
Lemma drun_ind ord co timeout reg (P : Peers -> list bytes -> list bytes -> Prop) :
  (forall peers peers0 rs ws, P peers0 rs ws ->
     P peers (snd (fst (update_matches ord co reg peers rs ws))) (snd (update_matches ord co reg peers rs ws))) ->
  forall h d, P (d_peers d) (d_readers d) (d_writers d) ->
  let d' := drun ord co timeout reg d h in P (d_peers d') (d_readers d') (d_writers d').
Proof.
  intros Hu. induction h as [|[t e] r IH]; intros d Hd; cbn [drun]; auto.
  apply IH. destruct e as [a|]; cbn [dstep].
  - unfold on_announcement. destruct (beqb (an_peer a) (d_me d)); auto. destruct (_ && _); auto. cbv zeta.
    specialize (Hu (update_peer t a (d_peers d)) _ _ _ Hd).
    destruct (update_matches ord co reg _ _ _) as [[x y] z]. cbn [d_peers d_readers d_writers fst snd] in *. auto.
  - unfold on_liveness, check_liveness.
    destruct (map fst _) as [|k ks] eqn:Em.
    + cbn [fst d_peers d_readers d_writers]. apply map_eq_nil in Em. rewrite liveness_nodead by auto. auto.
    + specialize (Hu (remove_dead_peers (map (fun kp => (fst kp, if stale timeout t (snd kp) then kill (snd kp) else snd kp)) (d_peers d))) _ _ _ Hd).
      destruct (update_matches ord co reg _ _ _) as [[x y] z]. cbn [d_peers d_readers d_writers fst snd] in *. auto.
Qed.
Lemma peer_subscribes_nil t h : ~ peer_subscribes [] t h.
Proof. intros (id & p & w & [] & _). Qed.
Lemma peer_publishes_nil t h : ~ peer_publishes [] t h.
Proof. intros (id & p & w & [] & _). Qed.

(** With a secret configured only peers that presented it are listed. *)
Definition secret_ok (me secret : bytes) (d : Disc) : Prop :=
  d_me d = me /\ d_secret d = secret
  /\ forall id p, In (id, p) (d_peers d) -> id <> me /\ (secret <> zero_secret -> pi_secret p = secret).
Lemma In_update_peer now a s id p : In (id, p) (update_peer now a s) ->
  (id = an_peer a /\ p = peer_of now a) \/ In (id, p) s.
Proof.
  unfold update_peer. intros H.
  assert (G : forall s', In (id, p) (insert beqb (an_peer a) (peer_of now a) s') ->
              (id = an_peer a /\ p = peer_of now a) \/ In (id, p) s').
  { intros s' Hs. apply In_insert in Hs; [|apply beqb_spec]. destruct Hs as [Hs|[Hs _]]; auto. inv Hs; auto. }
  destruct (lookup beqb (an_peer a) s); auto.
  destruct (_ <=? _)%nat; auto. destruct (oldest_dead s) as [[v x]|]; auto.
  apply G in H. destruct H as [|H]; auto. right. apply (In_remove beqb beqb_spec) in H. tauto.
Qed.
Lemma secret_ok_step ord co timeout reg me secret t e d :
  secret_ok me secret d -> secret_ok me secret (dstep ord co timeout t reg e d).
Proof.
  intros (A & B & C). destruct e as [a|]; cbn [dstep].
  - unfold on_announcement. destruct (beqb (an_peer a) (d_me d)) eqn:E1; [repeat split; auto; eapply C; eauto|].
    destruct (negb (beqb (d_secret d) zero_secret) && _) eqn:E2; [repeat split; auto; eapply C; eauto|].
    cbv zeta. destruct (update_matches ord co reg _ _ _) as [[x y] z].
    split; [auto|]. split; [auto|]. cbn [d_peers]. intros id p Hin.
    apply In_update_peer in Hin. destruct Hin as [(-> & ->)|Hin]; [|eauto]. split.
    + intros Hm. rewrite Hm, A in E1. rewrite (proj2 (beqb_spec me me)) in E1; auto. discriminate.
    + intros Hs. cbn [peer_of pi_secret]. rewrite B in E2.
      rewrite (eqb_neq' beqb beqb_spec secret zero_secret Hs) in E2. cbn [negb andb] in E2.
      apply orb_false_iff in E2. destruct E2 as (_ & E2). apply negb_false_iff in E2. apply beqb_spec in E2. auto.
  - unfold on_liveness, check_liveness.
    set (s1 := map _ (d_peers d)).
    assert (G : forall id p, In (id, p) s1 -> id <> me /\ (secret <> zero_secret -> pi_secret p = secret)).
    { intros id p Hin. unfold s1 in Hin. apply in_map_iff in Hin. destruct Hin as ([i q] & Eq & Hin). cbn [fst snd] in Eq.
      injection Eq as <- <-. destruct (C _ _ Hin) as (D & F). split; auto. intros Hs. rewrite <- (F Hs).
      destruct (stale timeout t q); reflexivity. }
    destruct (map fst _) as [|k ks] eqn:Em; cbn [fst].
    + repeat split; auto; eapply G; eauto.
    + destruct (update_matches ord co reg _ _ _) as [[x y] z]. cbn [fst].
      split; [auto|]. split; [auto|]. cbn [d_peers]. intros id p Hin. unfold remove_dead_peers in Hin.
      apply filter_In in Hin. apply G, Hin.
Qed.
Lemma secret_ok_run ord co timeout reg me secret h : forall d,
  secret_ok me secret d -> secret_ok me secret (drun ord co timeout reg d h).
Proof. induction h as [|[t e] r IH]; intros d Hd; cbn [drun]; auto. apply IH, secret_ok_step; auto. Qed.
