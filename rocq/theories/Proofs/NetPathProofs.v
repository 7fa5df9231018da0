From Verif.Base Require Import Prelude Bytes AMap.
From Verif.Model Require Import Wire Fragment NetPath.
From Verif.Spec Require Import WireSpec FragmentSpec.
From Verif.Proofs Require Import WireProofs FragmentProofs.
Open Scope N_scope.

Lemma message_eta m : mkOut (om_topic m) (om_payload m) (om_ts m) (om_seq m) (om_prio m) (om_rel m) (om_enc m) = m.
Proof. destruct m; reflexivity. Qed.

Lemma small_delivered m id hash seq now st :
  message_wf m -> u16 hash -> u32 seq -> N.of_nat (length (om_payload m)) <= 1400 ->
  exists pkt, export_message id hash seq m = [pkt] /\ dispatch now st pkt = (st, [m]).
Proof.
  intros Hm Hh Hs Hl. unfold export_message, fragment.
  rewrite (proj2 (N.leb_le _ _)) by (unfold MAX_FRAGMENT_PAYLOAD; lia).
  cbn [snd export_fragments filter].
  set (f := mkFrag _ _ _ _ _ _).
  assert (Hf : frag_msg f = m) by (unfold f, frag_msg, meta_of; simpl; apply message_eta).
  unfold export_fragment. rewrite Hf. change (1 <? fr_count f) with false. cbv iota.
  set (h := packet_header_new 0 hash seq).
  assert (Hh' : packet_header_wf h) by (repeat split; auto).
  destruct (decode_encode_single h m 65536) as [Hlen Hdec]; auto.
  { split; reflexivity. } { lia. }
  rewrite (proj2 (Nat.eqb_neq _ _)) by (rewrite Hlen; lia). cbn [negb].
  eexists; split; [reflexivity|]. unfold dispatch. rewrite Hdec.
  unfold encode_single. rewrite (proj2 (N.ltb_ge _ _)) by lia.
  rewrite decode_encode_packet_header by auto. reflexivity.
Qed.

Lemma chunk_len_gen l c : In c (chunks MAX_FRAGMENT_PAYLOAD l) -> (length c <= 1400)%nat.
Proof.
  intros Hc. apply (In_nth _ _ []) in Hc. destruct Hc as (i & _ & <-).
  rewrite chunks_nth by (unfold MAX_FRAGMENT_PAYLOAD; lia).
  unfold slice. rewrite firstn_length. unfold MAX_FRAGMENT_PAYLOAD. lia.
Qed.

Section Large.
  Variables (m : OutMessage) (id hash seq0 : N).
  Hypothesis Hm : message_wf m.
  Hypothesis Hh : u16 hash.
  Hypothesis Hlo : 1400 < N.of_nat (length (om_payload m)).
  Hypothesis Hhi : N.of_nat (length (om_payload m)) <= 1048576.
  Let cs := chunks MAX_FRAGMENT_PAYLOAD (om_payload m).

  (** What the receiver takes for the fragment index of a chunk. *)
  Let idx (c : bytes) : nat := N.to_nat (get_le 4 2 c).

  Lemma chunk_len c : In c cs -> (length c <= 1400)%nat.
  Proof. apply chunk_len_gen. Qed.

  Lemma export_fragments_In fs : forall seq pkt, u32 seq -> In pkt (export_fragments hash seq fs) ->
    exists f seq', In f fs /\ u32 seq' /\ pkt = export_fragment hash seq' f.
  Proof.
    induction fs as [|f fs IH]; intros seq pkt Hs; cbn [export_fragments In]; [tauto|].
    intros [<-|H]; [eauto 10|].
    destruct (IH ((seq + 1) mod 2 ^ 32) pkt) as (f' & s' & ? & ? & ?); auto.
    { apply N.mod_lt; discriminate. }
    exists f', s'; auto.
  Qed.

  (** Every exported datagram: a FRAGMENT packet whose payload is a bare chunk. *)
  Lemma export_pkt pkt : u32 seq0 -> In pkt (export_message id hash seq0 m) ->
    exists c mh h, In c cs /\ packet_header_wf h /\ ph_flags h = 8 /\ message_header_wf mh /\
      pkt = encode_packet_header h ++ encode_message_header mh ++ c.
  Proof.
    intros Hs Hin. unfold export_message in Hin. apply filter_In in Hin. destruct Hin as [Hin Hne].
    apply export_fragments_In in Hin; auto. destruct Hin as (f & s' & Hf & Hs' & ->).
    rewrite fragment_eq in Hf by auto. cbn [snd] in Hf. apply build_fragments_In in Hf.
    destruct Hf as (j & Hj & ->). unfold export_fragment in *. cbn [fr_count] in *.
    pose proof (n_bounds m Hlo Hhi) as Hn. fold cs in Hj, Hne, Hn |- *.
    rewrite (proj2 (N.ltb_lt 1 _)) in * by lia. change (with_flag 0 FLAG_FRAGMENT) with 8 in *.
    set (fm := frag_msg _) in *.
    assert (Hc : In (nth j cs []) cs) by (apply nth_In; auto).
    pose proof (chunk_len _ Hc) as Hcl.
    assert (Hpl : om_payload fm = nth j cs []) by reflexivity.
    exists (nth j cs []), (header_of fm), (packet_header_new 8 hash s').
    split; [auto|]. split; [repeat split; auto|]. split; [reflexivity|].
    destruct Hm as (H1 & H2 & H3 & H4 & H5). split.
    - unfold header_of, message_header_wf; cbn [mh_topic mh_len mh_ts mh_seq mh_host].
      repeat split; auto. apply N.mod_lt. discriminate.
    - unfold encode_single. rewrite Hpl. rewrite (proj2 (N.ltb_ge _ _)) by lia. reflexivity.
  Qed.

  Lemma parse_exported c mh h :
    message_header_wf mh -> (12 <= length c)%nat ->
    exists me fid fcount ftotal,
      parse_fragment (encode_packet_header h ++ encode_message_header mh ++ c) =
      Some (mkFrag me fid (get_le 4 2 c) fcount ftotal (skipn 12 c)).
  Proof.
    intros Hmh Hc. unfold parse_fragment.
    rewrite skipn_encode_header, decode_encode_message_header by auto.
    assert (H36 : skipn 36 (encode_packet_header h ++ encode_message_header mh ++ c) = c).
    { change 36%nat with (24 + 12)%nat. rewrite <- skipn_skipn, skipn_encode_header.
      rewrite skipn_app, skipn_all2 by (rewrite encode_message_header_length; lia). reflexivity. }
    assert (H48 : skipn 48 (encode_packet_header h ++ encode_message_header mh ++ c) = skipn 12 c).
    { change 48%nat with (12 + 36)%nat. rewrite <- skipn_skipn, H36. reflexivity. }
    rewrite H36, H48. unfold decode_fragment_header. rewrite ltb_false by lia.
    do 4 eexists. reflexivity.
  Qed.
  Lemma parse_exported_short c mh h :
    message_header_wf mh -> (length c < 12)%nat ->
    parse_fragment (encode_packet_header h ++ encode_message_header mh ++ c) = None.
  Proof.
    intros Hmh Hc. unfold parse_fragment.
    rewrite skipn_encode_header, decode_encode_message_header by auto.
    assert (H36 : skipn 36 (encode_packet_header h ++ encode_message_header mh ++ c) = c).
    { change 36%nat with (24 + 12)%nat. rewrite <- skipn_skipn, skipn_encode_header.
      rewrite skipn_app, skipn_all2 by (rewrite encode_message_header_length; lia). reflexivity. }
    rewrite H36. unfold decode_fragment_header. rewrite (proj2 (Nat.ltb_lt _ _)) by lia. reflexivity.
  Qed.

  (** A stored piece comes from a chunk whose parsed index is its slot, minus 12 bytes. *)
  Definition slot_ok (i : nat) (d : bytes) : Prop :=
    exists c, In c cs /\ (12 <= length c)%nat /\ idx c = i /\ d = skipn 12 c.
  Definition frags_ok (l : list (option bytes)) : Prop :=
    forall i d, nth i l None = Some d -> slot_ok i d.
  Definition st_ok (st : Reassembler) : Prop := forall k p, lookup pair_eqb k st = Some p -> frags_ok (pe_frags p).

  Definition mass (i : nat) : nat := list_sum (map (fun c => if (idx c =? i)%nat then length c else 0%nat) cs).

  Lemma slot_mass i d : slot_ok i d -> (length d + 12 <= mass i)%nat.
  Proof.
    intros (c & Hc & H12 & Hi & ->). rewrite skipn_length. unfold mass.
    assert (length c <= list_sum (map (fun c => if (idx c =? i)%nat then length c else 0%nat) cs))%nat; [|lia].
    induction cs as [|x l IH]; cbn [In map list_sum fold_right] in *; [tauto|].
    destruct Hc as [->|Hc].
    - rewrite Hi, Nat.eqb_refl. lia.
    - specialize (IH Hc). unfold list_sum in IH. lia.
  Qed.

  Lemma mass_total k s : (list_sum (map mass (seq s k)) <= length (om_payload m))%nat.
  Proof.
    replace (length (om_payload m)) with (list_sum (map (@length N) cs)).
    2:{ unfold cs. rewrite <- (chunks_concat MAX_FRAGMENT_PAYLOAD (om_payload m)) at 2 by (unfold MAX_FRAGMENT_PAYLOAD; lia).
        generalize (chunks MAX_FRAGMENT_PAYLOAD (om_payload m)). induction l; simpl; auto. rewrite app_length. lia. }
    unfold mass. clear. induction cs as [|c l IH]; cbn [map].
    - assert (list_sum (map (fun i : nat => list_sum []) (seq s k)) = 0)%nat; [|simpl in *; lia].
      induction (seq s k); simpl; auto.
    - assert (G : forall L, (list_sum (map (fun i => list_sum ((if (idx c =? i)%nat then length c else 0) ::
              map (fun c0 => if (idx c0 =? i)%nat then length c0 else 0) l)) L) =
         list_sum (map (fun i => if (idx c =? i)%nat then length c else 0%nat) L) +
         list_sum (map (fun i => list_sum (map (fun c0 => if (idx c0 =? i)%nat then length c0 else 0%nat) l)) L))%nat).
      { induction L; simpl; auto. simpl in IHL. unfold list_sum in *. lia. }
      rewrite G. cbn [list_sum fold_right]. apply Nat.add_le_mono; [|exact IH]. clear.
      assert (H : (list_sum (map (fun i => if (idx c =? i)%nat then length c else 0%nat) (seq s k)) <= length c)%nat
        /\ ((idx c < s)%nat -> list_sum (map (fun i => if (idx c =? i)%nat then length c else 0%nat) (seq s k)) = 0%nat)).
      { revert s; induction k; intros s; cbn [seq map list_sum fold_right]; [lia|].
        destruct (IHk (S s)) as [H1 H2]. unfold list_sum in *. destruct (Nat.eqb_spec (idx c) s).
        - rewrite H2 by lia. lia.
        - split; [lia|]. intros; rewrite H2; lia. }
      apply H.
  Qed.

  Lemma flatten_bound l : frags_ok l ->
    (length (flatten_frags l) < length (om_payload m))%nat.
  Proof.
    intros Hok.
    assert (G : forall l s, (forall i d, nth i l None = Some d -> slot_ok (s + i) d) ->
       (flatten_frags l = [] \/ length (flatten_frags l) + 12 <= list_sum (map mass (seq s (length l))))%nat).
    { clear l Hok. induction l as [|o l IH]; intros s Hok; [left; reflexivity|].
      unfold flatten_frags in *. cbn [flat_map length seq map list_sum fold_right].
      destruct (IH (S s)) as [E|E].
      { intros i d Hi. replace (S s + i)%nat with (s + S i)%nat by lia. apply (Hok (S i)); auto. }
      - rewrite E, app_nil_r. destruct o as [d|]; [|left; auto]. right.
        specialize (Hok 0%nat d eq_refl). rewrite Nat.add_0_r in Hok. apply slot_mass in Hok. lia.
      - right. rewrite app_length. unfold list_sum in *. destruct o as [d|]; cbn [length]; [|lia].
        specialize (Hok 0%nat d eq_refl). rewrite Nat.add_0_r in Hok. apply slot_mass in Hok. lia. }
    destruct (G l 0%nat Hok) as [->|H]; [cbn [length]; lia|].
    pose proof (mass_total (length l) 0). lia.
  Qed.

  Lemma feed_ok t st f c :
    st_ok st -> In c cs -> (12 <= length c)%nat -> fr_index f = get_le 4 2 c -> fr_payload f = skipn 12 c ->
    st_ok (fst (feed t st f)) /\
    (forall r, snd (feed t st f) = Some r -> (length (re_payload r) < length (om_payload m))%nat).
  Proof.
    intros Hst Hc H12 Hidx Hpl. unfold feed.
    destruct (MAX_REASSEMBLY_SIZE <? fr_total f); [split; [auto|discriminate]|].
    destruct ((fr_count f =? 0) || (MAX_FRAGMENTS_PER_MESSAGE <? fr_count f)); [split; [auto|discriminate]|].
    destruct (fr_count f =? 1).
    { split; [auto|]. cbn [snd]. intros r Hr; inv Hr. cbn [re_payload]. rewrite Hpl, skipn_length.
      pose proof (chunk_len c Hc). lia. }
    destruct (negb (mem pair_eqb (frag_key f) st) && (MAX_PENDING_MESSAGES <=? length st)%nat)%bool; [split; [auto|discriminate]|].
    set (p := match lookup pair_eqb (frag_key f) st with Some p => p | None => _ end).
    assert (Hp : frags_ok (pe_frags p)).
    { unfold p. destruct (lookup pair_eqb (frag_key f) st) eqn:E; [apply (Hst _ _ E)|].
      cbn [new_pending pe_frags]. intros i d Hi. rewrite nth_repeat in Hi. discriminate. }
    assert (Hins : forall v, frags_ok (pe_frags v) -> st_ok (insert pair_eqb (frag_key f) v st)).
    { intros v Hv k q Hq. destruct (pair_eqb k (frag_key f)) eqn:E.
      - apply pair_eqb_spec in E; subst. rewrite (lookup_insert_eq pair_eqb pair_eqb_spec) in Hq. inv Hq; auto.
      - rewrite (lookup_insert_neq pair_eqb pair_eqb_spec) in Hq; [eauto|]. intros ->. rewrite pair_eqb_refl in E; discriminate. }
    assert (Hrem : st_ok (remove pair_eqb (frag_key f) st)).
    { intros k q Hq. destruct (pair_eqb k (frag_key f)) eqn:E.
      - apply pair_eqb_spec in E; subst. rewrite lookup_remove_eq in Hq. discriminate.
      - rewrite (lookup_remove_neq pair_eqb pair_eqb_spec) in Hq; [eauto|]. intros ->. rewrite pair_eqb_refl in E; discriminate. }
    clearbody p.
    destruct (length (pe_frags p) <=? N.to_nat (fr_index f))%nat eqn:Ei; cbn [fst snd]; [split; [auto|discriminate]|].
    apply Nat.leb_gt in Ei.
    destruct (nth (N.to_nat (fr_index f)) (pe_frags p) None) eqn:En.
    - destruct (pe_rcount p =? pe_expected p); cbn [fst snd]; split; auto; try discriminate.
      intros r Hr; inv Hr. cbn [re_payload]. apply flatten_bound; auto.
    - destruct (pe_total p <? _); cbn [fst snd]; [split; [auto|discriminate]|].
      cbn [pe_rcount pe_expected pe_frags pe_meta].
      assert (Hset : frags_ok (set_nth (N.to_nat (fr_index f)) (Some (fr_payload f)) (pe_frags p))).
      { intros i d. rewrite set_nth_nth. rewrite (proj2 (Nat.ltb_lt _ _)) by auto. rewrite andb_true_r.
        destruct (Nat.eqb_spec i (N.to_nat (fr_index f))).
        - intros Hd; inv Hd. exists c. split; [auto|]. split; [auto|]. split; [|auto]. unfold idx. rewrite Hidx. reflexivity.
        - apply Hp. }
      destruct (pe_rcount p + 1 =? pe_expected p); cbn [fst snd]; split; auto; try discriminate.
      intros r Hr; inv Hr. cbn [re_payload]. apply flatten_bound; auto.
  Qed.

  Lemma receive_large l : forall st,
    u32 seq0 -> st_ok st -> Forall (fun e => In (snd e) (export_message id hash seq0 m)) l ->
    Forall (fun d => (length (om_payload d) < length (om_payload m))%nat) (receive st l).
  Proof.
    induction l as [|[now pkt] l IH]; intros st Hs Hst Hl; cbn [receive]; [constructor|].
    inversion Hl as [|? ? Hpkt Hl']; subst; clear Hl. cbn [snd] in Hpkt.
    apply export_pkt in Hpkt; auto. destruct Hpkt as (c & mh & h & Hc & Hwf & Hfl & Hmh & Hp).
    assert (Hd : exists st' out, dispatch now st pkt = (st', out) /\ st_ok st'
                 /\ Forall (fun d => (length (om_payload d) < length (om_payload m))%nat) out).
    { rewrite Hp. unfold dispatch. rewrite decode_encode_packet_header by auto. rewrite Hfl.
      change (has_flag 8 FLAG_HEARTBEAT) with false. change (has_flag 8 FLAG_ACK) with false.
      change (has_flag 8 FLAG_FRAGMENT) with true. cbv iota.
      destruct (Nat.leb_spec 12 (length c)).
      - destruct (parse_exported c mh h Hmh H) as (me & fid & fc & ft & ->).
        set (f := mkFrag _ _ _ _ _ _).
        destruct (feed_ok now st f c Hst Hc H eq_refl eq_refl) as [Hok Hout].
        destruct (feed now st f) as [st' r]. cbn [fst snd] in *.
        do 2 eexists; split; [reflexivity|]. split; auto.
        destruct r as [r|]; constructor; auto. apply (Hout r eq_refl).
      - rewrite parse_exported_short by auto. do 2 eexists; split; [reflexivity|]. split; auto. }
    destruct Hd as (st' & out & -> & Hst' & Hout). apply Forall_app; split; auto.
  Qed.
End Large.

Lemma large_never_delivered m id hash seq l :
  message_wf m -> u16 hash -> u32 seq ->
  1400 < N.of_nat (length (om_payload m)) <= 1048576 ->
  Forall (fun e => In (snd e) (export_message id hash seq m)) l ->
  Forall (fun d => om_payload d <> om_payload m) (receive reassembler_new l).
Proof.
  intros Hm Hh Hs [Hlo Hhi] Hl.
  eapply Forall_impl; [|apply (receive_large m id hash seq Hm Hh Hlo Hhi l reassembler_new Hs)]; auto.
  - cbv beta. intros d Hd E. rewrite E in Hd. lia.
  - intros k p H; discriminate.
Qed.

Lemma export_large_count m id hash seq :
  message_wf m -> u16 hash -> u32 seq ->
  1400 < N.of_nat (length (om_payload m)) <= 1048576 ->
  export_message id hash seq m <> [].
Proof.
  intros Hm Hh Hs [Hlo Hhi]. unfold export_message. rewrite fragment_eq by auto. cbn [snd].
  pose proof (n_bounds m Hlo Hhi). destruct (chunks MAX_FRAGMENT_PAYLOAD (om_payload m)) as [|c r] eqn:E; [simpl in *; lia|].
  assert (Hc : In c (chunks MAX_FRAGMENT_PAYLOAD (om_payload m))) by (rewrite E; simpl; auto).
  apply chunk_len_gen in Hc.
  cbn [build_fragments export_fragments filter].
  set (p := export_fragment _ _ _).
  assert (length p <> 0)%nat.
  { unfold p, export_fragment, encode_single. cbn [fr_count fr_payload frag_msg om_payload].
    rewrite (proj2 (N.ltb_ge _ _)) by lia. rewrite app_length, encode_packet_header_length. lia. }
  rewrite (proj2 (Nat.eqb_neq _ _)) by auto. cbn [negb]. discriminate.
Qed.

(** ** A peer that does write fragment headers *)
Definition meta_wf (f : Fragment) : Prop :=
  u32 (me_topic (fr_meta f)) /\ u64 (me_ts (fr_meta f)) /\ u32 (me_seq (fr_meta f)) /\
  u32 (fr_id f) /\ u16 (fr_index f) /\ u16 (fr_count f) /\ u32 (fr_total f).

Lemma filter_true {A} (p : A -> bool) l : (forall x, In x l -> p x = true) -> filter p l = l.
Proof. induction l as [|x l IH]; intros H; cbn [filter]; auto. rewrite (H x) by (left; auto). f_equal. apply IH. intros; apply H; right; auto. Qed.

Lemma frag_eta f : mkFrag (mkMeta (me_topic (fr_meta f)) (me_seq (fr_meta f)) (me_ts (fr_meta f)) (me_prio (fr_meta f)) (me_rel (fr_meta f)) (me_enc (fr_meta f)))
              (fr_id f) (fr_index f) (fr_count f) (fr_total f) (fr_payload f) = f.
Proof. destruct f as [[] ? ? ? ? ?]. reflexivity. Qed.

Lemma dispatch_fragment now st hash sq host len f :
  u16 hash -> u32 sq -> u8 host -> u32 len -> meta_wf f ->
  dispatch now st (fragment_datagram hash sq host len f) =
  (fst (feed now st f), match snd (feed now st f) with
     | Some r => [mkOut (me_topic (re_meta r)) (re_payload r) (me_ts (re_meta r)) (me_seq (re_meta r)) (me_prio (re_meta r)) (me_rel (re_meta r)) (me_enc (re_meta r))]
     | None => [] end).
Proof.
  intros Hh Hs Ho Hl (H1 & H2 & H3 & H4 & H5 & H6 & H7). unfold dispatch, fragment_datagram.
  rewrite decode_encode_packet_header by (repeat split; auto; reflexivity).
  cbn [ph_flags packet_header_new]. change (has_flag 8 FLAG_HEARTBEAT) with false. change (has_flag 8 FLAG_ACK) with false.
  change (has_flag 8 FLAG_FRAGMENT) with true. cbv iota. unfold parse_fragment.
  rewrite skipn_encode_header. rewrite decode_encode_message_header by (repeat split; auto).
  set (H12 := encode_packet_header _). set (H24 := encode_message_header _).
  assert (E36 : skipn 36 (H12 ++ H24 ++ encode_fragment_header (mkFH (fr_id f) (fr_index f) (fr_count f) (fr_total f)) ++ fr_payload f) =
               encode_fragment_header (mkFH (fr_id f) (fr_index f) (fr_count f) (fr_total f)) ++ fr_payload f).
  { rewrite app_assoc. rewrite skipn_app. rewrite skipn_all2; rewrite app_length; unfold H12, H24; rewrite encode_packet_header_length, encode_message_header_length; [|cbn; lia]. reflexivity. }
  assert (E48 : skipn 48 (H12 ++ H24 ++ encode_fragment_header (mkFH (fr_id f) (fr_index f) (fr_count f) (fr_total f)) ++ fr_payload f) = fr_payload f).
  { rewrite !app_assoc. rewrite skipn_app. rewrite skipn_all2; rewrite !app_length; unfold H12, H24; rewrite encode_packet_header_length, encode_message_header_length, encode_fragment_header_length; [|cbn; lia]. reflexivity. }
  rewrite E36, E48. rewrite decode_encode_fragment_header by (repeat split; auto).
  cbn [fh_id fh_index fh_count fh_total mh_topic mh_len mh_ts mh_seq mh_prio mh_rel mh_enc mh_host]. rewrite frag_eta.
  destruct (feed now st f) as [st' [r|]]; reflexivity.
Qed.

Lemma feed_keys t st f key : frag_key f = key -> Forall (fun e : (N * N) * Pending => fst e = key) st -> Forall (fun e : (N * N) * Pending => fst e = key) (fst (feed t st f)).
Proof.
  intros Hk Hf. unfold feed. repeat case_match; cbn [fst]; auto; subst; try (apply Forall_insert; auto); apply Forall_remove; auto.
Qed.

Lemma one_key_small (st : Reassembler) key : NoDup (map fst st) -> Forall (fun e => fst e = key) st -> (length st < 256)%nat.
Proof.
  intros Hn Hf. destruct st as [|a [|b st]]; cbn [length]; try lia.
  inversion Hf as [|? ? E1 F2]; subst. inversion F2 as [|? ? E2 F3]; subst. cbn [map] in Hn. inversion Hn as [|? ? N1 N2]; subst.
  exfalso. apply N1. left. congruence.
Qed.

Lemma receive_frags hash host len (f : nat -> Fragment) (sq : nat -> N) l : forall st,
  u16 hash -> u8 host -> u32 len -> (forall i, In i (map snd l) -> meta_wf (f i) /\ u32 (sq i)) ->
  receive st (map (fun '(t, i) => (t, fragment_datagram hash (sq i) host len (f i))) l) =
  flat_map (fun o => match o with
     | Some r => [mkOut (me_topic (re_meta r)) (re_payload r) (me_ts (re_meta r)) (me_seq (re_meta r)) (me_prio (re_meta r)) (me_rel (re_meta r)) (me_enc (re_meta r))]
     | None => [] end) (map snd (snd (rrun st (map (fun '(t, i) => RFeed t (f i)) l)))).
Proof.
  induction l as [|[t i] l IH]; intros st Hh Ho Hl H; cbn [map receive rrun]; auto.
  destruct (H i) as (Hw & Hq); [left; auto|]. rewrite dispatch_fragment by auto. cbn [rstep].
  destruct (feed t st (f i)) as [st' r] eqn:E. cbn [fst snd]. rewrite IH by (auto; intros j Hj; apply H; right; auto).
  destruct (rrun st' _) as [st2 outs]. cbn [snd map flat_map]. reflexivity.
Qed.

Lemma fragmented_delivered m id hash host len (sq : nat -> N) t0 l :
  message_wf m -> u16 hash -> u8 host -> u32 len -> u32 id -> (forall i, u32 (sq i)) ->
  1400 < N.of_nat (length (om_payload m)) <= 1048576 ->
  let frags := snd (fragment id m) in
  Forall (fun e : N * nat => t0 <= fst e < t0 + 100 /\ (snd e < length frags)%nat) l ->
  receive reassembler_new (map (fun '(t, i) => (t, fragment_datagram hash (sq i) host len (nth i frags (mkFrag (meta_of m) 0 0 0 0 [])))) l) =
  flat_map (fun b : bool => if b then [m] else []) (deliveries (length frags) [] (map snd l)).
Proof.
  intros (M1 & M2 & M3 & M4 & M5) Hh Ho Hl Hid Hsq Hb frags HF.
  destruct (fragment_shape m id Hb) as (S1 & S2 & S3). fold frags in S1, S2, S3.
  set (f := fun i => nth i frags (mkFrag (meta_of m) 0 0 0 0 [])).
  assert (N0 : N.of_nat (length frags) < 2^16) by (change (2^16) with 65536; lia).
  assert (W : forall i, (i < length frags)%nat -> f i = mkFrag (meta_of m) id (N.of_nat i) (N.of_nat (length frags)) (N.of_nat (length (om_payload m))) (slice (1400 * i) 1400 (om_payload m))).
  { intros i Hi. unfold f. apply S2. auto. }
  rewrite (receive_frags hash host len f sq l) by (auto; intros i Hi; split; auto; apply in_map_iff in Hi as (e & <- & He);
    rewrite Forall_forall in HF; apply HF in He as (_ & He); rewrite W by auto; unfold meta_wf; cbn [fr_meta meta_of me_topic me_ts me_seq fr_id fr_index fr_count fr_total];
    repeat split; auto; unfold u16, u32; change (2^16) with 65536 in *; change (2^32) with 4294967296 in *; lia).
  set (ev := map (fun '(t, i) => RFeed t (f i)) l).
  assert (G2 : (2 <= length frags)%nat) by lia.
  assert (A : forall o, In o ev -> exists t i, o = RFeed t (f i) /\ (i < length frags)%nat /\ t0 <= t < t0 + 100 /\ arrives (om_topic m, id) o = true).
  { intros o Hi. unfold ev in Hi. apply in_map_iff in Hi as ([t i] & <- & He). rewrite Forall_forall in HF. apply HF in He as (He1 & He2). cbn [fst snd] in *.
    exists t, i. split; auto. split; auto. split; auto. apply arrives_key. rewrite W by auto. split; [reflexivity|]. cbn [fr_count]. lia. }
  pose proof (C17_main m id t0 reassembler_new ev Hb eq_refl) as C. cbv zeta in C. fold frags in C.
  assert (KEY : forall l1, (forall o, In o l1 -> In o ev) -> Forall (fun e : (N * N) * Pending => fst e = (om_topic m, id)) (fst (rrun reassembler_new l1)) ).
  { intros l1. generalize (Forall_nil (fun e : (N * N) * Pending => fst e = (om_topic m, id))). change (@nil ((N * N) * Pending)) with reassembler_new at 1.
    generalize reassembler_new. induction l1 as [|o l1 IH]; intros st Hst Hin; cbn [rrun]; auto.
    destruct (A o) as (t & i & -> & Hi & _ & _); [apply Hin; left; auto|]. cbn [rstep].
    pose proof (feed_keys t st (f i) (om_topic m, id)) as FK. rewrite (W i Hi) in FK at 1. specialize (FK eq_refl Hst).
    destruct (feed t st (f i)) as [st1 r]. cbn [fst] in FK. specialize (IH st1 FK (fun o Ho => Hin o (or_intror Ho))).
    destruct (rrun st1 l1) as [st2 outs]. auto. }
  assert (FA : filter (arrives (om_topic m, id)) ev = ev).
  { apply filter_true. intros o Hi. destruct (A o Hi) as (t & i & _ & _ & _ & X). auto. }
  rewrite FA in C.
  assert (OUT : filter (fun p => arrives (om_topic m, id) (fst p)) (snd (rrun reassembler_new ev)) = snd (rrun reassembler_new ev)).
  { apply filter_true. intros p Hp.
    assert (Q : forall l1 st q, In q (snd (rrun st l1)) -> In (fst q) l1).
    { clear. induction l1 as [|o l1 IH]; intros st q Hq; cbn [rrun] in Hq; [destruct Hq|]. destruct (rstep st o) as [s1 r]. specialize (IH s1 q).
      destruct (rrun s1 l1) as [s2 outs]. cbn [snd] in *. destruct Hq as [<-|Hq]; [left; auto|right; auto]. }
    apply Q in Hp. destruct (A _ Hp) as (t & i & _ & _ & _ & X). auto. }
  rewrite OUT in C. rewrite C.
  - assert (IDX : map arrival_index ev = map snd l).
    { unfold ev. rewrite map_map. apply map_ext_in. intros [t i] Hi. rewrite Forall_forall in HF. apply HF in Hi as (_ & Hi). cbn [snd arrival_index] in *. rewrite W by auto. cbn [fr_index]. lia. }
    rewrite IDX. clear. induction (deliveries (length frags) [] (map snd l)) as [|b bs IH]; cbn [map flat_map]; auto. rewrite IH. f_equal.
    destruct b; auto. cbn [re_meta re_payload meta_of me_topic me_ts me_seq me_prio me_rel me_enc]. rewrite message_eta. auto.
  - intros o Hi _. destruct (A o Hi) as (t & i & -> & Hi2 & _). exists t, (f i). split; auto. unfold f. apply nth_In. auto.
  - intros o Hi. destruct (A o Hi) as (t & i & -> & Hi2 & Ht & _). auto.
  - intros l1 o l2 E _. left. apply (one_key_small _ (om_topic m, id)).
    + destruct (rrun_rinv l1 reassembler_new) as (_ & ND & _); [split; [cbn; lia|split; constructor]|]. exact ND.
    + apply KEY. intros o' Ho'. rewrite E. apply in_app_iff. auto.
Qed.

(** Heartbeats and acknowledgements never become messages. *)
Lemma control_silent now st flags hash sq rest :
  u8 flags -> u16 hash -> u32 sq -> N.testbit flags 4 = true \/ N.testbit flags 5 = true ->
  dispatch now st (encode_packet_header (packet_header_new flags hash sq) ++ rest) = (st, []).
Proof.
  intros Hf Hh Hs Hb. unfold dispatch. rewrite decode_encode_packet_header by (repeat split; auto; reflexivity). cbn [ph_flags packet_header_new].
  assert (T : forall i, has_flag flags (2 ^ i) = N.testbit flags i).
  { intros i. unfold has_flag. destruct (N.testbit flags i) eqn:E.
    - destruct (N.eqb_spec (N.land flags (2 ^ i)) 0) as [Z|Z]; auto. apply (f_equal (fun x => N.testbit x i)) in Z.
      rewrite N.land_spec, N.pow2_bits_true, E, N.bits_0 in Z. discriminate.
    - destruct (N.eqb_spec (N.land flags (2 ^ i)) 0) as [Z|Z]; auto. exfalso. apply Z. apply N.bits_inj. intros j. rewrite N.land_spec, N.bits_0, N.pow2_bits_eqb.
      destruct (N.eqb_spec i j) as [<-|]; [rewrite E; auto|apply andb_false_r]. }
  pose proof (T 4) as T4. pose proof (T 5) as T5. change (2 ^ 4) with FLAG_HEARTBEAT in T4. change (2 ^ 5) with FLAG_ACK in T5. rewrite T4, T5.
  destruct (N.testbit flags 4); auto. destruct (N.testbit flags 5); auto. destruct Hb; discriminate.
Qed.
