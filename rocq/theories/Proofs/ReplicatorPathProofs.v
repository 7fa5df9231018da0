(** The replicator's export pass, a message from one host to another, acknowledgements, and the socket. *)
From Verif.Base Require Import Prelude Bytes AMap Str.
From Verif.Model Require Import Wire Fragment Registry NetFilter NetPath Reliability FlowControl Guard Estop Discovery EncodingSwap Replicator.
From Verif.Spec Require Import WireSpec GuardSpec EstopSpec NetFilterSpec ReplicatorSpec.
From Verif.Proofs Require Import WireProofs GuardProofs NetFilterProofs NetPathProofs EstopProofs ReplicatorProofs.
From Verif.Props Require Import DiscoveryProps.
Open Scope N_scope.

Lemma topic_hash_u32 t : u32 (topic_hash t).
Proof.
  unfold topic_hash, fnv1a_hash, u32. assert (G : forall l h, h < 2 ^ 32 -> fold_left fnv1a_step l h < 2 ^ 32).
  { induction l as [|x l IH]; intros h Hh; [exact Hh|]. cbn [fold_left]. apply IH. apply N.mod_lt. discriminate. }
  apply G. reflexivity.
Qed.
Lemma out_message_spec t p idx e : out_message t p idx e = wire_message t p idx e.
Proof.
  unfold out_message, wire_message, auto_infer, urgent_name. unfold infer_from_topic.
  destruct (_ || _); [reflexivity|]. destruct (65536 <? N.of_nat (length p)); reflexivity.
Qed.
Lemma wire_message_wf t p idx e : bytes_ok p -> N.of_nat (length p) < 2 ^ 32 -> message_wf (wire_message t p idx e).
Proof.
  intros Hp Hl. unfold wire_message. destruct (urgent_name t); (split; [apply topic_hash_u32|]); cbn [om_ts om_seq om_payload];
    (split; [reflexivity|]; split; [apply N.mod_lt; discriminate|]; auto).
Qed.
Lemma wire_copies t p idx e : N.to_nat (copies_for (om_rel (wire_message t p idx e))) = times_to_send t.
Proof. unfold wire_message, times_to_send. destruct (urgent_name t); reflexivity. Qed.
Lemma wire_fields t p idx e : om_topic (wire_message t p idx e) = topic_hash t /\ om_payload (wire_message t p idx e) = p /\
  om_seq (wire_message t p idx e) = idx mod 2 ^ 32 /\ om_enc (wire_message t p idx e) = e.
Proof. unfold wire_message. destruct (urgent_name t); auto. Qed.

Lemma try_read_iff r tap t idx p e : try_read_latest tap (r_last r) t = Some (idx, p, e) <-> new_message r tap t idx p e.
Proof.
  unfold try_read_latest, new_message. destruct (tap t) as [[[i q] e']|]; [|split; [discriminate|intros [? _]; discriminate]].
  destruct (lookup beqb t (r_last r)) as [j|].
  - destruct (i =? 0) eqn:E0; cbn [orb].
    { apply N.eqb_eq in E0. split; [discriminate|]. intros (E & H & _). congruence. }
    apply N.eqb_neq in E0. destruct (i =? j) eqn:E1.
    + apply N.eqb_eq in E1. split; [discriminate|]. intros (E & _ & H). congruence.
    + apply N.eqb_neq in E1. split; [intros E; inv E; repeat split; auto; congruence|]. intros (E & _); auto.
  - rewrite orb_diag. destruct (i =? 0) eqn:E0.
    + apply N.eqb_eq in E0. split; [discriminate|]. intros (E & H & _). congruence.
    + apply N.eqb_neq in E0. split; [intros E; inv E; repeat split; auto; congruence|]. intros (E & _); auto.
Qed.
Definition reads (tap : bytes -> option (N * bytes * Encoding)) (last : list (bytes * N)) (n : bytes) : list (bytes * OutMessage) :=
  match try_read_latest tap last n with Some (idx, p, e) => [(n, out_message n p idx e)] | None => [] end.
Lemma reads_ext tap last last' n : lookup beqb n last = lookup beqb n last' -> reads tap last n = reads tap last' n.
Proof. intros E. unfold reads, try_read_latest. rewrite E. reflexivity. Qed.
Lemma read_all_spec tap names : forall last, NoDup names ->
  snd (read_all tap names last) = flat_map (reads tap last) names /\
  (forall n, lookup beqb n (fst (read_all tap names last)) =
     match (if existsb (beqb n) names then try_read_latest tap last n else None) with
     | Some (idx, _, _) => Some idx | None => lookup beqb n last end).
Proof.
  induction names as [|x names IH]; intros last Hn; [split; reflexivity|]. inversion Hn as [|? ? Hx Hn']; subst.
  cbn [read_all flat_map existsb]. destruct (try_read_latest tap last x) as [[[idx p] e]|] eqn:E.
  - destruct (IH (insert beqb x idx last) Hn') as [A B]. destruct (read_all tap names _) as [last' o]. cbn [fst snd] in *. split.
    + unfold reads at 1. rewrite E. cbn [app]. f_equal. rewrite A. clear -Hx.
      induction names as [|y names IH]; [reflexivity|]. cbn [flat_map]. rewrite IH by (intros H; apply Hx; right; auto). f_equal.
      apply reads_ext. apply lookup_insert_neq; [apply beqb_spec|]. intros ->. apply Hx. left; auto.
    + intros n. rewrite B. destruct (beqb n x) eqn:En.
      * apply beqb_spec in En. subst n. cbn [orb]. rewrite E.
        replace (existsb (beqb x) names) with false.
        { apply lookup_insert_eq. apply beqb_spec. }
        symmetry. apply not_true_iff_false. intros H. apply existsb_exists in H as (y & Hy & H). apply beqb_spec in H. subst. contradiction.
      * cbn [orb]. assert (n <> x) by (intros ->; rewrite (proj2 (beqb_spec x x)) in En by reflexivity; discriminate).
        assert (L : lookup beqb n (insert beqb x idx last) = lookup beqb n last) by (apply lookup_insert_neq; [apply beqb_spec|auto]).
        unfold try_read_latest. rewrite L. reflexivity.
  - destruct (IH last Hn') as [A B]. split.
    + rewrite A. unfold reads at 2. rewrite E. reflexivity.
    + intros n. rewrite B. destruct (beqb n x) eqn:En; cbn [orb]; auto.
      apply beqb_spec in En. subst n. rewrite E. destruct (existsb (beqb x) names); reflexivity.
Qed.

Lemma subscribers_iff peers t k p : In (k, p) (subscribers_of peers t) <-> subscriber peers t k p.
Proof.
  unfold subscribers_of, subscriber. rewrite filter_In. cbn [snd]. rewrite andb_true_iff. unfold announces. rewrite existsb_exists.
  split.
  - intros (A & B & w & Hw & C). split; auto. split; auto. exists w. rewrite andb_true_iff in C. destruct C as [C D].
    apply beqb_spec in C. unfold wire_sub in D. rewrite orb_true_iff, !N.eqb_eq in D. auto.
  - intros (A & B & w & Hw & C & D). split; auto. split; auto. exists w. split; auto. rewrite andb_true_iff. split; [apply beqb_spec; auto|].
    unfold wire_sub. rewrite orb_true_iff, !N.eqb_eq. auto.
Qed.
Lemma has_subscribers_iff peers t : has_remote_subscribers peers t = true <-> exists k p, subscriber peers t k p.
Proof.
  unfold has_remote_subscribers. rewrite existsb_exists. setoid_rewrite <- subscribers_iff. unfold subscribers_of. setoid_rewrite filter_In. split.
  - intros ([k p] & A & B). exists k, p. auto.
  - intros (k & p & A & B). exists (k, p). auto.
Qed.

Section Export.
  Variable conf : Conf.
  Local Notation guard reg := (mkGuard (c_import conf) (c_export conf) (Some reg)).

  Lemma export_names_iff r reg t : In t (export_names conf r reg) <->
    In t (d_readers (r_disc r)) /\ (exists k p, subscriber (d_peers (r_disc r)) t k p) /\ export_allowed (guard reg) t.
  Proof. unfold export_names. rewrite filter_In, andb_true_iff, has_subscribers_iff, export_iff. tauto. Qed.

  Lemma sends_copies r m subs pkt :
    sends (send_copies r m subs pkt) =
    if (length pkt =? 0)%nat then []
    else concat (repeat (map (fun kp => (data_addr (snd kp), pkt))
           (filter (fun kp => transmit_allowed (r_flow r) (om_prio m) (peer_id_hash (fst kp)) (om_topic m)) subs))
           (N.to_nat (copies_for (om_rel m)))).
  Proof.
    unfold send_copies. destruct (length pkt =? 0)%nat; [reflexivity|].
    induction (N.to_nat (copies_for (om_rel m))) as [|n IH]; [reflexivity|]. cbn [repeat flat_map concat]. rewrite sends_app. f_equal; [|exact IH].
    clear. induction subs as [|kp subs IH]; [reflexivity|]. cbn [flat_map filter]. rewrite sends_app, IH.
    destruct (transmit_allowed _ _ _ _); reflexivity.
  Qed.

  (** An export pass keeps the peers, topics and flow state. *)
  Lemma export_all_frame now l : forall r, let r' := fst (export_all now r l) in
    r_disc r' = r_disc r /\ r_flow r' = r_flow r /\ r_last r' = r_last r /\ r_dedup r' = r_dedup r.
  Proof.
    induction l as [|[nm m] l IH]; intros r; cbn zeta; [auto|]. cbn [export_all]. unfold export_one.
    destruct (fragment (r_frag r) m) as [fid frags].
    set (r1 := with_export _ _ _ _ _). specialize (IH r1). destruct (export_all now r1 l) as [r2 o2]. cbn [fst] in *. exact IH.
  Qed.
  Lemma export_all_sound now l : forall r a pkt, In (a, pkt) (sends (snd (export_all now r l))) ->
    exists t m k p fid q f, In (t, m) l /\ In (k, p) (subscribers_of (d_peers (r_disc r)) t) /\ a = data_addr p /\
      transmit_allowed (r_flow r) (om_prio m) (peer_id_hash k) (om_topic m) = true /\
      In f (snd (fragment fid m)) /\ pkt = export_fragment (peer_id_hash (d_me (r_disc r))) q f.
  Proof.
    induction l as [|[nm m] l IH]; intros r a pkt H; [destruct H|]. cbn [export_all] in H. unfold export_one in H.
    destruct (fragment (r_frag r) m) as [fid frags] eqn:Ef.
    set (r1 := with_export _ _ _ _ _) in H. destruct (export_all now r1 l) as [r2 o2] eqn:E2. cbn [snd] in H.
    rewrite sends_app, in_app_iff in H. destruct H as [H|H].
    - unfold sends in H. apply in_flat_map in H as (e & He & H). destruct e; try contradiction. destruct H as [H|[]].
      apply in_flat_map in He as (pk & Hpk & He).
      assert (S : In (a, pkt) (sends (send_copies r m (subscribers_of (d_peers (r_disc r)) nm) pk))).
      { unfold sends. apply in_flat_map. eexists. split; [exact He|]. left. auto. }
      rewrite sends_copies in S. destruct (length pk =? 0)%nat; [contradiction|].
      apply in_concat in S as (l' & Hl & S). apply repeat_spec in Hl. subst l'. apply in_map_iff in S as ([k p] & S & Hf). inversion S; subst; clear S.
      apply filter_In in Hf as [Hs Ht].
      assert (X : exists f q, In f frags /\ pkt = export_fragment (peer_id_hash (d_me (r_disc r))) q f).
      { revert Hpk. clear. generalize (r_seq r). induction frags as [|f fs IH]; intros q; cbn [export_fragments]; [intros []|].
        intros [<-|H]; [exists f, q; split; [left|]; auto|]. destruct (IH _ H) as (f' & q' & A & B). exists f', q'. split; [right|]; auto. }
      destruct X as (f & q & Hf & Eq). exists nm, m, k, p, (r_frag r), q, f. rewrite Ef. cbn [fst snd] in *.
      split; [left; auto|]. split; [auto|]. split; [auto|]. split; [auto|]. auto.
    - specialize (IH r1 a pkt). rewrite E2 in IH. destruct (IH H) as (t & m' & k & p & fi & q & f & A & B). exists t, m', k, p, fi, q, f.
      split; [right; auto|exact B].
  Qed.

  Theorem export_sound now reg tap r a pkt : NoDup (d_readers (r_disc r)) ->
    In (a, pkt) (sends (snd (handle_export conf now reg tap r))) ->
    exists t idx p e k peer fid q f,
      In t (d_readers (r_disc r)) /\ export_allowed (guard reg) t /\ new_message r tap t idx p e /\
      subscriber (d_peers (r_disc r)) t k peer /\ a = data_addr peer /\
      In f (snd (fragment fid (wire_message t p idx e))) /\ pkt = export_fragment (peer_id_hash (d_me (r_disc r))) q f.
  Proof.
    intros Hn H. unfold handle_export in H.
    pose proof (proj1 (read_all_spec tap (export_names conf r reg) (r_last r) (NoDup_filter _ Hn))) as Ho.
    destruct (read_all _ _ _) as [last outbox]. cbn [snd] in Ho. subst outbox.
    apply export_all_sound in H as (t & m & k & p & fid & q & f & Hin & Hs & Ea & _ & Hf & Ep).
    apply in_flat_map in Hin as (t' & Ht & Hin). unfold reads in Hin.
    destruct (try_read_latest tap (r_last r) t') as [[[idx pl] e]|] eqn:Er; [|contradiction]. destruct Hin as [Hin|[]]. inversion Hin; subst; clear Hin.
    apply export_names_iff in Ht as (H1 & _ & H2). apply try_read_iff in Er. apply subscribers_iff in Hs.
    rewrite out_message_spec in Hf. exists t, idx, pl, e, k, p, fid, q, f. auto 10.
  Qed.

  (** After a pass the same messages are not new any more. *)
  Theorem export_once now now' reg reg' tap r : NoDup (d_readers (r_disc r)) ->
    (forall t, In t (export_names conf r reg') -> In t (export_names conf r reg)) ->
    sends (snd (handle_export conf now' reg' tap (fst (handle_export conf now reg tap r)))) = [].
  Proof.
    intros Hn Hsub. unfold handle_export at 2.
    pose proof (read_all_spec tap (export_names conf r reg) (r_last r) (NoDup_filter _ Hn)) as [Ho Hl].
    destruct (read_all _ _ _) as [last outbox]. cbn [fst snd] in Ho, Hl.
    pose proof (export_all_frame now outbox (with_export r (r_seq r) (r_frag r) last (r_latch r))) as (Fd & _ & Fl & _).
    set (r' := fst (export_all now _ outbox)) in *. cbn in Fd, Fl.
    unfold handle_export. assert (En : export_names conf r' reg' = export_names conf r reg') by (unfold export_names; rewrite Fd; reflexivity).
    rewrite En, Fl.
    pose proof (proj1 (read_all_spec tap (export_names conf r reg') last (NoDup_filter _ Hn))) as Ho2.
    destruct (read_all _ _ _) as [last2 outbox2]. cbn [snd] in Ho2. replace outbox2 with (@nil (bytes * OutMessage)); [reflexivity|].
    subst outbox2. symmetry. clear -Hl Hsub.
    assert (G : forall l, (forall t, In t l -> In t (export_names conf r reg')) -> flat_map (reads tap last) l = []).
    { induction l as [|t l IH]; intros Hi; [reflexivity|]. cbn [flat_map]. rewrite IH by (intros; apply Hi; right; auto). rewrite app_nil_r.
      specialize (Hl t). replace (existsb (beqb t) (export_names conf r reg)) with true in Hl.
      2:{ symmetry. apply existsb_exists. exists t. split; [apply Hsub, Hi; left; auto|apply beqb_spec; auto]. }
      cbv iota in Hl. unfold reads. destruct (try_read_latest tap last t) as [[[idx p] e]|] eqn:E; [|reflexivity]. exfalso.
      unfold try_read_latest in *. destruct (tap t) as [[[i q] e']|]; [|discriminate].
      destruct (lookup beqb t (r_last r)) as [j|] eqn:Ej.
      - destruct ((i =? 0) || (i =? j)) eqn:Eb.
        + rewrite Hl, Eb in E. discriminate.
        + rewrite Hl, N.eqb_refl, orb_true_r in E. discriminate.
      - destruct ((i =? 0) || (i =? 0)) eqn:Eb.
        + rewrite Hl, Eb in E. discriminate.
        + rewrite Hl, N.eqb_refl, orb_true_r in E. discriminate. }
    apply G. auto.
  Qed.

  (** One topic has a new message of at most 1400 bytes: exactly these datagrams. *)
  Theorem export_exact now reg tap r t idx p e : NoDup (d_readers (r_disc r)) -> In t (d_readers (r_disc r)) ->
    export_allowed (guard reg) t -> new_message r tap t idx p e -> (forall u, u <> t -> tap u = None) ->
    N.of_nat (length p) <= 1400 ->
    let pkt := encode_single (packet_header_new 0 (peer_id_hash (d_me (r_disc r))) (r_seq r)) (wire_message t p idx e) 65536 in
    sends (snd (handle_export conf now reg tap r)) =
      concat (repeat (map (fun kp => (data_addr (snd kp), pkt))
        (filter (fun kp => transmit_allowed (r_flow r) (om_prio (wire_message t p idx e)) (peer_id_hash (fst kp)) (topic_hash t))
           (subscribers_of (d_peers (r_disc r)) t))) (times_to_send t)) /\
    (subscribers_of (d_peers (r_disc r)) t <> [] ->
     r_latch (fst (handle_export conf now reg tap r)) =
       if urgent_name t then start_latch (k_ms now) (r_latch r) (topic_hash t) (idx mod 2 ^ 32) p else r_latch r).
  Proof.
    intros Hn Hi He Hnew Honly Hlen pkt. unfold handle_export.
    pose proof (read_all_spec tap (export_names conf r reg) (r_last r) (NoDup_filter _ Hn)) as [Ho _].
    destruct (read_all _ _ _) as [last outbox]. cbn [snd] in Ho.
    destruct (wire_fields t p idx e) as (W1 & W2 & W3 & W4).
    destruct (subscribers_of (d_peers (r_disc r)) t) as [|kp0 subs] eqn:Es.
    { split; [|congruence]. replace outbox with (@nil (bytes * OutMessage)).
      - cbn [map filter]. induction (times_to_send t); [reflexivity|]. cbn [repeat concat]. auto.
      - subst outbox. assert (~ In t (export_names conf r reg)).
        { rewrite export_names_iff. intros (_ & (k & q & Hs) & _). apply subscribers_iff in Hs. rewrite Es in Hs. destruct Hs. }
        clear -H Honly. induction (export_names conf r reg) as [|u l IH]; [reflexivity|]. cbn [flat_map].
        rewrite <- IH by (intros X; apply H; right; auto). rewrite app_nil_r. unfold reads, try_read_latest.
        rewrite Honly; [reflexivity|]. intros ->. apply H. left; auto. }
    assert (Et : outbox = [(t, wire_message t p idx e)]).
    { subst outbox. assert (Hin : In t (export_names conf r reg)).
      { apply export_names_iff. split; auto. split; auto. exists (fst kp0), (snd kp0). apply subscribers_iff. rewrite Es. left. destruct kp0; auto. }
      assert (Hnd : NoDup (export_names conf r reg)) by (apply NoDup_filter; auto).
      apply try_read_iff in Hnew. clear -Hin Hnd Hnew Honly.
      assert (N0 : forall l, ~ In t l -> flat_map (reads tap (r_last r)) l = []).
      { induction l as [|u l IH]; intros X; [reflexivity|]. cbn [flat_map]. rewrite IH by (intros Y; apply X; right; auto). rewrite app_nil_r.
        unfold reads, try_read_latest. rewrite Honly; [reflexivity|]. intros ->. apply X. left; auto. }
      induction (export_names conf r reg) as [|u l IH]; [destruct Hin|]. inversion Hnd; subst. cbn [flat_map]. destruct Hin as [->|Hin].
      - rewrite N0 by auto. unfold reads. rewrite Hnew, out_message_spec. reflexivity.
      - rewrite IH by auto. assert (u <> t) by (intros ->; contradiction). unfold reads, try_read_latest. rewrite Honly by auto. reflexivity. }
    rewrite Et. cbn [export_all]. unfold export_one, fragment. rewrite W2. rewrite (proj2 (N.leb_le _ _)) by (unfold MAX_FRAGMENT_PAYLOAD; lia).
    cbn [fst snd export_fragments flat_map length]. rewrite !app_nil_r.
    set (pk := export_fragment _ _ _). assert (Epk : pk = pkt).
    { unfold pk, export_fragment, pkt. cbn [fr_count]. change (1 <? 1) with false. cbv iota.
      cbn [with_export r_disc r_seq]. f_equal. etransitivity; [|apply message_eta]. unfold frag_msg, meta_of.
      cbn [fr_meta fr_payload me_topic me_ts me_seq me_prio me_rel me_enc]. rewrite W2. reflexivity. }
    rewrite sends_copies, Epk. cbn [with_export r_disc r_flow].
    replace (length pkt =? 0)%nat with false.
    2:{ symmetry. apply Nat.eqb_neq. unfold pkt, encode_single. rewrite W2. rewrite (proj2 (N.ltb_ge _ _)) by lia.
        rewrite !app_length, encode_packet_header_length. lia. }
    rewrite wire_copies, W1, Es. split; [reflexivity|]. intros _.
    unfold wire_message. destruct (urgent_name t); reflexivity.
  Qed.
  (** A new message alone in the topics is read and latched, whatever its size. *)
  Lemma outbox_one tap r reg t idx p e : NoDup (d_readers (r_disc r)) -> In t (d_readers (r_disc r)) ->
    export_allowed (guard reg) t -> new_message r tap t idx p e -> (forall u, u <> t -> tap u = None) ->
    subscribers_of (d_peers (r_disc r)) t <> [] ->
    snd (read_all tap (export_names conf r reg) (r_last r)) = [(t, wire_message t p idx e)].
  Proof.
    intros Hn Hi He Hnew Honly Hs.
    pose proof (read_all_spec tap (export_names conf r reg) (r_last r) (NoDup_filter _ Hn)) as [-> _].
    assert (Hin : In t (export_names conf r reg)).
    { apply export_names_iff. split; auto. split; auto. destruct (subscribers_of _ t) as [|kp l] eqn:Es; [congruence|].
      exists (fst kp), (snd kp). apply subscribers_iff. rewrite Es. left. destruct kp; auto. }
    assert (Hnd : NoDup (export_names conf r reg)) by (apply NoDup_filter; auto).
    apply try_read_iff in Hnew. clear -Hin Hnd Hnew Honly.
    assert (N0 : forall l, ~ In t l -> flat_map (reads tap (r_last r)) l = []).
    { induction l as [|u l IH]; intros X; [reflexivity|]. cbn [flat_map]. rewrite IH by (intros Y; apply X; right; auto). rewrite app_nil_r.
      unfold reads, try_read_latest. rewrite Honly; [reflexivity|]. intros ->. apply X. left; auto. }
    induction (export_names conf r reg) as [|u l IH]; [destruct Hin|]. inversion Hnd; subst. cbn [flat_map]. destruct Hin as [->|Hin].
    - rewrite N0 by auto. unfold reads. rewrite Hnew, out_message_spec. reflexivity.
    - rewrite IH by auto. assert (u <> t) by (intros ->; contradiction). unfold reads, try_read_latest. rewrite Honly by auto. reflexivity.
  Qed.
  Lemma export_latched now tap r reg t idx p e : NoDup (d_readers (r_disc r)) -> In t (d_readers (r_disc r)) ->
    export_allowed (guard reg) t -> new_message r tap t idx p e -> (forall u, u <> t -> tap u = None) ->
    subscribers_of (d_peers (r_disc r)) t <> [] -> urgent_name t = true ->
    let r1 := fst (handle_export conf now reg tap r) in
    r_latch r1 = start_latch (k_ms now) (r_latch r) (topic_hash t) (idx mod 2 ^ 32) p /\ r_disc r1 = r_disc r /\ r_seq r1 < 2 ^ 32.
  Proof.
    intros Hn Hi He Hnew Honly Hs Hu r1. unfold r1, handle_export.
    pose proof (outbox_one tap r reg t idx p e Hn Hi He Hnew Honly Hs) as Ho.
    destruct (read_all _ _ _) as [last outbox]. cbn [snd] in Ho. subst outbox. cbn [export_all].
    unfold export_one. destruct (fragment _ _) as [fid frags]. cbn [fst]. unfold wire_message. rewrite Hu.
    cbn [om_rel om_topic om_seq om_payload with_export r_latch r_disc r_seq]. split; [reflexivity|]. split; [reflexivity|].
    apply N.mod_lt. discriminate.
  Qed.
  Lemma read_nothing tap names last : (forall u, tap u = None) -> read_all tap names last = (last, []).
  Proof.
    intros H. induction names as [|u l IH]; [reflexivity|]. cbn [read_all]. unfold try_read_latest. rewrite H. exact IH.
  Qed.
  Lemma resend_all_in topic sq payload k peer l : forall r, r_seq r < 2 ^ 32 -> In ((topic, sq), payload) l ->
    In (k, peer) (alive_peers (d_peers (r_disc r))) -> N.of_nat (length payload) <= 65500 ->
    exists q, q < 2 ^ 32 /\ In (RSend (data_addr peer) (encode_single (packet_header_new 0 (peer_id_hash (d_me (r_disc r))) q)
      (mkOut topic payload 0 sq Immediate Latched PodLe) 65536)) (snd (resend_all r l)).
  Proof.
    induction l as [|[[t' s'] p'] l IH]; intros r Hq; [intros []|]. intros Hin Hp Hl. cbn [resend_all].
    assert (M : (r_seq r + 1) mod 2 ^ 32 < 2 ^ 32) by (apply N.mod_lt; discriminate).
    specialize (IH (with_seq r ((r_seq r + 1) mod 2 ^ 32)) M).
    destruct (resend_all _ l) as [r2 o2]. cbn [snd] in *. destruct Hin as [Hin|Hin].
    - injection Hin as -> -> ->. exists (r_seq r). split; [exact Hq|]. apply in_app_iff. left.
      replace (length (encode_single _ _ _) =? 0)%nat with false.
      + apply in_map_iff. exists (k, peer). split; auto.
      + symmetry. apply Nat.eqb_neq. unfold encode_single. cbn [om_payload]. rewrite (proj2 (N.ltb_ge _ _)) by lia.
        rewrite !app_length, encode_packet_header_length. lia.
    - destruct IH as (q & Hq' & IH); auto. exists q. split; auto. apply in_app_iff. right. exact IH.
  Qed.
End Export.

Section Receive.
  Variable order : Peers -> Peers.
  Variable can_open : bytes -> bool.
  Variable conf : Conf.
  Local Notation pim := (process_incoming_message conf).
  Local Notation pms := (process_messages conf).
  Local Notation pkt := (process_packet order can_open conf).
  Local Notation guard reg := (mkGuard (c_import conf) (c_export conf) (Some reg)).

  Lemma area_of_single m : message_wf m -> message_area (encode_message_header (header_of m) ++ om_payload m) [m].
  Proof.
    intros (H1 & H2 & H3 & H4 & H5). rewrite <- (message_eta m) at 3.
    apply (message_area_one (header_of m) (om_payload m)).
    - unfold header_of. repeat split; cbn; auto; apply N.mod_lt; discriminate.
    - cbn. apply N.mod_small. auto.
  Qed.
  Lemma single_packet now reg from s q m r : u16 s -> u32 q -> message_wf m -> N.of_nat (length (om_payload m)) <= 65500 ->
    admits (c_filter conf) (fst from) = true ->
    pkt now reg from (encode_single (packet_header_new 0 s q) m 65536) r =
    let '(d, ms) := dedup_messages (r_dedup r) s [m] in pms now reg from s ms (with_dedup r d).
  Proof.
    intros Hs Hq Hm Hl Ad. unfold encode_single. rewrite (proj2 (N.ltb_ge _ _)) by lia.
    apply data_packet; auto. apply area_of_single; auto.
  Qed.
  Lemma with_dedup_same r : with_dedup r (r_dedup r) = r. Proof. destruct r; reflexivity. Qed.

  Definition seen (r : Repl) (s topic sq : N) : Prop := lookup pair_eqb (s, topic) (r_dedup r) = Some sq.
  Lemma seen_packet now reg from s q m r : u16 s -> u32 q -> message_wf m -> N.of_nat (length (om_payload m)) <= 65500 ->
    ~ on_reserved m -> seen r s (om_topic m) (om_seq m) ->
    pkt now reg from (encode_single (packet_header_new 0 s q) m 65536) r = Some (r, []).
  Proof.
    intros Hs Hq Hm Hl NR Se. destruct (admits (c_filter conf) (fst from)) eqn:Ad; [|apply outside_packet; auto].
    rewrite single_packet by auto. cbn [dedup_messages].
    assert (Sy : is_system_topic_hash (om_topic m) = false) by (apply not_true_iff_false; rewrite on_reserved_iff; auto).
    rewrite Sy. unfold is_new_message. rewrite Se. rewrite (proj2 (N.leb_le _ _)) by lia.
    assert (W : u32_wrapping_sub (om_seq m) (om_seq m) = 0).
    { unfold u32_wrapping_sub. replace (om_seq m + 2 ^ 32 - om_seq m) with (2 ^ 32) by lia. apply N.mod_same. discriminate. }
    rewrite W. cbn [andb]. change (0 <? U32_HALF) with true. cbv iota. cbn [process_messages]. rewrite with_dedup_same. reflexivity.
  Qed.
  Lemma new_packet now reg from s q m r r' out : u16 s -> u32 q -> message_wf m -> N.of_nat (length (om_payload m)) <= 65500 ->
    admits (c_filter conf) (fst from) = true -> ~ on_reserved m -> unseen r s (om_topic m) (om_seq m) ->
    pkt now reg from (encode_single (packet_header_new 0 s q) m 65536) r = Some (r', out) ->
    seen r' s (om_topic m) (om_seq m) /\ exists r0, r_disc r0 = r_disc r /\ r_seq r0 = r_seq r /\ pim now reg from s m r0 = Some (r', out).
  Proof.
    intros Hs Hq Hm Hl Ad NR Un E. rewrite single_packet in E by auto. cbn [dedup_messages] in E.
    assert (Sy : is_system_topic_hash (om_topic m) = false) by (apply not_true_iff_false; rewrite on_reserved_iff; auto).
    rewrite Sy in E. unfold is_new_message in E. unfold unseen in Un.
    assert (D : match lookup pair_eqb (s, om_topic m) (r_dedup r) with
             | Some last => (om_seq m <=? last) && (u32_wrapping_sub last (om_seq m) <? U32_HALF) | None => false end = false).
    { destruct (lookup _ _ _) as [last|]; auto. rewrite (proj2 (N.leb_gt _ _)) by auto. reflexivity. }
    rewrite D in E. cbn [process_messages] in E.
    destruct (pim now reg from s m _) as [[r1 o1]|] eqn:E1; [|discriminate]. rewrite app_nil_r in E. inv E.
    split.
    - pose proof (pim_cases _ _ _ _ _ _ _ _ _ E1) as (? & ? & _ & _ & _ & Dd & _). unfold seen. rewrite Dd. cbn [with_dedup r_dedup].
      apply lookup_insert_eq. apply pair_eqb_spec.
    - eexists. split; [|split; [|exact E1]]; reflexivity.
  Qed.

  (** Any number of copies, at any times: written once, acknowledged once. *)
  Lemma copies_seen from s q m reg l : forall r, u16 s -> u32 q -> message_wf m -> N.of_nat (length (om_payload m)) <= 65500 ->
    ~ on_reserved m -> seen r s (om_topic m) (om_seq m) ->
    (forall x, In x l -> snd x = encode_single (packet_header_new 0 s q) m 65536) ->
    outcome (rrun order can_open conf r (all_from from reg l)) = Some (r, []).
  Proof.
    induction l as [|[now b] l IH]; intros r Hs Hq Hm Hl NR Se Hx; [reflexivity|].
    cbn [all_from map fst snd rrun rstep]. rewrite (Hx (now, b) (or_introl eq_refl)) || (pose proof (Hx (now, b) (or_introl eq_refl)) as Eb; cbn [snd] in Eb; rewrite Eb).
    rewrite seen_packet by auto. specialize (IH r Hs Hq Hm Hl NR Se (fun x H => Hx x (or_intror H))).
    unfold all_from in IH. destruct (rrun _ _ _ r _) as [[r2 outs]|]; cbn [outcome option_map fst snd] in *; [|discriminate].
    cbn [concat app]. exact IH.
  Qed.
  Theorem copies_once from s q m reg l r r' out t : u16 s -> u32 q -> message_wf m -> N.of_nat (length (om_payload m)) <= 65500 ->
    admits (c_filter conf) (fst from) = true -> ~ on_reserved m -> om_topic m = topic_hash t ->
    only_writer (d_writers (r_disc r)) t -> import_allowed (guard reg) t -> ~ types_differ reg (d_peers (r_disc r)) from t ->
    unseen r s (om_topic m) (om_seq m) -> l <> [] ->
    (forall x, In x l -> snd x = encode_single (packet_header_new 0 s q) m 65536) ->
    outcome (rrun order can_open conf r (all_from from reg l)) = Some (r', out) ->
    writes out = [(t, snd (process_incoming_payload (om_payload m) (om_enc m) (length (om_payload m))))] /\
    sends out = match om_rel m with
                | Latched => [(from, encode_ack (peer_id_hash (d_me (r_disc r))) (r_seq r) (mkAP (om_topic m) (om_seq m)))]
                | _ => []
                end /\ halts out = [] /\ seen r' s (om_topic m) (om_seq m).
  Proof.
    intros Hs Hq Hm Hl Ad NR Et Ow Ia Td Un Hne Hx E. destruct l as [|[now b] l]; [congruence|]. clear Hne.
    pose proof (Hx (now, b) (or_introl eq_refl)) as Eb. cbn [snd] in Eb. subst b.
    cbn [all_from map fst snd rrun rstep] in E.
    destruct (pkt now reg from _ r) as [[r1 o1]|] eqn:E1; [|discriminate].
    apply new_packet in E1 as (Se & r0 & D0 & Q0 & E1); auto.
    assert (Ow' : only_writer (d_writers (r_disc r0)) t) by (rewrite D0; auto).
    assert (Td' : ~ types_differ reg (d_peers (r_disc r0)) from t) by (rewrite D0; auto).
    destruct (pim_complete can_open conf now reg from s m r0 r1 o1 t E1 NR Ow' Et Ia Td') as (W & _ & _ & Hh & S).
    pose proof (copies_seen from s q m reg l r1 Hs Hq Hm Hl NR Se (fun x H => Hx x (or_intror H))) as C. unfold all_from in C.
    destruct (rrun _ _ _ r1 _) as [[r2 outs]|]; cbn [outcome option_map fst snd] in *; [|discriminate].
    cbn [concat] in E. assert (Eo : out = o1) by (injection C as _ C2; rewrite C2, app_nil_r in E; congruence).
    assert (Er : r' = r1) by congruence. subst. rewrite W, S, Hh. rewrite D0, Q0. auto.
  Qed.

  (** An acknowledgement. *)
  Theorem ack_packet now reg from s q topic sq r : u16 s -> u32 q -> u32 topic -> u32 sq ->
    admits (c_filter conf) (fst from) = true ->
    pkt now reg from (encode_ack s q (mkAP topic sq)) r = Some (with_latch r (on_ack (r_latch r) topic sq), []).
  Proof.
    intros Hs Hq Ht Hsq Ad. unfold process_packet. rewrite Ad. cbn [negb].
    assert (D := proj1 (decode_encode_ack s q (mkAP topic sq) [] (conj Ht Hsq) Hs Hq)). rewrite app_nil_r in D.
    assert (Eh : encode_ack s q (mkAP topic sq) = encode_packet_header (packet_header_new 32 s q) ++ encode_ack_payload (mkAP topic sq)) by reflexivity.
    assert (Ef : decode_packet_header (encode_ack s q (mkAP topic sq)) = Some (packet_header_new 32 s q)).
    { rewrite Eh. apply decode_encode_packet_header. repeat split; auto; reflexivity. }
    rewrite Ef, D. rewrite Eh, C29_not_confused by (auto; reflexivity). cbn [ph_flags packet_header_new].
    change (has_flag 32 FLAG_HEARTBEAT) with false. change (has_flag 32 FLAG_ACK) with true. reflexivity.
  Qed.

  (** A framed emergency stop. *)
  Theorem stop_packet now reg from k host reason sent ph pseq sq buf r n r' out :
    c_key conf = Some k -> c_policy conf = PolicyWarn -> bytes_ok k -> N.of_nat (length k) < 2 ^ 61 -> bytes_ok reason ->
    host < 2 ^ 16 -> sent < 2 ^ 64 -> u16 ph -> u32 pseq -> u32 sq ->
    frame_system_topic ph pseq sq SYSTEM_TOPIC_ESTOP (encode_estop host reason (Some k) sent) = Some buf ->
    admits (c_filter conf) (fst from) = true -> fresh sent (k_wall now) ->
    estop_budget (r_estop r) n -> (n < 128)%nat ->
    pkt now reg from buf r = Some (r', out) -> halts out = [(host, firstn 200 reason)].
  Proof.
    intros Ek Ep Hk Hkl Hr Hh Hs Hph Hps Hsq Ef Ad Fr B Hn E.
    unfold frame_system_topic in Ef. destruct (_ <? _) eqn:El; [discriminate|].
    assert (Inj : forall a b : bytes, Some a = Some b -> a = b) by congruence. apply Inj in Ef. clear Inj. subst buf. apply N.ltb_ge in El.
    set (payload := encode_estop host reason (Some k) sent) in *.
    set (h := mkMH (topic_hash SYSTEM_TOPIC_ESTOP) (N.of_nat (length payload)) 0 sq (system_priority SYSTEM_TOPIC_ESTOP)
               (system_reliability SYSTEM_TOPIC_ESTOP) Bincode (ph mod 256)) in *.
    assert (Wf : message_header_wf h).
    { unfold h. repeat split; cbn [mh_topic mh_len mh_ts mh_seq mh_host]; auto.
      - unfold u32, MAX_UDP_PAYLOAD in *. lia.
      - apply N.mod_lt. discriminate. }
    erewrite data_packet in E; [|auto|auto|apply (message_area_one h payload Wf eq_refl)|auto].
    set (m := mkOut _ _ _ _ _ _ _) in E.
    cbn [dedup_messages] in E. change (is_system_topic_hash (om_topic m)) with true in E. cbv iota in E. rewrite with_dedup_same in E.
    cbn [process_messages] in E. destruct (pim now reg from ph m r) as [[r1 o1]|] eqn:E1; [|discriminate]. rewrite app_nil_r in E. inv E.
    assert (Ok : bytes_ok payload) by (apply encode_ok; auto).
    assert (Hkey : forall k0, c_key conf = Some k0 -> bytes_ok k0 /\ N.of_nat (length k0) < 2 ^ 61) by (rewrite Ek; intros k0 X; injection X as <-; auto).
    assert (Au : authentic_estop k payload host (firstn 200 reason) sent) by (apply encode_authentic; auto).
    pose proof (pim_stop conf _ _ _ _ _ _ _ _ _ E1 B) as (_ & _ & G).
    assert (Gs : genuine_stop (c_key conf) m = true).
    { unfold genuine_stop. change (om_topic m) with (topic_hash SYSTEM_TOPIC_ESTOP). rewrite hash_estop, N.eqb_refl.
      change (om_payload m) with payload. cbn [andb]. apply authentic_iff; auto. exists k, host, (firstn 200 reason), sent. auto. }
    rewrite (G Hn Gs). change (om_payload m) with payload. rewrite Ep.
    rewrite (proj2 (handle_iff payload PolicyWarn (c_key conf) (k_wall now) host (firstn 200 reason) Ok Hkey)); [reflexivity|].
    split; auto. exists k, sent. auto.
  Qed.
End Receive.

(** ** The socket *)
Definition settled (s : Sock) : Prop := so_drain s = None /\ so_edge s = false /\ so_queue s = [].
Definition sinv (s : Sock) : Prop :=
  (so_drain s = None -> so_edge s = false -> so_queue s = []) /\
  (forall n, so_drain s = Some n -> so_edge s = false -> (length (so_queue s) <= n)%nat).
Lemma sock_run_snoc evs e : sock_run (evs ++ [e]) = sock_step (sock_run evs) e.
Proof. unfold sock_run. rewrite fold_left_app. reflexivity. Qed.
Lemma arrived_app a b : arrived (a ++ b) = arrived a ++ arrived b. Proof. apply flat_map_app. Qed.
Lemma sock_order evs : so_read (sock_run evs) ++ so_queue (sock_run evs) = arrived evs.
Proof.
  induction evs as [|e evs IH] using List.rev_ind; [reflexivity|]. rewrite sock_run_snoc, arrived_app, <- IH.
  set (s := sock_run evs). destruct e as [d|]; cbn [sock_step arrived flat_map app].
  - cbn [so_read so_queue]. rewrite app_assoc. reflexivity.
  - rewrite app_nil_r. destruct (so_drain s) as [[|n]|]; [reflexivity| |destruct (so_edge s); reflexivity].
    destruct (so_queue s) as [|d q]; cbn [so_read so_queue]; [reflexivity|]. rewrite <- app_assoc. reflexivity.
Qed.
Lemma crowded_prefix a b : never_crowded (a ++ b) -> never_crowded a.
Proof.
  intros H k. destruct (Nat.leb_spec k (length a)).
  - specialize (H k). rewrite firstn_app in H. replace (k - length a)%nat with 0%nat in H by lia. cbn [firstn] in H. rewrite app_nil_r in H. auto.
  - rewrite firstn_all2 by lia. specialize (H (length a)). rewrite firstn_app, Nat.sub_diag, firstn_all in H. cbn [firstn] in H. rewrite app_nil_r in H. auto.
Qed.
Lemma crowded_now a : never_crowded a -> (length (so_queue (sock_run a)) <= 256)%nat.
Proof. intros H. specialize (H (length a)). rewrite firstn_all in H. auto. Qed.
Lemma sinv_run evs : never_crowded evs -> sinv (sock_run evs).
Proof.
  induction evs as [|e evs IH] using List.rev_ind; intros H.
  { split; [reflexivity|intros n E; discriminate]. }
  pose proof (crowded_prefix _ _ H) as H1. specialize (IH H1). pose proof (crowded_now _ H1) as Hc. rewrite sock_run_snoc.
  set (s := sock_run evs) in *. destruct IH as [I1 I2]. destruct e as [d|]; cbn [sock_step].
  - split; cbn [so_edge so_drain so_queue]; intros; discriminate.
  - destruct (so_drain s) as [[|n]|] eqn:Ed.
    + split; cbn [so_edge so_drain so_queue].
      * intros _ He. specialize (I2 _ eq_refl He). destruct (so_queue s); [reflexivity|simpl in I2; lia].
      * intros; discriminate.
    + destruct (so_queue s) as [|x q] eqn:Eq.
      * split; cbn [so_edge so_drain so_queue]; [reflexivity|intros; discriminate].
      * split; cbn [so_edge so_drain so_queue]; [intros; discriminate|]. intros m Em He. injection Em as <-. specialize (I2 _ eq_refl He).
        simpl in I2. lia.
    + destruct (so_edge s) eqn:Ee.
      * split; cbn [so_edge so_drain so_queue]; [intros; discriminate|]. intros m Em _. injection Em as <-. exact Hc.
      * split; [intros _ _; apply I1; reflexivity|]. rewrite Ed. intros; discriminate.
Qed.
(** Running the thread alone: how far it is from having nothing to do. *)
Definition todo (s : Sock) : nat :=
  match so_drain s with
  | None => if so_edge s then 259 else 0
  | Some n => S n + (if so_edge s then 259 else 0)
  end.
Lemma todo_step s : todo s <> 0%nat -> (todo (sock_step s SStep) < todo s)%nat.
Proof.
  unfold todo. cbn [sock_step]. destruct (so_drain s) as [[|n]|] eqn:Ed; cbn [so_drain so_edge].
  - destruct (so_edge s); lia.
  - destruct (so_queue s); cbn [so_drain so_edge]; destruct (so_edge s); lia.
  - destruct (so_edge s) eqn:Ee; [|congruence]. cbn [so_drain so_edge]. unfold MAX_DATAGRAMS_PER_WAKEUP. lia.
Qed.
Lemma steps_settle n : forall evs, (todo (sock_run evs) <= n)%nat -> todo (sock_run (evs ++ repeat SStep n)) = 0%nat.
Proof.
  induction n as [|n IH]; intros evs H; [cbn [repeat]; rewrite app_nil_r; lia|].
  cbn [repeat]. change (SStep :: repeat SStep n) with ([SStep] ++ repeat SStep n). rewrite app_assoc. apply IH. rewrite sock_run_snoc.
  destruct (todo (sock_run evs)) eqn:E.
  - unfold todo in *. cbn [sock_step]. destruct (so_drain (sock_run evs)) eqn:Ed; [discriminate|]. destruct (so_edge (sock_run evs)) eqn:Ee; [discriminate|]. rewrite Ed, Ee. lia.
  - pose proof (todo_step (sock_run evs)). lia.
Qed.
Lemma crowded_steps evs n : never_crowded evs -> never_crowded (evs ++ repeat SStep n).
Proof.
  intros H. induction n as [|n IH]; [cbn; rewrite app_nil_r; auto|].
  replace (S n) with (n + 1)%nat by lia. rewrite repeat_app, app_assoc. cbn [repeat].
  intros k. set (a := evs ++ repeat SStep n) in *.
  destruct (Nat.leb_spec k (length a)).
  - rewrite firstn_app. replace (k - length a)%nat with 0%nat by lia. cbn [firstn]. rewrite app_nil_r. apply IH.
  - rewrite firstn_all2 by (rewrite app_length; simpl; lia). rewrite sock_run_snoc. pose proof (crowded_now _ IH) as Hc.
    cbn [sock_step]. destruct (so_drain _) as [[|m]|]; cbn [so_queue]; auto.
    + destruct (so_queue (sock_run a)) as [|x q]; cbn [so_queue length] in *; lia.
    + destruct (so_edge _); auto.
Qed.
Theorem drained evs : never_crowded evs -> exists n, so_read (sock_run (evs ++ repeat SStep n)) = arrived evs.
Proof.
  intros H. exists (todo (sock_run evs)). set (evs' := evs ++ _).
  assert (E0 : todo (sock_run evs') = 0%nat) by (apply steps_settle; lia).
  pose proof (sinv_run evs' (crowded_steps _ _ H)) as [I _].
  unfold todo in E0. destruct (so_drain (sock_run evs')) eqn:Ed; [discriminate|]. destruct (so_edge (sock_run evs')) eqn:Ee; [discriminate|].
  pose proof (sock_order evs') as Ho. rewrite (I eq_refl eq_refl), app_nil_r in Ho. rewrite Ho. unfold evs'. rewrite arrived_app.
  assert (Z : forall n, arrived (repeat SStep n) = []) by (induction n; auto). rewrite Z, app_nil_r. reflexivity.
Qed.
(** 257 waiting datagrams: the last one stays unread however long the thread runs. *)
Lemma arrive_many l : forall s, so_drain s = None -> let s' := fold_left sock_step (map SArrive l) s in
  so_queue s' = so_queue s ++ l /\ so_drain s' = None /\ so_read s' = so_read s /\ (l <> [] -> so_edge s' = true).
Proof.
  induction l as [|d l IH]; intros s Hd; cbn zeta; [cbn; rewrite app_nil_r; tauto|]. cbn [map fold_left].
  specialize (IH (sock_step s (SArrive d)) Hd). cbn zeta in IH. destruct IH as (A & B & C & D). rewrite A, B, C. cbn [sock_step so_queue so_read].
  rewrite <- app_assoc. repeat split; auto. intros _. destruct l; [reflexivity|apply D; discriminate].
Qed.
Lemma read_many n : forall s, so_drain s = Some n -> (n <= length (so_queue s))%nat ->
  let s' := fold_left sock_step (repeat SStep n) s in
  so_drain s' = Some O /\ so_edge s' = so_edge s /\ so_queue s' = skipn n (so_queue s) /\ so_read s' = so_read s ++ firstn n (so_queue s).
Proof.
  induction n as [|n IH]; intros s Hd Hl; cbn zeta; [cbn; rewrite app_nil_r; auto|]. cbn [repeat fold_left sock_step]. rewrite Hd.
  destruct (so_queue s) as [|d q] eqn:Eq; [simpl in Hl; lia|].
  specialize (IH (mkSock q (so_edge s) (Some n) (so_read s ++ [d])) eq_refl). cbn zeta in IH. cbn [so_queue so_edge so_read] in IH.
  simpl in Hl. destruct IH as (A & B & C & D); [lia|]. rewrite A, B, C, D. cbn [skipn firstn]. rewrite <- app_assoc. auto.
Qed.
Lemma stuck_forever n : forall s, so_drain s = None -> so_edge s = false -> fold_left sock_step (repeat SStep n) s = s.
Proof.
  induction n as [|n IH]; intros s Hd He; [reflexivity|]. cbn [repeat fold_left sock_step]. rewrite Hd, He. auto.
Qed.
Lemma left_behind_cap c l d : c = MAX_DATAGRAMS_PER_WAKEUP -> length l = c -> forall n,
  ~ In d l -> let s := sock_run (map SArrive (l ++ [d]) ++ repeat SStep n) in ~ In d (so_read s).
Proof.
  intros Hc Hl n Hd. cbn zeta. unfold sock_run. rewrite fold_left_app.
  destruct (arrive_many (l ++ [d]) sock_new eq_refl) as (A & B & C & D). cbn zeta in *.
  set (s0 := fold_left sock_step (map SArrive (l ++ [d])) sock_new) in *. cbn [sock_new so_queue so_read app] in A, C.
  assert (Ee : so_edge s0 = true) by (apply D; destruct l; discriminate).
  assert (G : forall k, (k <= c)%nat -> so_read (fold_left sock_step (repeat SStep k) (mkSock (l ++ [d]) false (Some c) [])) = firstn k l).
  { intros k Hk. assert (X : forall j q m rd, (j <= m)%nat -> (j <= length q)%nat ->
        so_read (fold_left sock_step (repeat SStep j) (mkSock q false (Some m) rd)) = rd ++ firstn j q).
    { induction j as [|j IHj]; intros q m rd Hm Hq; [cbn; rewrite app_nil_r; auto|]. destruct m as [|m]; [lia|]. destruct q as [|x q]; [simpl in Hq; lia|].
      cbn [repeat fold_left sock_step so_drain so_queue so_edge so_read firstn]. rewrite IHj by (simpl in *; lia). rewrite <- app_assoc. reflexivity. }
    rewrite X by (rewrite ?app_length; simpl; lia). cbn [app]. rewrite firstn_app. replace (k - length l)%nat with 0%nat by lia.
    cbn [firstn]. rewrite app_nil_r. reflexivity. }
  destruct n as [|n].
  { cbn [repeat fold_left]. rewrite C. intros []. }
  cbn [repeat fold_left]. assert (E1 : sock_step s0 SStep = mkSock (l ++ [d]) false (Some c) []).
  { cbn [sock_step]. rewrite B, Ee, A, C, Hc. reflexivity. }
  rewrite E1. destruct (Nat.leb_spec n c).
  - rewrite G by auto. intros H0. apply Hd. rewrite <- (firstn_skipn n l). apply in_or_app. auto.
  - replace n with (c + S (n - S c))%nat by lia. rewrite repeat_app, fold_left_app.
    destruct (read_many c (mkSock (l ++ [d]) false (Some c) []) eq_refl) as (R1 & R2 & R3 & R4); [cbn [so_queue]; rewrite app_length; lia|].
    cbn zeta in *. set (s2 := fold_left sock_step (repeat SStep c) _) in *. cbn [so_queue so_edge so_read app] in R2, R3, R4.
    cbn [repeat fold_left]. assert (E2 : sock_step s2 SStep = mkSock (so_queue s2) false None (so_read s2)) by (cbn [sock_step]; rewrite R1, R2; reflexivity).
    rewrite E2, stuck_forever by reflexivity. cbn [so_read]. rewrite R4, firstn_app. replace (c - length l)%nat with 0%nat by lia.
    cbn [firstn]. rewrite app_nil_r. intros H0. apply Hd. rewrite <- (firstn_skipn c l). apply in_or_app. auto.
Qed.
Theorem left_behind l d : length l = 256%nat -> forall n,
  ~ In d l -> let s := sock_run (map SArrive (l ++ [d]) ++ repeat SStep n) in ~ In d (so_read s).
Proof. intros Hl. apply (left_behind_cap 256 l d eq_refl Hl). Qed.

(** ** Runs *)
From Verif.Spec Require Import DiscoverySpec.
From Verif.Proofs Require Import DiscoveryProofs.
Section Runs.
  Variable order : Peers -> Peers.
  Variable can_open : bytes -> bool.
  Variable conf : Conf.
  Lemma packet_disc now reg from buf r r' out : process_packet order can_open conf now reg from buf r = Some (r', out) ->
    r_disc r' = r_disc r \/ exists a, decode_announcement buf from = Some a /\ r_disc r' = on_announcement order can_open (k_mono now) reg a (r_disc r).
  Proof.
    unfold process_packet. intros E.
    destruct (admits _ _) eqn:Ad; cbn [negb] in E; [|inv E; auto].
    destruct (decode_announcement buf from); [inv E; right; eexists; split; [reflexivity|]; reflexivity|]. left.
    destruct (decode_packet_header buf) as [h|]; [|inv E; auto].
    destruct (has_flag _ FLAG_HEARTBEAT); [inv E; auto|].
    destruct (has_flag _ FLAG_ACK); [destruct (decode_ack buf); inv E; auto|].
    destruct (has_flag _ FLAG_FRAGMENT).
    - destruct (parse_fragment buf) as [f|]; [|inv E; auto].
      destruct (feed _ _ _) as [re [x|]]; [|inv E; auto].
      apply pim_cases in E as (? & ? & _ & _ & D & _); auto.
    - destruct (decode_packet buf) as [[h' ms]|]; [|inv E; auto].
      destruct (dedup_messages _ _ _) as [d ms']. apply pms_disc in E as [D _]; auto.
  Qed.
  Lemma timer_disc now reg tap second r :
    let r' := fst (handle_timer order can_open conf now reg tap second r) in
    r_disc r' = if second then fst (on_liveness order can_open (c_timeout conf) (k_mono now) reg (r_disc r)) else r_disc r.
  Proof.
    cbn zeta. unfold handle_timer, handle_export.
    destruct (read_all _ _ _) as [last outbox].
    pose proof (export_all_frame now outbox (with_export r (r_seq r) (r_frag r) last (r_latch r))) as (Fd & _).
    destruct (export_all now _ outbox) as [r1 out1]. cbn [fst] in Fd.
    destruct (tick_resends _ _) as [latch due].
    assert (Rs : forall l x, r_disc (fst (resend_all x l)) = r_disc x).
    { induction l as [|[[t q] p] l IH]; intros x; [reflexivity|]. cbn [resend_all].
      specialize (IH (with_seq x ((r_seq x + 1) mod 2 ^ 32))). destruct (resend_all _ l) as [r2 o2]. exact IH. }
    specialize (Rs due (with_latch r1 latch)). destruct (resend_all _ due) as [r2 out2]. cbn [fst] in *.
    destruct second; cbn; cbn in Rs; rewrite Rs, Fd; reflexivity.
  Qed.
  (** Something about discovery that every announcement and liveness check keeps, over the registries of a run. *)
  Lemma rrun_disc (Rg : Registry -> Prop) (Q : Disc -> Prop) :
    (forall t reg e d, Rg reg -> Q d -> Q (dstep order can_open (c_timeout conf) t reg e d)) ->
    forall h r r' outs, (forall x, In x h -> Rg (snd (fst x))) -> Q (r_disc r) ->
    rrun order can_open conf r h = Some (r', outs) -> Q (r_disc r').
  Proof.
    intros Hs. induction h as [|[[now reg] e] h IH]; intros r r' outs Hr Hq E; cbn [rrun] in E; [inv E; auto|].
    destruct (rstep _ _ _ r now reg e) as [[r1 out]|] eqn:E1; [|discriminate].
    destruct (rrun _ _ _ r1 h) as [[r2 outs2]|] eqn:E2; [|discriminate]. inv E.
    assert (Rr : Rg reg) by (apply (Hr (now, reg, e)); left; auto).
    apply (IH r1 _ _ (fun x H => Hr x (or_intror H))) in E2; auto.
    destruct e as [from buf|tap|tap second]; cbn [rstep] in E1.
    - apply packet_disc in E1 as [->|(a & _ & ->)]; auto. apply (Hs (k_mono now) reg (DAnnounce a)); auto.
    - injection E1 as E1. replace (r_disc r1) with (r_disc r); auto. unfold handle_export in E1. destruct (read_all _ _ _) as [last outbox].
      pose proof (export_all_frame now outbox (with_export r (r_seq r) (r_frag r) last (r_latch r))) as (Fd & _). rewrite E1 in Fd. symmetry. exact Fd.
    - injection E1 as E1. pose proof (timer_disc now reg tap second r) as T. rewrite E1 in T. cbn [fst] in T. cbn zeta in T. rewrite T.
      destruct second; auto. apply (Hs (k_mono now) reg DLiveness); auto.
  Qed.
  Lemma step_readers_ind (reg : Registry) (P : Peers -> list bytes -> list bytes -> Prop) t e d :
    (forall peers peers0 rs ws, P peers0 rs ws ->
     P peers (snd (fst (update_matches order can_open reg peers rs ws))) (snd (update_matches order can_open reg peers rs ws))) ->
    P (d_peers d) (d_readers d) (d_writers d) ->
    let d' := dstep order can_open (c_timeout conf) t reg e d in P (d_peers d') (d_readers d') (d_writers d').
  Proof. intros H Hd. apply (drun_ind order can_open (c_timeout conf) reg P H [(t, e)] d Hd). Qed.
End Runs.
Lemma add_name_NoDup n l : NoDup l -> NoDup (add_name n l).
Proof.
  intros H. unfold add_name. destruct (existsb (beqb n) l) eqn:E; auto.
  assert (Hn : ~ In n l).
  { intros Hi. apply not_true_iff_false in E. apply E. apply existsb_exists. exists n. split; auto. apply beqb_spec; auto. }
  clear E. induction l as [|x l IH]; [repeat constructor; auto|]. inversion H; subst. cbn [app]. constructor.
  - rewrite in_app_iff. intros [Hi|[->|[]]]; [contradiction|]; apply Hn; left; reflexivity.
  - apply IH; auto. intros Hi; apply Hn; right; auto.
Qed.
Lemma fold_add_NoDup (f : Match -> bool) ms : forall l, NoDup l -> NoDup (fold_left (fun rs m => if f m then add_name (ma_topic m) rs else rs) ms l).
Proof.
  induction ms as [|m ms IH]; intros l H; cbn [fold_left]; auto. apply IH. destruct (f m); auto. apply add_name_NoDup; auto.
Qed.
Lemma rrun_NoDup order can_open conf me secret t0 h r outs :
  rrun order can_open conf (repl_new me secret t0) h = Some (r, outs) -> NoDup (d_readers (r_disc r)).
Proof.
  apply (rrun_disc order can_open conf (fun _ => True) (fun d => NoDup (d_readers d))).
  - intros t reg e d _ H. apply (step_readers_ind order can_open conf reg (fun _ rs _ => NoDup rs) t e d); auto.
    intros peers _ rs ws Hr. unfold update_matches. cbv zeta. cbn [fst snd]. apply NoDup_filter, fold_add_NoDup. auto.
  - auto.
  - constructor.
Qed.
Lemma rrun_not_reader order can_open conf me secret t0 t h r outs : some_order order -> can_open t = true ->
  (forall x, In x h -> NoDup (keys (snd (fst x))) /\ exists e, In (t, e) (snd (fst x)) /\ te_role e = Subscriber) ->
  rrun order can_open conf (repl_new me secret t0) h = Some (r, outs) -> ~ In t (d_readers (r_disc r)).
Proof.
  intros Ho Hc Hr. apply (rrun_disc order can_open conf (fun reg => NoDup (keys reg) /\ exists e, In (t, e) reg /\ te_role e = Subscriber)
    (fun d => ~ In t (d_readers d))).
  - intros u reg e d (Hn & en & He & Hro) H. apply (step_readers_ind order can_open conf reg (fun _ rs _ => ~ In t rs) u e d); auto.
    intros peers _ rs ws Hrs. eapply update_subscriber; eauto.
  - exact Hr.
  - intros [].
Qed.
Lemma rrun_me order can_open conf me secret t0 h r outs :
  rrun order can_open conf (repl_new me secret t0) h = Some (r, outs) -> d_me (r_disc r) = me.
Proof.
  apply (rrun_disc order can_open conf (fun _ => True) (fun d => d_me d = me)); auto.
  intros t reg e d _ H. destruct e as [a|]; cbn [dstep].
  - unfold on_announcement. destruct (beqb (an_peer a) (d_me d)); auto. match goal with |- context [if ?b then d else _] => destruct b; auto end.
  - unfold on_liveness, check_liveness. destruct (map fst _); cbn [fst]; auto.
Qed.
