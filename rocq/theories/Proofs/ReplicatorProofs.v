From Verif.Base Require Import Prelude Bytes AMap Str.
From Verif.Model Require Import Wire Fragment Registry NetFilter NetPath Reliability FlowControl Guard Estop Discovery EncodingSwap Replicator.
From Verif.Spec Require Import WireSpec EstopSpec GuardSpec ReplicatorSpec.
From Verif.Proofs Require Import WireProofs GuardProofs NetFilterProofs NetPathProofs EstopProofs.
From Verif.Props Require Import DiscoveryProps.
Open Scope N_scope.

Lemma hash_presence : topic_hash SYSTEM_TOPIC_PRESENCE = 805275802. Proof. vm_compute. reflexivity. Qed.
Lemma hash_logs : topic_hash SYSTEM_TOPIC_LOGS = 2991736696. Proof. vm_compute. reflexivity. Qed.
Lemma hash_estop : topic_hash SYSTEM_TOPIC_ESTOP = 3040766866. Proof. vm_compute. reflexivity. Qed.

Lemma on_reserved_iff m : is_system_topic_hash (om_topic m) = true <-> on_reserved m.
Proof.
  unfold is_system_topic_hash, on_reserved. rewrite hash_presence, hash_logs, hash_estop.
  rewrite !orb_true_iff, !N.eqb_eq. tauto.
Qed.

Lemma writes_app a b : writes (a ++ b) = writes a ++ writes b. Proof. apply flat_map_app. Qed.
Lemma sends_app a b : sends (a ++ b) = sends a ++ sends b. Proof. apply flat_map_app. Qed.
Lemma taken_app a b : taken (a ++ b) = taken a ++ taken b. Proof. apply flat_map_app. Qed.
Lemma halts_app a b : halts (a ++ b) = halts a ++ halts b. Proof. apply flat_map_app. Qed.
Lemma In_writes t p out : In (t, p) (writes out) <-> In (RWrite t p) out.
Proof.
  unfold writes. rewrite in_flat_map. split.
  - intros (e & He & Hx). destruct e; try contradiction. destruct Hx as [Hx|[]]. injection Hx as <- <-. auto.
  - intros H. eexists. split; [exact H|left; auto].
Qed.
Lemma In_taken m out : In m (taken out) <-> In (RTaken m) out.
Proof.
  unfold taken. rewrite in_flat_map. split.
  - intros (e & He & Hx). destruct e; try contradiction. destruct Hx as [<-|[]]. auto.
  - intros H. eexists. split; [exact H|left; auto].
Qed.

Lemma writer_by_hash_some ws h t : writer_by_hash ws h = Some t -> In t ws /\ topic_hash t = h.
Proof. intros E. apply find_some in E as [E1 E2]. apply N.eqb_eq in E2. auto. Qed.
Lemma writer_by_hash_only ws t : only_writer ws t -> writer_by_hash ws (topic_hash t) = Some t.
Proof.
  intros [Hi Hu]. unfold writer_by_hash. destruct (find _ ws) as [u|] eqn:E.
  - apply find_some in E as [E1 E2]. apply N.eqb_eq in E2. rewrite (Hu u); auto.
  - exfalso. eapply find_none in E; [|exact Hi]. cbv beta in E. rewrite N.eqb_refl in E. discriminate.
Qed.

Lemma find_split {A} (f : A -> bool) l x : find f l = Some x <-> exists a b, l = a ++ x :: b /\ f x = true /\ forall y, In y a -> f y = false.
Proof.
  split.
  - induction l as [|z l IH]; [discriminate|]. cbn [find]. destruct (f z) eqn:E.
    + intros H. injection H as ->. exists [], l. split; auto. split; auto. intros y [].
    + intros H. destruct (IH H) as (a & b & -> & F & G). exists (z :: a), b. split; auto. split; auto. intros y [<-|Hy]; auto.
  - intros (a & b & -> & F & G). induction a as [|z a IH]; cbn [app find]; [rewrite F; auto|].
    rewrite (G z) by (left; auto). apply IH. intros y Hy. apply G. right; auto.
Qed.
Lemma ip_eqb_spec a b : ip_eqb a b = true <-> a = b.
Proof.
  destruct a, b; cbn [ip_eqb]; rewrite ?N.eqb_eq; split; intros H; try congruence; try discriminate.
Qed.
Lemma announced_iff peers from t h : announced_type_hash peers from t = Some h <-> announced_type peers from t h.
Proof.
  unfold announced_type_hash, announced_type. split.
  - destruct (find _ peers) as [[k p]|] eqn:E; [|discriminate]. apply find_split in E as (a & b & -> & F & G).
    destruct (find _ (pi_topics p)) as [w|] eqn:E2; [|discriminate]. cbn [option_map]. intros H. injection H as H.
    apply find_split in E2 as (ta & tb & T & TF & TG). exists a, k, p, b, ta, w, tb. cbn [snd] in F. apply ip_eqb_spec in F.
    split; auto. split; auto. split. { intros kp Hk Hf. apply G in Hk. apply ip_eqb_spec in Hf. congruence. }
    split; auto. split; [apply beqb_spec; auto|]. split; auto. intros w' Hw Hf. apply TG in Hw. apply beqb_spec in Hf. congruence.
  - intros (a & k & p & b & ta & w & tb & -> & F & G & T & TF & TH & TG).
    replace (find _ (a ++ (k, p) :: b)) with (Some (k, p)).
    + replace (find _ (pi_topics p)) with (Some w); [cbn; congruence|]. symmetry. apply find_split. exists ta, tb. split; auto.
      split; [apply beqb_spec; auto|]. intros y Hy. destruct (beqb _ t) eqn:E; auto. apply beqb_spec in E. exfalso. eapply TG; eauto.
    + symmetry. apply find_split. exists a, b. split; auto. split; [apply ip_eqb_spec; auto|]. intros y Hy. destruct (ip_eqb _ _) eqn:E; auto.
      apply ip_eqb_spec in E. exfalso. eapply G; eauto.
Qed.

Section R.
  Variable order : Peers -> Peers.
  Variable can_open : bytes -> bool.
  Variable conf : Conf.
  Local Notation pim := (process_incoming_message conf).
  Local Notation pms := (process_messages conf).
  Local Notation pkt := (process_packet order can_open conf).
  Local Notation guard reg := (mkGuard (c_import conf) (c_export conf) (Some reg)).

  Lemma refused_iff reg r from t :
    import_refused conf reg r from t = true <->
    ~ import_allowed (guard reg) t \/ types_differ reg (d_peers (r_disc r)) from t.
  Proof.
    unfold import_refused, types_differ. rewrite <- import_iff.
    destruct (allow_import _ t) eqn:A; cbn [negb]; [|split; auto; intros _; left; discriminate].
    destruct (lookup beqb t reg) as [e|] eqn:L.
    - rewrite !andb_true_iff, !negb_true_iff, !N.eqb_neq.
      destruct (announced_type_hash _ from t) as [h|] eqn:AH.
      + split.
        * intros [[H1 H2] H3]. right. exists e, h. rewrite <- announced_iff. auto.
        * intros [H|(e' & h' & H1 & H2 & H3)]; [congruence|]. apply announced_iff in H2. rewrite AH in H2. injection H1 as <-. injection H2 as <-. tauto.
      + split; [intros [[_ H] _]; congruence|]. intros [H|(e' & h' & H1 & H2 & H3)]; [congruence|]. apply announced_iff in H2. congruence.
    - split; [discriminate|]. intros [H|(e' & h' & H1 & H2)]; congruence.
  Qed.

  Lemma import_disc r from m : r_disc (fst (import r from m)) = r_disc r.
  Proof. unfold import. destruct (om_rel m); reflexivity. Qed.
  Lemma import_writes r from m :
    writes (snd (import r from m)) =
    match writer_by_hash (d_writers (r_disc r)) (om_topic m) with
    | Some name => [(name, snd (process_incoming_payload (om_payload m) (om_enc m) (length (om_payload m))))]
    | None => []
    end.
  Proof.
    unfold import. destruct (om_rel m); cbn [snd]; rewrite ?writes_app; destruct (writer_by_hash _ _); reflexivity.
  Qed.
  Lemma import_sends r from m :
    sends (snd (import r from m)) =
    match om_rel m with
    | Latched => [(from, encode_ack (peer_id_hash (d_me (r_disc r))) (r_seq r) (mkAP (om_topic m) (om_seq m)))]
    | _ => []
    end.
  Proof.
    unfold import. destruct (om_rel m); cbn [snd]; rewrite ?sends_app; destruct (writer_by_hash _ _); reflexivity.
  Qed.
  Lemma import_quiet r from m : halts (snd (import r from m)) = [] /\ taken (snd (import r from m)) = [].
  Proof.
    unfold import. destruct (om_rel m); cbn [snd]; rewrite ?halts_app, ?taken_app; destruct (writer_by_hash _ _); split; reflexivity.
  Qed.
  Lemma import_same r from m : r_estop (fst (import r from m)) = r_estop r /\ r_flow (fst (import r from m)) = r_flow r
    /\ r_dedup (fst (import r from m)) = r_dedup r /\ r_latch (fst (import r from m)) = r_latch r.
  Proof. unfold import. destruct (om_rel m); repeat split; reflexivity. Qed.

  (** What one message does. *)
  Lemma pim_cases now reg from s m r r' out : pim now reg from s m r = Some (r', out) ->
    exists flow rest, on_received (k_mono now) (r_flow r) s (om_topic m) (om_seq m) = Some flow /\ out = RTaken m :: rest /\
    r_disc r' = r_disc r /\ r_dedup r' = r_dedup r /\ r_flow r' = flow /\ r_latch r' = r_latch r /\ taken rest = [] /\
    ((on_reserved m /\ writes rest = [] /\ sends rest = []) \/
     (~ on_reserved m /\ halts rest = [] /\ r_estop r' = r_estop r /\
      ((exists t, writer_by_hash (d_writers (r_disc r)) (om_topic m) = Some t /\ import_refused conf reg r from t = true /\ rest = []) \/
       ((forall t, writer_by_hash (d_writers (r_disc r)) (om_topic m) = Some t -> import_refused conf reg r from t = false) /\
        rest = snd (import (with_flow r flow) from m) /\ r' = fst (import (with_flow r flow) from m))))).
  Proof.
    unfold process_incoming_message. destruct (on_received _ _ _ _ _) as [flow|]; [|discriminate].
    intros E. exists flow. rewrite hash_presence, hash_logs, hash_estop in E.
    destruct (om_topic m =? 805275802) eqn:H1.
    { destruct (bucket_take _ _) as [b ok]. cbn [fst snd] in E. inv E.
      eexists; split; [reflexivity|]; split; [reflexivity|]; repeat (split; [reflexivity|]); split; [destruct ok; reflexivity|].
      left; split; [left; apply N.eqb_eq; auto|]; destruct ok; split; reflexivity. }
    destruct (om_topic m =? 2991736696) eqn:H2.
    { destruct (bucket_take _ _) as [b ok]. cbn [fst snd] in E. inv E.
      eexists; split; [reflexivity|]; split; [reflexivity|]; repeat (split; [reflexivity|]); split; [destruct ok; reflexivity|].
      left; split; [right; left; apply N.eqb_eq; auto|]; destruct ok; split; reflexivity. }
    destruct (om_topic m =? 3040766866) eqn:H3.
    { assert (R : on_reserved m) by (right; right; apply N.eqb_eq; auto).
      destruct (negb _).
      { cbn [fst snd] in E. inv E.
        eexists; split; [reflexivity|]; split; [reflexivity|]; repeat (split; [reflexivity|]). left; auto. }
      destruct (bucket_take _ _) as [b ok]. cbn [fst snd] in E. inv E.
      eexists; split; [reflexivity|]; split; [reflexivity|]; repeat (split; [reflexivity|]).
      split; [destruct ok; [destruct (handle_remote_estop _ _ _ _) as [[? ?]|]|]; reflexivity|].
      left; split; auto. destruct ok; [destruct (handle_remote_estop _ _ _ _) as [[? ?]|]|]; split; reflexivity. }
    assert (R : ~ on_reserved m) by (intros [R|[R|R]]; rewrite R in *; discriminate).
    change (d_writers (r_disc (with_flow r flow))) with (d_writers (r_disc r)) in E.
    destruct (writer_by_hash _ _) as [t|] eqn:W.
    - change (import_refused conf reg (with_flow r flow) from t) with (import_refused conf reg r from t) in E.
      destruct (import_refused conf reg r from t) eqn:Rf.
      + cbn [fst snd] in E. inv E. eexists; split; [reflexivity|]; split; [reflexivity|]; repeat (split; [reflexivity|]).
        right. split; auto. split; [reflexivity|]. split; [reflexivity|]. left. eauto.
      + inv E. destruct (import_same (with_flow r flow) from m) as (S1 & S2 & S3 & S4).
        destruct (import_quiet (with_flow r flow) from m) as [Q1 Q2].
        eexists; split; [reflexivity|]; split; [reflexivity|]. rewrite import_disc, S1, S2, S3, S4.
        repeat (split; [reflexivity|]). split; auto. right. split; auto. split; auto. split; [reflexivity|].
        right. split; auto. intros t' Ht. injection Ht as <-. auto.
    - inv E. destruct (import_same (with_flow r flow) from m) as (S1 & S2 & S3 & S4).
      destruct (import_quiet (with_flow r flow) from m) as [Q1 Q2].
      eexists; split; [reflexivity|]; split; [reflexivity|]. rewrite import_disc, S1, S2, S3, S4.
      repeat (split; [reflexivity|]). split; auto. right. split; auto. split; auto. split; [reflexivity|].
      right. split; auto. intros t' Ht. discriminate.
  Qed.

  Definition sound_write reg peers writers from (ms : list InMessage) (t p : bytes) : Prop :=
    In t writers /\ import_allowed (guard reg) t /\ ~ types_differ reg peers from t /\
    exists m, In m ms /\ ~ on_reserved m /\ om_topic m = topic_hash t /\
              p = snd (process_incoming_payload (om_payload m) (om_enc m) (length (om_payload m))).

  Lemma pim_write now reg from s m r r' out t p : pim now reg from s m r = Some (r', out) -> In (t, p) (writes out) ->
    sound_write reg (d_peers (r_disc r)) (d_writers (r_disc r)) from (taken out) t p.
  Proof.
    intros E H. apply pim_cases in E as (flow & rest & _ & -> & _ & _ & _ & _ & _ & C).
    change (In (t, p) (writes rest)) in H.
    destruct C as [(_ & C & _)|(NR & _ & _ & [(u & _ & _ & ->)|(Hn & -> & _)])].
    - rewrite C in H. contradiction.
    - contradiction.
    - rewrite import_writes in H. change (d_writers (r_disc (with_flow r flow))) with (d_writers (r_disc r)) in H.
      destruct (writer_by_hash _ _) as [u|] eqn:W; [|contradiction].
      destruct H as [H|[]]. injection H as <- <-. specialize (Hn u eq_refl).
      assert (Hr : ~ (~ import_allowed (guard reg) u \/ types_differ reg (d_peers (r_disc r)) from u)).
      { rewrite <- refused_iff. congruence. }
      apply writer_by_hash_some in W as [W1 W2].
      split; auto. split.
      { apply import_iff. destruct (allow_import (guard reg) u) eqn:A; auto. exfalso. apply Hr. left.
        rewrite <- import_iff. congruence. }
      split; [tauto|]. exists m. split; [left; reflexivity|]. auto.
  Qed.

  Lemma pms_disc now reg from s ms : forall r r' out, pms now reg from s ms r = Some (r', out) ->
    r_disc r' = r_disc r /\ taken out = ms.
  Proof.
    induction ms as [|m ms IH]; cbn [process_messages]; intros r r' out E; [inv E; auto|].
    destruct (pim now reg from s m r) as [[r1 o1]|] eqn:E1; [|discriminate].
    destruct (pms now reg from s ms r1) as [[r2 o2]|] eqn:E2; [|discriminate]. inv E.
    apply IH in E2 as [D T]. apply pim_cases in E1 as (flow & rest & _ & -> & D1 & _ & _ & _ & Tr & _).
    split; [congruence|]. rewrite taken_app. change (taken (RTaken m :: rest)) with (m :: taken rest). rewrite Tr, T. auto.
  Qed.
  Lemma pms_write now reg from s ms : forall r r' out t p, pms now reg from s ms r = Some (r', out) -> In (t, p) (writes out) ->
    sound_write reg (d_peers (r_disc r)) (d_writers (r_disc r)) from (taken out) t p.
  Proof.
    induction ms as [|m ms IH]; cbn [process_messages]; intros r r' out t p E H; [inv E; contradiction|].
    destruct (pim now reg from s m r) as [[r1 o1]|] eqn:E1; [|discriminate].
    destruct (pms now reg from s ms r1) as [[r2 o2]|] eqn:E2; [|discriminate]. inv E.
    assert (D1 : r_disc r1 = r_disc r) by (apply pim_cases in E1 as (? & ? & _ & _ & D1 & _); auto).
    rewrite writes_app, in_app_iff in H. rewrite taken_app.
    destruct H as [H|H].
    - destruct (pim_write _ _ _ _ _ _ _ _ _ _ E1 H) as (A1 & A2 & A3 & m' & A4 & A5).
      split; auto. split; auto. split; auto. exists m'. rewrite in_app_iff. auto.
    - destruct (IH _ _ _ _ _ E2 H) as (A1 & A2 & A3 & m' & A4 & A5). rewrite D1 in A1, A3.
      split; auto. split; auto. split; auto. exists m'. rewrite in_app_iff. auto.
  Qed.

  Lemma packet_write now reg from buf r r' out t p : pkt now reg from buf r = Some (r', out) -> In (t, p) (writes out) ->
    admits (c_filter conf) (fst from) = true /\
    sound_write reg (d_peers (r_disc r)) (d_writers (r_disc r)) from (taken out) t p.
  Proof.
    unfold process_packet. destruct (admits _ _); cbn [negb]; [|intros E; inv E; contradiction].
    destruct (decode_announcement buf from); [intros E; inv E; contradiction|].
    destruct (decode_packet_header buf) as [h|]; [|intros E; inv E; contradiction].
    destruct (has_flag _ FLAG_HEARTBEAT); [intros E; inv E; contradiction|].
    destruct (has_flag _ FLAG_ACK); [destruct (decode_ack buf); intros E; inv E; contradiction|].
    destruct (has_flag _ FLAG_FRAGMENT).
    - destruct (parse_fragment buf) as [f|]; [|intros E; inv E; contradiction].
      destruct (feed _ _ _) as [re [x|]]; [|intros E; inv E; contradiction].
      intros E H. split; auto. exact (pim_write _ _ _ _ _ _ _ _ _ _ E H).
    - destruct (decode_packet buf) as [[h' ms]|]; [|intros E; inv E; contradiction].
      destruct (dedup_messages _ _ _) as [d ms'].
      intros E H. split; auto. exact (pms_write _ _ _ _ _ _ _ _ _ _ E H).
  Qed.

  Lemma dedup_In d s ms : forall m, In m (snd (dedup_messages d s ms)) -> In m ms.
  Proof.
    revert d. induction ms as [|x ms IH]; intros d m; cbn [dedup_messages]; [auto|].
    destruct (is_system_topic_hash _).
    - specialize (IH d). destruct (dedup_messages d s ms) as [d1 o]. cbn [snd] in *. intros [<-|H]; [left|right]; auto.
    - destruct (is_new_message d s _ _) as [d1 keep]. specialize (IH d1). destruct (dedup_messages d1 s ms) as [d2 o].
      cbn [snd] in *. destruct keep; [intros [<-|H]; [left|right]; auto|right; auto].
  Qed.
  Lemma packet_taken now reg from buf r r' out m : pkt now reg from buf r = Some (r', out) -> In m (taken out) ->
    admits (c_filter conf) (fst from) = true /\
    (has_flag (get_le 5 1 buf) FLAG_FRAGMENT = false -> carries buf m).
  Proof.
    unfold process_packet. destruct (admits _ _); cbn [negb]; [|intros E; inv E; contradiction].
    destruct (decode_announcement buf from); [intros E; inv E; contradiction|].
    destruct (decode_packet_header buf) as [h|] eqn:Eh; [|intros E; inv E; contradiction].
    assert (Fl : ph_flags h = get_le 5 1 buf).
    { apply decode_packet_header_sound in Eh. destruct Eh as (_ & _ & _ & _ & _ & F & _). rewrite F, le_value_dec. reflexivity. }
    destruct (has_flag _ FLAG_HEARTBEAT); [intros E; inv E; contradiction|].
    destruct (has_flag _ FLAG_ACK); [destruct (decode_ack buf); intros E; inv E; contradiction|].
    rewrite <- Fl.
    destruct (has_flag _ FLAG_FRAGMENT).
    - intros E H. split; auto. discriminate.
    - destruct (decode_packet buf) as [[h' ms]|] eqn:Ed; [|intros E; inv E; contradiction].
      destruct (dedup_messages _ _ _) as [d ms'] eqn:Em.
      intros E H. split; auto. intros _. apply pms_disc in E as [_ T]. rewrite T in H.
      assert (Hin : In m ms).
      { apply (dedup_In (r_dedup r) (ph_sender h)). rewrite Em. auto. }
      apply decode_packet_grammar in Ed. destruct Ed as [[_ G]|[_ ->]]; [|contradiction]. exists ms. auto.
  Qed.

  Lemma outside_packet now reg from buf r : admits (c_filter conf) (fst from) = false -> pkt now reg from buf r = Some (r, []).
  Proof. intros H. unfold process_packet. rewrite H. reflexivity. Qed.
  Lemma outside_run h : forall r,
    outcome (rrun order can_open conf r h) =
    outcome (rrun order can_open conf r (filter (fun x => negb (from_outside (c_filter conf) (snd x))) h)).
  Proof.
    induction h as [|[[now reg] e] h IH]; intros r; [reflexivity|].
    cbn [filter snd]. destruct (from_outside _ e) eqn:F; cbn [negb].
    - rewrite <- IH. destruct e; try discriminate. cbn [from_outside] in F. apply negb_true_iff in F.
      cbn [rrun rstep]. rewrite outside_packet by auto.
      destruct (rrun _ _ _ r h) as [[r2 outs]|]; reflexivity.
    - cbn [rrun]. destruct (rstep _ _ _ r now reg e) as [[r1 out]|]; [|reflexivity].
      specialize (IH r1). destruct (rrun _ _ _ r1 h) as [[r2 outs]|], (rrun _ _ _ r1 (filter _ h)) as [[r3 outs3]|];
        cbn [outcome option_map fst snd concat] in *; try discriminate; auto. injection IH as -> ->. reflexivity.
  Qed.

  Lemma pim_complete now reg from s m r r' out t : pim now reg from s m r = Some (r', out) -> ~ on_reserved m ->
    only_writer (d_writers (r_disc r)) t -> om_topic m = topic_hash t ->
    import_allowed (guard reg) t -> ~ types_differ reg (d_peers (r_disc r)) from t ->
    writes out = [(t, snd (process_incoming_payload (om_payload m) (om_enc m) (length (om_payload m))))] /\
    r_disc r' = r_disc r /\ r_dedup r' = r_dedup r /\ halts out = [] /\
    sends out = match om_rel m with
                | Latched => [(from, encode_ack (peer_id_hash (d_me (r_disc r))) (r_seq r) (mkAP (om_topic m) (om_seq m)))]
                | _ => []
                end.
  Proof.
    intros E NR Ow Et Ia Td. apply pim_cases in E as (flow & rest & _ & -> & D & Dd & _ & _ & _ & C).
    assert (W : writer_by_hash (d_writers (r_disc r)) (om_topic m) = Some t) by (rewrite Et; apply writer_by_hash_only; auto).
    assert (Rf : import_refused conf reg r from t = false).
    { destruct (import_refused conf reg r from t) eqn:Rf; auto. exfalso. apply refused_iff in Rf. tauto. }
    destruct C as [[R _]|(_ & Hh & _ & [(u & W' & Rf' & _)|(_ & -> & _)])]; [tauto|congruence|].
    split.
    { change (writes (snd (import (with_flow r flow) from m)) = [(t, snd (process_incoming_payload (om_payload m) (om_enc m) (length (om_payload m))))]).
      rewrite import_writes. change (d_writers (r_disc (with_flow r flow))) with (d_writers (r_disc r)). rewrite W. reflexivity. }
    split; auto. split; auto. split; auto.
    exact (import_sends (with_flow r flow) from m).
  Qed.

  (** An unfragmented data packet. *)
  Lemma data_packet now reg from s q area ms r : u16 s -> u32 q -> message_area area ms ->
    admits (c_filter conf) (fst from) = true ->
    pkt now reg from (encode_packet_header (packet_header_new 0 s q) ++ area) r =
    let '(d, ms') := dedup_messages (r_dedup r) s ms in pms now reg from s ms' (with_dedup r d).
  Proof.
    intros Hs Hq Ha Ad. unfold process_packet. rewrite Ad. cbn [negb].
    rewrite C29_not_confused by (auto; reflexivity).
    assert (Wf : packet_header_wf (packet_header_new 0 s q)) by (repeat split; auto).
    rewrite decode_encode_packet_header by auto. cbn [ph_flags ph_sender packet_header_new].
    change (has_flag 0 FLAG_HEARTBEAT) with false. change (has_flag 0 FLAG_ACK) with false. change (has_flag 0 FLAG_FRAGMENT) with false.
    cbv iota.
    destruct (decode_packet _) as [[h' ms']|] eqn:E.
    - pose proof E as E'. unfold decode_packet in E'. rewrite decode_encode_packet_header in E' by auto.
      cbn [ph_flags packet_header_new] in E'. change (has_flag 0 FLAG_HEARTBEAT || has_flag 0 FLAG_ACK) with false in E'. cbv iota in E'.
      rewrite skipn_encode_header in E'.
      assert (M : message_area area ms').
      { remember (length _) as fuel eqn:Ef. assert (Hm : decode_messages fuel area = ms') by congruence. rewrite <- Hm.
        apply decode_messages_fuel. rewrite Ef, app_length. lia. }
      rewrite (message_area_det _ _ _ M Ha). reflexivity.
    - unfold decode_packet in E. rewrite decode_encode_packet_header in E by auto.
      cbn [ph_flags packet_header_new] in E. change (has_flag 0 FLAG_HEARTBEAT || has_flag 0 FLAG_ACK) with false in E. discriminate.
  Qed.
End R.

Lemma message_area_one h payload : message_header_wf h -> mh_len h = N.of_nat (length payload) ->
  message_area (encode_message_header h ++ payload)
    [mkOut (mh_topic h) payload (mh_ts h) (mh_seq h) (mh_prio h) (mh_rel h) (mh_enc h)].
Proof.
  intros Wf Hl.
  pose proof (decode_encode_message_header h [] Wf) as Hd. rewrite app_nil_r in Hd.
  unfold decode_message_header in Hd. rewrite encode_message_header_length in Hd. change (24 <? 24)%nat with false in Hd. cbv iota in Hd.
  assert (Hg : forall i k, get_le i k (encode_message_header h) = le_value (slice i k (encode_message_header h))).
  { intros; rewrite le_value_dec; reflexivity. }
  rewrite <- (app_nil_r payload) at 1.
  assert (F : forall x, Some x = Some h -> x = h) by congruence. apply F in Hd. clear F.
  pose proof (eq_sym (f_equal mh_topic Hd)) as F1. pose proof (eq_sym (f_equal mh_len Hd)) as F2.
  pose proof (eq_sym (f_equal mh_ts Hd)) as F3. pose proof (eq_sym (f_equal mh_seq Hd)) as F4.
  pose proof (eq_sym (f_equal mh_prio Hd)) as F5. pose proof (eq_sym (f_equal mh_rel Hd)) as F6. pose proof (eq_sym (f_equal mh_enc Hd)) as F7.
  cbn [mh_topic mh_len mh_ts mh_seq mh_prio mh_rel mh_enc] in F1, F2, F3, F4, F5, F6, F7.
  apply ma_cons; rewrite <- ?Hg; cbn [om_topic om_ts om_seq om_prio om_rel om_enc om_payload]; auto.
  - congruence.
  - apply ma_short. simpl. lia.
Qed.

(** ** Emergency stops *)
Definition estop_budget (b : Bucket) (n : nat) : Prop :=
  b_cap b = 128 /\ b_rate b = 64 /\ 128 * TOKEN <= b_tokens b + N.of_nat n * TOKEN.
Lemma take_budget now b n : estop_budget b n -> estop_budget (fst (bucket_take now b)) (S n) /\
  ((n < 128)%nat -> snd (bucket_take now b) = true).
Proof.
  intros (Hc & Hr & Ht).
  assert (R : estop_budget (bucket_refill now b) n).
  { unfold bucket_refill. destruct (now - b_last b =? 0); [repeat split; auto|]. unfold estop_budget. cbn [b_cap b_rate b_tokens].
    rewrite Hc. split; auto. split; auto. lia. }
  destruct R as (Rc & Rr & Rt). unfold bucket_take. destruct (TOKEN <=? b_tokens (bucket_refill now b)) eqn:E; cbn [fst snd].
  - split; auto. unfold estop_budget. cbn [b_cap b_rate b_tokens]. apply N.leb_le in E. repeat split; auto. lia.
  - apply N.leb_gt in E. split; [unfold estop_budget; repeat split; auto; lia|]. intros Hn. exfalso. unfold TOKEN in *. lia.
Qed.
Lemma budget_mono b n m : (n <= m)%nat -> estop_budget b n -> estop_budget b m.
Proof. intros H (A & B & C). repeat split; auto. nia. Qed.

Lemma stops_app k a b : stops_taken k (a ++ b) = (stops_taken k a + stops_taken k b)%nat.
Proof. unfold stops_taken. rewrite taken_app, filter_app, app_length. auto. Qed.
Lemma stops_one k m rest : taken rest = [] -> stops_taken k (RTaken m :: rest) = if genuine_stop k m then 1%nat else 0%nat.
Proof. intros H. unfold stops_taken. change (taken (RTaken m :: rest)) with (m :: taken rest). rewrite H. cbn [filter]. destruct (genuine_stop k m); reflexivity. Qed.

Section E.
  Variable order : Peers -> Peers.
  Variable can_open : bytes -> bool.
  Variable conf : Conf.
  Local Notation pim := (process_incoming_message conf).
  Local Notation pms := (process_messages conf).
  Local Notation pkt := (process_packet order can_open conf).

  Lemma pim_stop now reg from s m r r' out n : pim now reg from s m r = Some (r', out) -> estop_budget (r_estop r) n ->
    estop_budget (r_estop r') (n + stops_taken (c_key conf) out) /\
    (forall h t, In (h, t) (halts out) -> om_topic m = 3040766866 /\ handle_remote_estop (om_payload m) (c_policy conf) (c_key conf) (k_wall now) = Some (h, t)) /\
    ((n < 128)%nat -> genuine_stop (c_key conf) m = true ->
       halts out = match handle_remote_estop (om_payload m) (c_policy conf) (c_key conf) (k_wall now) with Some x => [x] | None => [] end).
  Proof.
    intros E B.
    destruct (om_topic m =? 3040766866) eqn:Ht.
    - unfold process_incoming_message in E. destruct (on_received _ _ _ _ _) as [flow|]; [|discriminate].
      rewrite hash_presence, hash_logs, hash_estop in E. rewrite Ht in E.
      assert (Hn : om_topic m = 3040766866) by (apply N.eqb_eq; auto).
      replace (om_topic m =? 805275802) with false in E by (rewrite Hn; reflexivity).
      replace (om_topic m =? 2991736696) with false in E by (rewrite Hn; reflexivity).
      destruct (estop_packet_is_authentic _ _) eqn:A; cbn [negb] in E.
      + pose proof (take_budget (k_mono now) (r_estop r) n B) as [B1 B2].
        change (r_estop (with_flow r flow)) with (r_estop r) in E.
        destruct (bucket_take (k_mono now) (r_estop r)) as [b ok] eqn:Eb. cbn [fst snd] in E, B1, B2. inv E.
        assert (G : genuine_stop (c_key conf) m = true) by (unfold genuine_stop; rewrite Ht, A; reflexivity).
        rewrite stops_one, G by (destruct ok; [destruct (handle_remote_estop _ _ _ _) as [[? ?]|]|]; reflexivity).
        split; [replace (n + 1)%nat with (S n) by lia; exact B1|]. split.
        * intros h t H. split; auto. destruct ok; [|contradiction].
          destruct (handle_remote_estop _ _ _ _) as [[h' t']|]; [|contradiction]. destruct H as [H|[]]. injection H as <- <-. reflexivity.
        * intros Hl _. rewrite (B2 Hl). destruct (handle_remote_estop _ _ _ _) as [[h' t']|]; reflexivity.
      + cbn [fst snd] in E. inv E.
        assert (G : genuine_stop (c_key conf) m = false) by (unfold genuine_stop; rewrite A; apply andb_false_r).
        rewrite stops_one, G by reflexivity. split; [rewrite Nat.add_0_r; exact B|]. split; [intros h t []|congruence].
    - assert (G : genuine_stop (c_key conf) m = false) by (unfold genuine_stop; rewrite Ht; reflexivity).
      assert (Hs : forall rest, out = RTaken m :: rest -> taken rest = [] -> halts rest = [] -> r_estop r' = r_estop r ->
        estop_budget (r_estop r') (n + stops_taken (c_key conf) out) /\
        (forall h t, In (h, t) (halts out) -> om_topic m = 3040766866 /\ handle_remote_estop (om_payload m) (c_policy conf) (c_key conf) (k_wall now) = Some (h, t)) /\
        ((n < 128)%nat -> genuine_stop (c_key conf) m = true ->
           halts out = match handle_remote_estop (om_payload m) (c_policy conf) (c_key conf) (k_wall now) with Some x => [x] | None => [] end)).
      { intros rest -> Tr Hr Er. rewrite stops_one, G, Nat.add_0_r, Er by auto. split; auto.
        change (halts (RTaken m :: rest)) with (halts rest). rewrite Hr. split; [intros h t []|congruence]. }
      pose proof (pim_cases _ _ _ _ _ _ _ _ _ E) as (flow & rest & _ & Eo & _ & _ & _ & _ & Tr & C).
      destruct C as [(R & W & S)|(_ & Hh & Er & _)]; [|apply (Hs rest); auto].
      (* presence or logs *)
      unfold process_incoming_message in E. destruct (on_received _ _ _ _ _) as [flow'|]; [|discriminate].
      rewrite hash_presence, hash_logs, hash_estop, Ht in E.
      destruct (om_topic m =? 805275802) eqn:H1.
      { destruct (bucket_take _ _) as [b ok]. cbn [fst snd] in E.
        assert (rest = if ok then [RPresence (om_payload m)] else []) by congruence. assert (r' = with_presence (with_flow r flow') b) by congruence.
        subst. apply (Hs _ eq_refl); auto; destruct ok; reflexivity. }
      destruct (om_topic m =? 2991736696) eqn:H2.
      { destruct (bucket_take _ _) as [b ok]. cbn [fst snd] in E.
        assert (rest = if ok then [RLogs (om_payload m)] else []) by congruence. assert (r' = with_logs (with_flow r flow') b) by congruence.
        subst. apply (Hs _ eq_refl); auto; destruct ok; reflexivity. }
      exfalso. apply N.eqb_neq in H1, H2, Ht. destruct R as [R|[R|R]]; contradiction.
  Qed.
  Lemma pms_stop now reg from s ms : forall r r' out n, pms now reg from s ms r = Some (r', out) -> estop_budget (r_estop r) n ->
    estop_budget (r_estop r') (n + stops_taken (c_key conf) out) /\
    (forall h t, In (h, t) (halts out) -> exists m, In m (taken out) /\ om_topic m = 3040766866 /\
       handle_remote_estop (om_payload m) (c_policy conf) (c_key conf) (k_wall now) = Some (h, t)).
  Proof.
    induction ms as [|m ms IH]; cbn [process_messages]; intros r r' out n E B.
    { inv E. split; [rewrite Nat.add_0_r; auto|intros h t []]. }
    destruct (pim now reg from s m r) as [[r1 o1]|] eqn:E1; [|discriminate].
    destruct (pms now reg from s ms r1) as [[r2 o2]|] eqn:E2; [|discriminate]. inv E.
    destruct (pim_stop _ _ _ _ _ _ _ _ _ E1 B) as (B1 & S1 & _). destruct (IH _ _ _ _ E2 B1) as (B2 & S2).
    rewrite stops_app, Nat.add_assoc. split; auto.
    intros h t H. rewrite halts_app, in_app_iff in H. setoid_rewrite taken_app. destruct H as [H|H].
    - destruct (S1 _ _ H) as [A1 A2]. exists m. split; [|auto]. rewrite in_app_iff. left.
      apply pim_cases in E1 as (? & ? & _ & -> & _). left; reflexivity.
    - destruct (S2 _ _ H) as (m' & A1 & A2). exists m'. rewrite in_app_iff. auto.
  Qed.
  Lemma packet_stop now reg from buf r r' out n : pkt now reg from buf r = Some (r', out) -> estop_budget (r_estop r) n ->
    estop_budget (r_estop r') (n + stops_taken (c_key conf) out) /\
    (forall h t, In (h, t) (halts out) -> admits (c_filter conf) (fst from) = true /\
       exists m, In m (taken out) /\ om_topic m = 3040766866 /\
       handle_remote_estop (om_payload m) (c_policy conf) (c_key conf) (k_wall now) = Some (h, t)).
  Proof.
    unfold process_packet. intros E B.
    assert (Nil : forall x, Some (x, []) = Some (r', out) -> r_estop x = r_estop r ->
      estop_budget (r_estop r') (n + stops_taken (c_key conf) out) /\
      (forall h t, In (h, t) (halts out) -> admits (c_filter conf) (fst from) = true /\
       exists m, In m (taken out) /\ om_topic m = 3040766866 /\
       handle_remote_estop (om_payload m) (c_policy conf) (c_key conf) (k_wall now) = Some (h, t))).
    { intros x Ex Er. inv Ex. rewrite Nat.add_0_r, Er. split; auto. intros h t []. }
    destruct (admits _ _) eqn:Ad; cbn [negb] in E; [|apply (Nil _ E); reflexivity].
    destruct (decode_announcement buf from); [apply (Nil _ E); reflexivity|].
    destruct (decode_packet_header buf) as [h|]; [|apply (Nil _ E); reflexivity].
    destruct (has_flag _ FLAG_HEARTBEAT); [apply (Nil _ E); reflexivity|].
    destruct (has_flag _ FLAG_ACK); [destruct (decode_ack buf); apply (Nil _ E); reflexivity|].
    destruct (has_flag _ FLAG_FRAGMENT).
    - destruct (parse_fragment buf) as [f|]; [|apply (Nil _ E); reflexivity].
      destruct (feed _ _ _) as [re [x|]]; [|apply (Nil _ E); reflexivity].
      destruct (pim_stop _ _ _ _ _ _ _ _ n E) as (B1 & S1 & _); auto.
      split; auto. intros h' t H. split; auto. destruct (S1 _ _ H) as [A1 A2]. exists (reassembled_msg x).
      split; auto. apply pim_cases in E as (? & ? & _ & -> & _). left; reflexivity.
    - destruct (decode_packet buf) as [[h' ms]|]; [|apply (Nil _ E); reflexivity].
      destruct (dedup_messages _ _ _) as [d ms'].
      destruct (pms_stop _ _ _ _ _ _ _ _ n E) as (B1 & S1); auto.
  Qed.

  Lemma export_all_estop now l : forall r, r_estop (fst (export_all now r l)) = r_estop r.
  Proof.
    induction l as [|[nm m] l IH]; intros r; [reflexivity|]. cbn [export_all]. unfold export_one.
    destruct (fragment (r_frag r) m) as [fid frags].
    set (r1 := with_export _ _ _ _ _). specialize (IH r1). destruct (export_all now r1 l) as [r2 o2]. exact IH.
  Qed.
  Lemma export_all_quiet now l : forall r e, In e (snd (export_all now r l)) -> exists a p, e = RSend a p.
  Proof.
    induction l as [|[nm m] l IH]; intros r e; [intros []|]. cbn [export_all]. unfold export_one.
    destruct (fragment (r_frag r) m) as [fid frags].
    set (r1 := with_export _ _ _ _ _). specialize (IH r1 e). destruct (export_all now r1 l) as [r2 o2]. cbn [snd] in *.
    rewrite in_app_iff. intros [H|H]; auto. apply in_flat_map in H as (p & _ & H). unfold send_copies in H.
    destruct (_ =? _)%nat; [contradiction|]. apply in_flat_map in H as (_ & _ & H). apply in_flat_map in H as (kp & _ & H).
    destruct (transmit_allowed _ _ _ _); [|contradiction]. destruct H as [<-|[]]. eauto.
  Qed.
  Lemma resend_estop l : forall r, r_estop (fst (resend_all r l)) = r_estop r.
  Proof.
    induction l as [|[[t q] p] l IH]; intros r; [reflexivity|]. cbn [resend_all].
    specialize (IH (with_seq r ((r_seq r + 1) mod 2 ^ 32))). destruct (resend_all _ l) as [r2 o2]. exact IH.
  Qed.
  Lemma resend_quiet l : forall r e, In e (snd (resend_all r l)) -> exists a p, e = RSend a p.
  Proof.
    induction l as [|[[t q] p] l IH]; intros r e; [intros []|]. cbn [resend_all].
    specialize (IH (with_seq r ((r_seq r + 1) mod 2 ^ 32)) e). destruct (resend_all _ l) as [r2 o2]. cbn [snd] in *.
    rewrite in_app_iff. intros [H|H]; auto. destruct (_ =? _)%nat; [contradiction|]. apply in_map_iff in H as (kp & <- & _). eauto.
  Qed.
  Lemma sends_only_stops k out : (forall e, In e out -> exists a p, e = RSend a p) -> stops_taken k out = 0%nat /\ halts out = [] /\ writes out = [].
  Proof.
    intros H. unfold stops_taken. assert (T : taken out = [] /\ halts out = [] /\ writes out = []).
    { induction out as [|e out IH]; [auto|]. destruct (H e) as (a & p & ->); [left; auto|].
      destruct IH as (A & B & C); [intros e He; apply H; right; auto|]. auto. }
    destruct T as (-> & -> & ->). auto.
  Qed.
  Lemma handle_export_facts now reg tap r :
    r_estop (fst (handle_export conf now reg tap r)) = r_estop r /\
    (forall e, In e (snd (handle_export conf now reg tap r)) -> exists a p, e = RSend a p).
  Proof.
    unfold handle_export. destruct (read_all _ _ _) as [last outbox]. split.
    - rewrite export_all_estop. reflexivity.
    - apply export_all_quiet.
  Qed.
  Lemma timer_facts now reg tap second r :
    r_estop (fst (handle_timer order can_open conf now reg tap second r)) = r_estop r /\
    (forall e, In e (snd (handle_timer order can_open conf now reg tap second r)) -> exists a p, e = RSend a p).
  Proof.
    unfold handle_timer. pose proof (handle_export_facts now reg tap r) as [A1 A2].
    destruct (handle_export conf now reg tap r) as [r1 out1]. cbn [fst snd] in *.
    destruct (tick_resends _ _) as [latch due].
    pose proof (resend_estop due (with_latch r1 latch)) as B1. pose proof (resend_quiet due (with_latch r1 latch)) as B2.
    destruct (resend_all _ due) as [r2 out2]. cbn [fst snd] in *. split.
    - destruct second; cbn; rewrite ?B1; auto.
    - intros e He. apply in_app_iff in He as [He|He]; auto.
  Qed.
  Lemma run_budget h : forall r n r' outs, estop_budget (r_estop r) n -> rrun order can_open conf r h = Some (r', outs) ->
    estop_budget (r_estop r') (n + stops_taken (c_key conf) (concat outs)).
  Proof.
    induction h as [|[[now reg] e] h IH]; intros r n r' outs B E; cbn [rrun] in E.
    { inv E. rewrite Nat.add_0_r. auto. }
    destruct (rstep _ _ _ r now reg e) as [[r1 out]|] eqn:E1; [|discriminate].
    destruct (rrun _ _ _ r1 h) as [[r2 outs2]|] eqn:E2; [|discriminate]. inv E.
    cbn [concat]. rewrite stops_app, Nat.add_assoc. eapply IH; [|exact E2].
    destruct e as [from buf|tap|tap second]; cbn [rstep] in E1.
    - eapply packet_stop in E1 as [B1 _]; eauto.
    - injection E1 as E1. pose proof (handle_export_facts now reg tap r) as [A1 A2]. rewrite E1 in A1, A2. cbn [fst snd] in *.
      rewrite (proj1 (sends_only_stops _ out A2)), A1, Nat.add_0_r. auto.
    - injection E1 as E1. pose proof (timer_facts now reg tap second r) as [A1 A2]. rewrite E1 in A1, A2. cbn [fst snd] in *.
      rewrite (proj1 (sends_only_stops _ out A2)), A1, Nat.add_0_r. auto.
  Qed.
End E.

Lemma budget_new me secret t0 : estop_budget (r_estop (repl_new me secret t0)) 0.
Proof. repeat split. vm_compute. discriminate. Qed.
