From Coq Require Import String Permutation.
From Verif.Base Require Import Prelude Bytes Str.
From Verif.Model Require Import Mac Estop.
From Verif.Spec Require Import MacSpec EstopSpec.
From Verif.Proofs Require Import MacProofs.
Local Open Scope N_scope.

Lemma get_le_app_l i k a b : (i + k <= length a)%nat -> get_le i k (a ++ b) = get_le i k a.
Proof. intros. unfold get_le. rewrite slice_app_l; auto. Qed.
Lemma get_le_app_r i k a b : (length a <= i)%nat -> get_le i k (a ++ b) = get_le (i - length a) k b.
Proof. intros. unfold get_le. rewrite slice_app_r; auto. Qed.
Lemma get_le_enc k n : n < 256 ^ N.of_nat k -> get_le 0 k (le_enc k n) = n.
Proof. intros. unfold get_le. rewrite slice_all by apply le_enc_length. apply le_dec_enc; auto. Qed.

Lemma body_length host reason ts : length (estop_body host reason ts) = (12 + length reason)%nat.
Proof. unfold estop_body. rewrite !app_length, !le_enc_length. lia. Qed.
Lemma body_ok host reason ts : bytes_ok reason -> bytes_ok (estop_body host reason ts).
Proof. intros. unfold estop_body. rewrite !bytes_ok_app. repeat split; auto; apply le_enc_ok. Qed.

Lemma decode_body host reason ts rest : host < 2 ^ 16 -> N.of_nat (length reason) < 2 ^ 16 -> ts < 2 ^ 64 ->
  decode_estop (estop_body host reason ts ++ rest) = Some (host, reason, ts) /\
  estop_body_len (estop_body host reason ts ++ rest) = Some (12 + length reason)%nat.
Proof.
  intros Hh Hr Ht. set (data := estop_body host reason ts ++ rest).
  assert (Hl : length data = (12 + length reason + length rest)%nat) by (unfold data; rewrite app_length, body_length; lia).
  assert (H2 : get_le 2 2 data = N.of_nat (length reason)).
  { unfold data, estop_body. rewrite <- !app_assoc. rewrite get_le_app_r by (rewrite le_enc_length; lia).
    rewrite le_enc_length. change (2 - 2)%nat with 0%nat. rewrite get_le_app_l by (rewrite le_enc_length; lia).
    apply get_le_enc. auto. }
  unfold decode_estop, estop_body_len. rewrite H2, Nat2N.id.
  rewrite (proj2 (Nat.ltb_ge (length data) 12)) by lia. rewrite (proj2 (Nat.ltb_ge (length data) (4 + length reason + 8))) by lia.
  split; [|f_equal; lia].
  assert (H0 : get_le 0 2 data = host).
  { unfold data, estop_body. rewrite <- !app_assoc. rewrite get_le_app_l by (rewrite le_enc_length; lia). apply get_le_enc; auto. }
  assert (Hs : slice 4 (length reason) data = reason).
  { unfold data, estop_body. rewrite <- !app_assoc. rewrite !slice_app_r by (rewrite !le_enc_length; lia).
    rewrite !le_enc_length. change (4 - 2 - 2)%nat with 0%nat. rewrite slice_app_l by lia. apply slice_all; auto. }
  assert (Hts : get_le (4 + length reason) 8 data = ts).
  { unfold data, estop_body. rewrite <- !app_assoc.
    rewrite get_le_app_r by (rewrite le_enc_length; lia). rewrite le_enc_length.
    rewrite get_le_app_r by (rewrite le_enc_length; lia). rewrite le_enc_length.
    rewrite get_le_app_r by lia. replace (4 + length reason - 2 - 2 - length reason)%nat with 0%nat by lia.
    rewrite get_le_app_l by (rewrite le_enc_length; lia). apply get_le_enc; auto. }
  rewrite H0, Hs, Hts. reflexivity.
Qed.

(** Whatever decodes is a body followed by something. *)
Lemma decode_inv data host reason ts : bytes_ok data -> decode_estop data = Some (host, reason, ts) ->
  exists rest, data = estop_body host reason ts ++ rest /\
    host < 2 ^ 16 /\ N.of_nat (length reason) < 2 ^ 16 /\ ts < 2 ^ 64 /\ bytes_ok reason.
Proof.
  intros Hok. unfold decode_estop. destruct (Nat.ltb_spec (length data) 12); [discriminate|].
  set (rl := N.to_nat (get_le 2 2 data)). destruct (Nat.ltb_spec (length data) (4 + rl + 8)); [discriminate|].
  intros E. injection E as <- <- <-. change (S (S (S (S rl)))) with (4 + rl)%nat.
  assert (Hg : forall i k, (i + k <= length data)%nat -> get_le i k data < 256 ^ N.of_nat k /\ le_enc k (get_le i k data) = slice i k data).
  { intros i k Hik. unfold get_le. pose proof (slice_length i k data Hik) as Hs. split.
    - rewrite <- Hs at 2. apply le_dec_bound, bytes_ok_slice; auto.
    - rewrite <- Hs at 1. apply le_enc_dec, bytes_ok_slice; auto. }
  destruct (Hg 0%nat 2%nat ltac:(lia)) as [A1 A2]. destruct (Hg 2%nat 2%nat ltac:(lia)) as [B1 B2].
  destruct (Hg (4 + rl)%nat 8%nat ltac:(lia)) as [C1 C2].
  pose proof (slice_length 4 rl data ltac:(lia)) as Hrl.
  exists (skipn (12 + rl) data). split; [|split; [exact A1|split; [|split; [exact C1|apply bytes_ok_slice; auto]]]].
  - unfold estop_body. rewrite Hrl. unfold rl at 1. rewrite N2Nat.id. rewrite A2, B2, C2.
    unfold slice. rewrite <- !app_assoc.
    rewrite <- (firstn_skipn 2 data) at 1. f_equal.
    rewrite <- (firstn_skipn 2 (skipn 2 data)) at 1. f_equal. rewrite skipn_skipn. change (2 + 2)%nat with 4%nat.
    rewrite <- (firstn_skipn rl (skipn 4 data)) at 1. f_equal. rewrite skipn_skipn.
    replace (rl + 4)%nat with (4 + rl)%nat by lia.
    rewrite <- (firstn_skipn 8 (skipn (4 + rl) data)) at 1. f_equal. rewrite skipn_skipn. f_equal.
  - rewrite Hrl. unfold rl. rewrite N2Nat.id. exact B1.
Qed.

Lemma verify_iff key host reason ts rest :
  bytes_ok key -> N.of_nat (length key) < 2 ^ 61 -> bytes_ok reason -> N.of_nat (length reason) < 2 ^ 16 ->
  verify_estop_tag key (estop_body host reason ts ++ rest) (12 + length reason) = true <->
  exists tag r, rest = tag ++ r /\ HMAC key (bs "horus.estop.v1" ++ estop_body host reason ts) tag.
Proof.
  intros Hk Hkl Hr Hrl. unfold verify_estop_tag, TAG_LEN.
  set (body := estop_body host reason ts). assert (Hbl : length body = (12 + length reason)%nat) by apply body_length.
  rewrite <- Hbl. rewrite app_length.
  assert (Hmac : HMAC key (bs "horus.estop.v1" ++ body) (estop_tag key body)).
  { unfold estop_tag. apply hmac_correct; auto.
    - apply bytes_ok_app. split; [vm_compute; repeat constructor|apply body_ok; auto].
    - rewrite app_length, Hbl. change (length (ESTOP_MAC_DOMAIN)) with 14%nat.
      change (2 ^ 16) with 65536 in Hrl. change (2 ^ 61) with 2305843009213693952. lia. }
  assert (Hlen : forall t, HMAC key (bs "horus.estop.v1" ++ body) t -> length t = 32%nat).
  { intros t (? & ? & ? & _ & _ & _ & H). apply SHA256_length in H. tauto. }
  rewrite firstn_app, Nat.sub_diag, firstn_O, app_nil_r, firstn_all.
  rewrite slice_app_r by lia. rewrite Nat.sub_diag.
  destruct (Nat.ltb_spec (length body + length rest) (length body + 32)).
  - split; [discriminate|]. intros (tag & r & -> & Ht). apply Hlen in Ht. rewrite app_length in *. lia.
  - rewrite ct_eq_iff. split.
    + intros E. exists (slice 0 32 rest), (skipn 32 rest). split.
      * unfold slice. cbn [skipn]. symmetry; apply firstn_skipn.
      * rewrite E. auto.
    + intros (tag & r & -> & Ht). rewrite slice_app_l by (rewrite (Hlen _ Ht); lia).
      rewrite slice_all by (apply Hlen; auto). eapply HMAC_unique; eauto.
Qed.

Lemma classify_iff ts now : classify_estop_freshness ts now <> Stale <-> fresh ts now \/ clock_never_set ts now.
Proof.
  unfold classify_estop_freshness, fresh, clock_never_set, local_clock_is_unset, abs_diff, ESTOP_IMPLAUSIBLE_SKEW_NS,
    CLOCK_UNSET_FLOOR_NS, ESTOP_MAX_AGE_NS, ESTOP_MAX_FUTURE_SKEW_NS.
  change (10 ^ 9) with 1000000000.
  assert (D1 : Fresh <> Stale) by discriminate. assert (D2 : ClockUnusable <> Stale) by discriminate.
  destruct (N.ltb_spec now ts), (N.leb_spec ts now); try lia.
  - destruct (N.leb_spec (24 * 60 * 60 * 1000000000) (ts - now));
      [destruct (N.ltb_spec now 1577836800000000000)|destruct (N.leb_spec (ts - now) 5000000000)];
      split; intros Hx; auto; try (exfalso; apply Hx; reflexivity); try lia; exfalso; lia.
  - destruct (N.leb_spec (24 * 60 * 60 * 1000000000) (now - ts));
      [destruct (N.ltb_spec now 1577836800000000000)|destruct (N.leb_spec (now - ts) 5000000000)];
      split; intros Hx; auto; try (exfalso; apply Hx; reflexivity); try lia; exfalso; lia.
Qed.

Lemma handle_iff data policy key now host reason :
  bytes_ok data -> (forall k, key = Some k -> bytes_ok k /\ N.of_nat (length k) < 2 ^ 61) ->
  handle_remote_estop data policy key now = Some (host, reason) <->
  policy = PolicyWarn /\ exists k ts, key = Some k /\ authentic_estop k data host reason ts /\
    (fresh ts now \/ clock_never_set ts now).
Proof.
  intros Hok Hkey. unfold handle_remote_estop. destruct key as [k|].
  2:{ split; [discriminate|]. intros (_ & k & ts & E & _). discriminate. }
  destruct (Hkey k eq_refl) as [Hk Hkl]. split.
  - destruct (decode_estop data) as [[[h r] ts]|] eqn:Ed; [|discriminate].
    destruct (decode_inv _ _ _ _ Hok Ed) as (rest & -> & B1 & B2 & B3 & B4).
    destruct (decode_body h r ts rest B1 B2 B3) as [_ ->].
    destruct (verify_estop_tag k _ _) eqn:Ev; cbn [negb]; [|discriminate].
    apply verify_iff in Ev; auto. destruct Ev as (tag & r' & -> & Ht).
    intros H. destruct (classify_estop_freshness ts now) eqn:Ec; [| discriminate|];
      (destruct policy; [discriminate|]; injection H as <- <-; split; auto; exists k, ts; split; auto; split;
       [exists tag, r'; auto 10 | apply classify_iff; congruence]).
  - intros (-> & k' & ts & E & (tag & r & -> & B1 & B2 & B3 & Ht) & Hf). injection E as <-.
    destruct (decode_body host reason ts (tag ++ r) B1 B2 B3) as [-> ->].
    assert (Hro : bytes_ok reason). { unfold estop_body in Hok. rewrite !bytes_ok_app in Hok. tauto. }
    rewrite (proj2 (verify_iff k host reason ts (tag ++ r) Hk Hkl Hro B2)) by eauto. cbn [negb].
    apply classify_iff in Hf. destruct (classify_estop_freshness ts now); auto. congruence.
Qed.

Lemma authentic_iff key data : bytes_ok data -> (forall k, key = Some k -> bytes_ok k /\ N.of_nat (length k) < 2 ^ 61) ->
  estop_packet_is_authentic key data = true <->
  exists k host reason ts, key = Some k /\ authentic_estop k data host reason ts.
Proof.
  intros Hok Hkey. unfold estop_packet_is_authentic. destruct key as [k|].
  2:{ split; [discriminate|]. intros (k & h & r & ts & E & _). discriminate. }
  destruct (Hkey k eq_refl) as [Hk Hkl]. split.
  - destruct (estop_body_len data) as [n|] eqn:En; [|discriminate]. intros Hv.
    assert (Hd : exists h r ts, decode_estop data = Some (h, r, ts)).
    { unfold estop_body_len, decode_estop in *. destruct (length data <? 12)%nat; [discriminate|].
      destruct (length data <? 4 + N.to_nat (get_le 2 2 data) + 8)%nat; [discriminate|]. eauto. }
    destruct Hd as (h & r & ts & Ed). destruct (decode_inv _ _ _ _ Hok Ed) as (rest & -> & B1 & B2 & B3 & B4).
    destruct (decode_body h r ts rest B1 B2 B3) as [_ E2]. rewrite E2 in En. injection En as <-.
    apply verify_iff in Hv; auto. destruct Hv as (tag & r' & -> & Ht). exists k, h, r, ts. split; auto. exists tag, r'. auto 10.
  - intros (k' & h & r & ts & E & (tag & r' & -> & B1 & B2 & B3 & Ht)). injection E as <-.
    destruct (decode_body h r ts (tag ++ r') B1 B2 B3) as [_ ->].
    assert (Hro : bytes_ok r). { unfold estop_body in Hok. rewrite !bytes_ok_app in Hok. tauto. }
    apply verify_iff; eauto.
Qed.

Lemma encode_authentic k host reason now : bytes_ok k -> N.of_nat (length k) < 2 ^ 61 -> bytes_ok reason ->
  host < 2 ^ 16 -> now < 2 ^ 64 ->
  authentic_estop k (encode_estop host reason (Some k) now) host (firstn 200 reason) now.
Proof.
  intros Hk Hkl Hr Hh Hn. unfold encode_estop.
  assert (E : firstn (Nat.min (length reason) 200) reason = firstn 200 reason).
  { destruct (Nat.leb_spec (length reason) 200).
    - rewrite Nat.min_l by lia. rewrite firstn_all, firstn_all2 by lia. auto.
    - rewrite Nat.min_r by lia. auto. }
  rewrite E. assert (El : Nat.min (length reason) 200 = length (firstn 200 reason)) by (rewrite firstn_length; lia).
  rewrite El. fold (estop_body host (firstn 200 reason) now).
  assert (Hl : N.of_nat (length (firstn 200 reason)) < 2 ^ 16) by (rewrite firstn_length; change (2 ^ 16) with 65536; lia).
  exists (estop_tag k (estop_body host (firstn 200 reason) now)), []. rewrite app_nil_r.
  split; auto. split; auto. split; auto. split; auto.
  unfold estop_tag. apply hmac_correct; auto.
  - apply bytes_ok_app. split; [vm_compute; repeat constructor|apply body_ok, bytes_ok_firstn; auto].
  - rewrite app_length, body_length. change (length ESTOP_MAC_DOMAIN) with 14%nat.
    change (2 ^ 16) with 65536 in Hl. change (2 ^ 61) with 2305843009213693952. lia.
Qed.
Lemma encode_ok host reason key now : bytes_ok reason -> bytes_ok (encode_estop host reason key now).
Proof.
  intros Hr. unfold encode_estop. assert (bytes_ok (le_enc 2 host ++ le_enc 2 (N.of_nat (Nat.min (length reason) 200)) ++
    firstn (Nat.min (length reason) 200) reason ++ le_enc 8 now)).
  { rewrite !bytes_ok_app. repeat split; try apply le_enc_ok. apply bytes_ok_firstn; auto. }
  destruct key; auto. apply bytes_ok_app. split; auto. unfold estop_tag. exact (proj2 (hmac_length _ _)).
Qed.
(** What is authenticated determines what is acted on. *)
Lemma body_inj h r ts h' r' ts' x y : h < 2 ^ 16 -> h' < 2 ^ 16 -> N.of_nat (length r) < 2 ^ 16 -> N.of_nat (length r') < 2 ^ 16 ->
  ts < 2 ^ 64 -> ts' < 2 ^ 64 -> estop_body h r ts ++ x = estop_body h' r' ts' ++ y -> h = h' /\ r = r' /\ ts = ts'.
Proof.
  intros A1 A2 B1 B2 C1 C2 E. destruct (decode_body h r ts x A1 B1 C1) as [D1 _]. destruct (decode_body h' r' ts' y A2 B2 C2) as [D2 _].
  rewrite E, D2 in D1. injection D1 as -> -> ->. auto.
Qed.

(** ** Broadcaster *)
Lemma swap_remove_perm {A} (l : list A) i x : nth_error l i = Some x -> Permutation l (x :: swap_remove i l).
Proof.
  intros H. unfold swap_remove. destruct (rev l) as [|last r] eqn:Er.
  - apply (f_equal (@rev A)) in Er. rewrite rev_involutive in Er. subst. destruct i; discriminate.
  - assert (El : l = rev r ++ [last]).
    { apply (f_equal (@rev A)) in Er. rewrite rev_involutive in Er. exact Er. }
    rewrite El. rewrite removelast_last. rewrite app_length. cbn [length].
    destruct (Nat.eqb_spec i (length (rev r) + 1 - 1)) as [Ei|Ei].
    + rewrite El in H. rewrite Ei in H. replace (length (rev r) + 1 - 1)%nat with (length (rev r)) in H by lia.
      rewrite nth_error_app2, Nat.sub_diag in H by lia. injection H as ->. apply Permutation_sym, Permutation_cons_append.
    + assert (Hi : (i < length (rev r))%nat).
      { assert (i < length l)%nat by (apply nth_error_Some; congruence). rewrite El, app_length in H0. cbn [length] in H0. lia. }
      rewrite El, nth_error_app1 in H by auto.
      rewrite firstn_app. replace (i - length (rev r))%nat with 0%nat by lia. rewrite firstn_O, app_nil_r.
      apply nth_error_split in H as (l1 & l2 & E & Hl). rewrite E. rewrite <- Hl.
      rewrite firstn_app, Nat.sub_diag, firstn_O, app_nil_r, firstn_all.
      replace (S (length l1)) with (length (l1 ++ [x])) by (rewrite app_length; cbn; lia).
      replace (l1 ++ x :: l2) with ((l1 ++ [x]) ++ l2) at 2 by (rewrite <- app_assoc; reflexivity).
      rewrite skipn_app, skipn_all, Nat.sub_diag. cbn [app skipn].
      rewrite <- app_assoc. cbn [app].
      transitivity (x :: l1 ++ l2 ++ [last]); [symmetry; apply Permutation_middle|]. constructor.
      apply Permutation_app_head. symmetry. apply Permutation_cons_append.
Qed.
Lemma swap_remove_prefix {A} (l : list A) i : (i < length l)%nat -> firstn i (swap_remove i l) = firstn i l /\ length (swap_remove i l) = (length l - 1)%nat.
Proof.
  intros H. unfold swap_remove. destruct (rev l) as [|last r] eqn:Er.
  - apply (f_equal (@length A)) in Er. rewrite rev_length in Er. cbn in Er. lia.
  - assert (El : l = rev r ++ [last]) by (apply (f_equal (@rev A)) in Er; rewrite rev_involutive in Er; exact Er).
    rewrite El in *. clear El Er. rewrite removelast_last. rewrite app_length in *. cbn [length] in *.
    destruct (Nat.eqb_spec i (length (rev r) + 1 - 1)) as [Ei|Ei].
    + split; [|lia]. rewrite firstn_app. replace (i - length (rev r))%nat with 0%nat by lia. rewrite firstn_O, app_nil_r. auto.
    + rewrite (firstn_app i (rev r) [last]). replace (i - length (rev r))%nat with 0%nat by lia. rewrite firstn_O, app_nil_r. split.
      * rewrite firstn_app, firstn_firstn, Nat.min_id, firstn_length, Nat.min_l by lia. rewrite Nat.sub_diag. cbn [firstn]. apply app_nil_r.
      * rewrite !app_length, firstn_length, skipn_length. cbn [length]. lia.
Qed.

Definition due (now : N) (p : Pending) : bool := pe_at p <=? now.
Lemma filter_perm {A} (f : A -> bool) l l' : Permutation l l' -> Permutation (filter f l) (filter f l').
Proof.
  induction 1 as [|x l l' _ IH|x y l|]; cbn [filter]; auto.
  - destruct (f x); auto.
  - destruct (f x), (f y); auto. apply perm_swap.
  - etransitivity; eauto.
Qed.
Lemma flat_map_perm {A B} (f : A -> list B) l l' : Permutation l l' -> Permutation (flat_map f l) (flat_map f l').
Proof.
  induction 1 as [|x l l' _ IH|x y l|]; cbn [flat_map]; auto.
  - apply Permutation_app_head; auto.
  - rewrite !app_assoc. apply Permutation_app_tail, Permutation_app_comm.
  - etransitivity; eauto.
Qed.
Lemma tick_scan_spec mcast peers now : forall fuel i pend, (length pend <= fuel + i)%nat ->
  Forall (fun p => due now p = false) (firstn i pend) ->
  Permutation (fst (tick_scan fuel i pend mcast peers now)) (filter (fun p => negb (due now p)) pend) /\
  Permutation (snd (tick_scan fuel i pend mcast peers now))
              (flat_map (fun p => send_all (pe_payload p) mcast peers) (filter (due now) pend)).
Proof.
  assert (Hnone : forall l, Forall (fun p => due now p = false) l -> filter (due now) l = [] /\ filter (fun p => negb (due now p)) l = l).
  { induction 1 as [|x l Hx _ [I1 I2]]; cbn [filter]; auto. rewrite Hx. cbn [negb]. rewrite I1, I2. auto. }
  induction fuel as [|f IH]; intros i pend Hl Hf.
  - cbn [tick_scan fst snd]. rewrite firstn_all2 in Hf by lia. destruct (Hnone _ Hf) as [-> ->]. auto.
  - cbn [tick_scan]. destruct (nth_error pend i) as [p|] eqn:E.
    + assert (Hi : (i < length pend)%nat) by (apply nth_error_Some; congruence).
      destruct (pe_at p <=? now) eqn:Ed.
      * destruct (swap_remove_prefix pend i Hi) as [S1 S2]. pose proof (swap_remove_perm pend i p E) as Hp.
        destruct (IH i (swap_remove i pend)) as [I1 I2]; [lia|rewrite S1; auto|].
        destruct (tick_scan f i (swap_remove i pend) mcast peers now) as [pend' out]. cbn [fst snd] in *. split.
        -- rewrite I1. rewrite (filter_perm _ _ _ Hp). cbn [filter]. unfold due at 2. rewrite Ed. cbn [negb]. auto.
        -- etransitivity; [apply Permutation_app_head; exact I2|].
           etransitivity; [|symmetry; apply flat_map_perm, filter_perm, Hp]. cbn [filter]. unfold due at 2. rewrite Ed. cbn [flat_map]. auto.
      * apply IH; [lia|]. assert (Ef : firstn (S i) pend = firstn i pend ++ [p]).
        { apply nth_error_split in E as (l1 & l2 & -> & <-).
          rewrite (firstn_app (length l1)), Nat.sub_diag, firstn_O, app_nil_r, firstn_all.
          replace (S (length l1)) with (length l1 + 1)%nat by lia. rewrite firstn_app_2. reflexivity. }
        rewrite Ef. apply Forall_app. split; auto.
    + cbn [fst snd]. apply nth_error_None in E. rewrite firstn_all2 in Hf by lia. destruct (Hnone _ Hf) as [-> ->]. auto.
Qed.
Lemma tick_spec pend mcast peers now :
  Permutation (fst (tick pend mcast peers now)) (filter (fun p => negb (due now p)) pend) /\
  Permutation (snd (tick pend mcast peers now))
              (flat_map (fun p => send_all (pe_payload p) mcast peers) (filter (due now) pend)).
Proof. apply tick_scan_spec; [lia|constructor]. Qed.

(** ** How often a datagram goes out *)
Lemma sent_app P a x y : times_sent P a (x ++ y) = (times_sent P a x + times_sent P a y)%nat.
Proof. apply count_occ_app. Qed.
Lemma sent_perm P a x y : Permutation x y -> times_sent P a x = times_sent P a y.
Proof. intros H. unfold times_sent. apply Permutation_count_occ; auto. Qed.
Lemma sent_all P Q a mcast peers : mcast <> Some a -> count_occ N.eq_dec peers a = 1%nat ->
  times_sent P a (send_all Q mcast peers) = if list_eq_dec N.eq_dec Q P then 1%nat else 0%nat.
Proof.
  intros Hm Hc. unfold send_all. rewrite sent_app.
  assert (E1 : times_sent P a (match mcast with Some m => [(Q, m)] | None => [] end) = 0%nat).
  { destruct mcast as [m|]; [|reflexivity]. unfold times_sent. apply count_occ_not_In. intros [E|[]]. congruence. }
  rewrite E1. cbn [plus].
  assert (E2 : times_sent P a (map (pair Q) peers) = if list_eq_dec N.eq_dec Q P then count_occ N.eq_dec peers a else 0%nat).
  { clear. unfold times_sent. induction peers as [|b r IH]; cbn [map count_occ].
    - destruct (list_eq_dec N.eq_dec Q P); auto.
    - rewrite IH. match goal with |- context [if ?d then _ else _] => destruct d as [E|E] end.
      + injection E as -> ->. destruct (list_eq_dec N.eq_dec P P); [|congruence]. destruct (N.eq_dec a a); congruence.
      + destruct (list_eq_dec N.eq_dec Q P) as [->|]; auto. destruct (N.eq_dec b a) as [->|]; congruence. }
  rewrite E2, Hc. auto.
Qed.
Definition mine (P : bytes) (e : Pending) : bool := if list_eq_dec N.eq_dec (pe_payload e) P then true else false.
Lemma sent_flat P a mcast peers : mcast <> Some a -> count_occ N.eq_dec peers a = 1%nat -> forall l,
  times_sent P a (flat_map (fun p => send_all (pe_payload p) mcast peers) l) = length (filter (mine P) l).
Proof.
  intros Hm Hc. induction l as [|e l IH]; cbn [flat_map filter]; [reflexivity|]. rewrite sent_app, IH, sent_all; auto.
  unfold mine at 2. destruct (list_eq_dec N.eq_dec (pe_payload e) P); reflexivity.
Qed.
Lemma sent_polls P a mcast : mcast <> Some a -> forall ps pend,
  (forall t qs, In (t, qs) ps -> count_occ N.eq_dec qs a = 1%nat) ->
  times_sent P a (ticks_out pend mcast ps) =
  length (filter (fun e => mine P e && existsb (fun tq : N * list N => due (fst tq) e) ps) pend).
Proof.
  intros Hm. induction ps as [|[t qs] ps IH]; intros pend Hq; cbn [ticks_out existsb fst].
  - change (times_sent P a []) with 0%nat. induction pend as [|e r IHr]; cbn [filter]; auto. rewrite andb_false_r. auto.
  - destruct (tick pend mcast qs t) as [pend' out] eqn:E. destruct (tick_spec pend mcast qs t) as [A B]. rewrite E in A, B. cbn [fst snd] in A, B.
    rewrite sent_app, IH by (intros; eapply Hq; right; eauto).
    rewrite (sent_perm _ _ _ _ B), sent_flat by (auto; eapply Hq; left; eauto).
    rewrite (Permutation_length (filter_perm _ _ _ A)). clear.
    induction pend as [|e r IHr]; cbn [filter length]; auto.
    destruct (due t e) eqn:Ed; cbn [negb orb filter length]; destruct (mine P e) eqn:Em; cbn [andb]; cbn [filter length]; rewrite ?Em; cbn [andb length]; try (destruct (existsb _ ps); cbn [length]); lia.
Qed.
