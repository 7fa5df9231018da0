(** C24 (peer address filter) and C25 (token bucket). *)
From Coq Require Import String.
From Verif.Base Require Import Prelude Bytes Str.
From Verif.Model Require Import Guard NetFilter.
From Verif.Spec Require Import NetFilterSpec.
From Verif.Proofs Require Import NetFilterProofs.
Local Open Scope N_scope.

(** ** C24 *)
(** A block contains exactly the addresses that share its first [len] bits. *)
Theorem C24_block_exact : forall addr len c x, addr < 2 ^ 32 -> x < 2 ^ 32 -> cidr_new addr len = Some c ->
  cidr_contains c x = true <-> same_network addr len x.
Proof. exact cidr_iff. Qed.
Print Assumptions C24_block_exact.
(** Written "a.b.c.d/len" is accepted exactly for lengths up to 32 and means that block; without a
    length it means the single address. *)
Theorem C24_parse_block : forall a b c d len x, octet a -> octet b -> octet c -> octet d -> len < 256 -> x < 2 ^ 32 ->
  (cidr_parse (show_ip a b c d ++ [47] ++ show_dec len) = None <-> 32 < len) /\
  (forall k, cidr_parse (show_ip a b c d ++ [47] ++ show_dec len) = Some k ->
     (cidr_contains k x = true <-> same_network (ip a b c d) len x)) /\
  (exists k, cidr_parse (show_ip a b c d) = Some k /\ (cidr_contains k x = true <-> x = ip a b c d)).
Proof.
  intros a b c d len x Ha Hb Hc Hd Hl Hx.
  assert (Hip : ip a b c d < 2 ^ 32) by (unfold ip, octet in *; change (2 ^ 32) with 4294967296; lia).
  rewrite cidr_parse_show by auto. split; [apply cidr_new_none|]. split.
  - intros k Hk. eapply cidr_iff; eauto.
  - rewrite cidr_parse_show_host by auto. eexists. split; [reflexivity|].
    rewrite (cidr_iff (ip a b c d) 32) by (auto; reflexivity).
    unfold same_network. change (2 ^ (32 - 32)) with 1. rewrite !N.div_1_r. split; congruence.
Qed.
Print Assumptions C24_parse_block.
(** Whatever text is accepted, it denotes some block with a length of at most 32. *)
Theorem C24_parse_sound : forall s c, cidr_parse s = Some c ->
  exists addr len, addr < 2 ^ 32 /\ len <= 32 /\ cidr_new addr len = Some c /\
    (forall x, x < 2 ^ 32 -> (cidr_contains c x = true <-> same_network addr len x)).
Proof. exact cidr_parse_sound. Qed.
Print Assumptions C24_parse_sound.
(** A configuration string admits a source iff it is one of the four words meaning "anyone", or
    the source is (or maps to) an IPv4 address inside a listed block that parses — or inside the
    private ranges when no listed block parses. *)
Theorem C24_admits_exact : forall raw i,
  (forall v, v4_of i = Some v -> v < 2 ^ 32) ->
  admits (peer_filter_parse raw) i = true <->
  any_word raw \/
  (~ any_word raw /\ exists v, v4_of i = Some v /\
    ((exists e c, In e (split_on 44 (trim raw)) /\ cidr_parse (trim e) = Some c /\ cidr_contains c v = true) \/
     ((forall e, In e (split_on 44 (trim raw)) -> cidr_parse (trim e) = None) /\ private_range v))).
Proof.
  intros raw i Hv. rewrite configured_iff. split; (intros [H|(Hn & v & E & H)]; [left; auto|]); right; split; auto; exists v; split; auto.
  - destruct H as [H|[H1 H2]]; [left; auto|right; split; auto]. apply default_private; auto.
  - destruct H as [H|[H1 H2]]; [left; auto|right; split; auto]. apply default_private; auto.
Qed.
Print Assumptions C24_admits_exact.
(** In particular nothing outside the private ranges gets in by a typing error. *)
Theorem C24_typo_fails_closed : forall raw i,
  (forall v, v4_of i = Some v -> v < 2 ^ 32) -> ~ any_word raw ->
  (forall e, In e (split_on 44 (trim raw)) -> cidr_parse (trim e) = None) ->
  admits (peer_filter_parse raw) i = true -> exists v, v4_of i = Some v /\ private_range v.
Proof.
  intros raw i Hv Hn Hall H. apply C24_admits_exact in H; auto. destruct H as [H|(_ & v & E & [(e & c & Hi & Hc & _)|[_ H]])].
  - contradiction.
  - rewrite Hall in Hc by auto. discriminate.
  - exists v; auto.
Qed.
Print Assumptions C24_typo_fails_closed.
Example C24_ex_parse : cidr_parse (bs " 10.1.2.3 / 8") = cidr_new (ip 10 1 2 3) 8 /\
  cidr_parse (bs "10.1.2.3/33") = None /\ cidr_parse (bs "010.1.2.3") = None /\ cidr_parse (bs "10.1.2.256") = None /\
  show_ip 10 1 2 3 ++ [47] ++ show_dec 8 = bs "10.1.2.3/8".
Proof. repeat split; reflexivity. Qed.
Example C24_ex_filter : let f := peer_filter_parse (bs "10.0.0.0/30, oops ,203.0.113.7") in
  admits f (V4 (ip 10 0 0 3)) = true /\ admits f (V4 (ip 10 0 0 4)) = false /\ admits f (V4 (ip 203 0 113 7)) = true /\
  admits f (V6 (65535 * 2 ^ 32 + ip 10 0 0 1)) = true /\ admits f (V6 1) = false /\ ~ any_word (bs "10.0.0.0/30, oops ,203.0.113.7").
Proof. repeat split; try reflexivity. unfold any_word. cbn. intuition discriminate. Qed.
Example C24_ex_typo : forall e, In e (split_on 44 (trim (bs "10.0.0/8,anyy"))) -> cidr_parse (trim e) = None.
Proof. cbn. intros e [<-|[<-|[]]]; reflexivity. Qed.

(** ** C25 *)
(** After any history of calls, the calls that fall in any window of time admit at most the burst
    capacity plus the rate times the window (in units of 10^-9 message and nanoseconds).  The
    clock may even run backwards. *)
Theorem C25_window_bound : forall cap rate t0 before calls lo hi, lo <= hi ->
  Forall (fun t => lo <= t <= hi) calls ->
  let b := fst (bucket_run (bucket_new_at cap rate t0) before) in
  10 ^ 9 * count_true (snd (bucket_run b calls)) <= 10 ^ 9 * cap + rate * (hi - lo).
Proof. exact bucket_history. Qed.
Print Assumptions C25_window_bound.
(** It is not over-strict: a fresh bucket passes a whole burst, and one that has been idle for
    1/rate passes the next message. *)
Theorem C25_burst_passes : forall cap rate t0 calls, N.of_nat (length calls) <= cap ->
  snd (bucket_run (bucket_new_at cap rate t0) calls) = repeat true (length calls).
Proof.
  intros. apply bucket_burst; [apply new_ok|]. unfold bucket_new_at; cbn [b_tokens]. apply N.mul_le_mono_r; auto.
Qed.
Print Assumptions C25_burst_passes.
Theorem C25_idle_passes : forall cap rate t0 before t,
  let b := fst (bucket_run (bucket_new_at cap rate t0) before) in
  0 < cap -> (forall u, In u (t0 :: before) -> u <= t /\ 10 ^ 9 <= rate * (t - u)) ->
  snd (bucket_take t b) = true.
Proof.
  intros cap rate t0 before t b Hc Hu.
  destruct (run_ok before (bucket_new_at cap rate t0) (new_ok _ _ _)) as (H1 & H2 & H3). fold b in H1, H2, H3.
  assert (Hl : In (b_last b) (t0 :: before)).
  { unfold b. clear. assert (G : forall l b, In (b_last (fst (bucket_run b l))) (b_last b :: l)).
    { induction l as [|x l IH]; intros b; cbn [bucket_run]; [left; auto|].
      assert (Hx : b_last (fst (bucket_take x b)) = b_last b \/ b_last (fst (bucket_take x b)) = x).
      { unfold bucket_take, bucket_refill. destruct (_ =? 0); destruct (TOKEN <=? _); cbn [fst b_last]; auto. }
      destruct (bucket_take x b) as [b1 ok]. cbn [fst] in Hx. specialize (IH b1). destruct (bucket_run b1 l) as [b2 oks]. cbn [fst] in *.
      destruct IH as [IH|IH]; [rewrite <- IH|right; right; auto]. destruct Hx as [->| ->]; [left; auto|right; left; auto]. }
    apply (G before (bucket_new_at cap rate t0)). }
  apply bucket_never_starves; auto; [rewrite H2; auto|]. rewrite H3. apply Hu; auto.
Qed.
Print Assumptions C25_idle_passes.
(** The e-stop channel: at most 128 + 64 per second. *)
Theorem C25_estop_budget : forall t0 before calls lo secs,
  Forall (fun t => lo <= t <= lo + secs * 10 ^ 9) calls ->
  let b := fst (bucket_run (estop_bucket t0) before) in
  count_true (snd (bucket_run b calls)) <= 128 + 64 * secs.
Proof.
  intros t0 before calls lo secs Hc b.
  pose proof (bucket_history 128 64 t0 before calls lo (lo + secs * 10 ^ 9) ltac:(lia) Hc) as H.
  cbv zeta in H. change (bucket_new_at 128 64 t0) with (estop_bucket t0) in H. fold b in H.
  unfold TOKEN in H. change (10 ^ 9) with 1000000000 in *. lia.
Qed.
Print Assumptions C25_estop_budget.
Example C25_ex : snd (bucket_run (bucket_new_at 2 1 0) [0; 1; 2; 1000000001; 1000000002; 999; 5000000000]) =
  [true; true; false; true; false; false; true].
Proof. vm_compute. reflexivity. Qed.
Example C25_ex_idle : forall u, In u [0; 7] -> u <= 1000000007 /\ 10 ^ 9 <= 1 * (1000000007 - u).
Proof. cbn [In]. intros u [<-|[<-|[]]]; lia. Qed.
