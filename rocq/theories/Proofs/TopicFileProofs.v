From Verif.Base Require Import Prelude Bytes.
From Verif.Model Require Import TopicFile.
From Verif.Spec Require Import TopicFileSpec.
Open Scope N_scope.

(** ** Bytes of a file *)
Lemma peek_length off n f : length (peek off n f) = n.
Proof. unfold peek. rewrite map_length, seq_length. reflexivity. Qed.
Lemma peek_ext off n f g : (forall i, off <= i -> i < off + N.of_nat n -> t_at f i = t_at g i) -> peek off n f = peek off n g.
Proof. intros H. unfold peek. apply map_ext_in. intros k Hk. apply in_seq in Hk. apply H; lia. Qed.
Lemma peek_other off n off' d f : off + N.of_nat n <= off' \/ off' + N.of_nat (length d) <= off ->
  peek off n (poke off' d f) = peek off n f.
Proof.
  intros H. apply peek_ext. intros i H1 H2. cbn [poke t_at]. destruct (_ && _) eqn:E; auto. bool_prop. lia.
Qed.
Lemma map_seq_nth {A} (d : A) l : map (fun k => nth k l d) (seq 0 (length l)) = l.
Proof.
  apply nth_ext with (d := nth (length l) l d) (d' := d); [rewrite map_length, seq_length; auto|].
  intros n Hn. rewrite map_length, seq_length in Hn. rewrite (map_nth (fun k => nth k l d) (seq 0 (length l)) (length l) n).
  rewrite seq_nth by auto. reflexivity.
Qed.
Lemma peek_same off d f : peek off (length d) (poke off d f) = d.
Proof.
  unfold peek. transitivity (map (fun k => nth k d 0) (seq 0 (length d))); [|apply map_seq_nth]. apply map_ext_in. intros k Hk. apply in_seq in Hk. cbn [poke t_at].
  destruct (_ && _) eqn:E.
  - f_equal. lia.
  - apply andb_false_iff in E as [E|E]; [apply N.leb_gt in E|apply N.ltb_ge in E]; lia.
Qed.
Lemma word_other off n off' d f : off + N.of_nat n <= off' \/ off' + N.of_nat (length d) <= off ->
  word off n (poke off' d f) = word off n f.
Proof. intros. unfold word. rewrite peek_other by auto. reflexivity. Qed.
Lemma word_same off n v f : v < 256 ^ N.of_nat n -> word off n (poke off (le_enc n v) f) = v.
Proof. intros. unfold word. replace n with (length (le_enc n v)) at 1 by apply le_enc_length. rewrite peek_same. apply le_dec_enc; auto. Qed.
Lemma word_same8 off v f : v < U64 -> word off 8 (poke off (le_enc 8 v) f) = v.
Proof. intros. apply word_same. exact H. Qed.
Lemma add64_small a : a + 1 < U64 -> add64 a 1 = a + 1.
Proof. intros. unfold add64. apply N.mod_small. auto. Qed.

(** ** The geometry *)
Lemma pow2_mask c x : is_power_of_two c = true -> N.land x (c - 1) = x mod c.
Proof.
  unfold is_power_of_two. intros H. apply andb_true_iff in H as [_ H]. apply N.eqb_eq in H.
  rewrite <- H. replace (2 ^ N.log2 c - 1) with (N.ones (N.log2 c)) by (rewrite N.ones_equiv; lia).
  apply N.land_ones.
Qed.
Lemma pow2_pos c : is_power_of_two c = true -> c <> 0.
Proof. unfold is_power_of_two. intros H. apply andb_true_iff in H as [H _]. apply negb_true_iff, N.eqb_neq in H. auto. Qed.

Ltac offs := unfold OFF_TYPE_SIZE, OFF_IS_POD, OFF_TOTAL, OFF_HEAD, OFF_CAP, OFF_MASK, OFF_SLOT, OFF_TAIL, HEADER_SIZE in *.
Lemma geom_poke w f off d : geom w f ->
  (OFF_SLOT <= off \/ (OFF_TOTAL <= off /\ off + N.of_nat (length d) <= OFF_CAP)) -> geom w (poke off d f).
Proof.
  intros [] H. constructor; auto; rewrite word_other; auto; offs; lia.
Qed.
Lemma holds_poke w f l off d : holds w f l ->
  (off + N.of_nat (length d) <= HEADER_SIZE /\ OFF_SLOT <= off) \/ (OFF_TOTAL <= off /\ off + N.of_nat (length d) <= OFF_HEAD) ->
  holds w (poke off d f) l.
Proof.
  intros [] H. constructor; auto.
  - apply geom_poke; auto. offs. lia.
  - rewrite word_other; auto. offs. lia.
  - intros k Hk Hc. destruct (h_slots k Hk Hc) as [A B]. split.
    + rewrite peek_other; auto. unfold data_slot_offset, data_region_offset. offs. lia.
    + rewrite word_other; auto. unfold seq_slot_offset. offs. lia.
Qed.
Lemma mod_differ a b c : c <> 0 -> a < b -> b < a + c -> a mod c <> b mod c.
Proof.
  intros Hc H1 H2 E. assert (b - a < c) by lia. pose proof (N.div_mod a c Hc). pose proof (N.div_mod b c Hc).
  rewrite E in H0. assert (c * (a / c) + (b - a) = c * (b / c)) by lia.
  assert (a / c < b / c \/ b / c <= a / c) as [|] by lia; nia.
Qed.
(** Storing a message in the next slot with its stamp and advancing the head. *)
Definition advance (w : RingWriter) (n : N) (m : bytes) (f : TF) : TF :=
  poke OFF_HEAD (le_enc 8 (n + 1)) (poke (seq_slot_offset (n mod w_cap w)) (le_enc 8 (n + 1))
    (poke (data_slot_offset (w_cap w) (n mod w_cap w) (w_type w)) m f)).
Lemma advance_holds w f l m : holds w f l -> N.of_nat (length m) = w_type w -> N.of_nat (length l) + 1 < 2 ^ 63 ->
  holds w (advance w (N.of_nat (length l)) m f) (l ++ [m]).
Proof.
  intros [G S Hd Sl] Hm Hn. set (n := N.of_nat (length l)) in *. pose proof G as [].
  pose proof (pow2_pos _ g_cap) as Hc. pose proof (N.mod_lt n (w_cap w) Hc) as Hi.
  assert (Hu : n + 1 < U64) by (unfold U64; lia).
  assert (Reg : forall i, i < w_cap w -> i * w_type w + w_type w <= w_cap w * w_type w) by (intros; nia).
  unfold advance. constructor.
  - apply geom_poke; [apply geom_poke; [apply geom_poke; auto|]|].
    + left. unfold data_slot_offset, data_region_offset. offs. lia.
    + left. unfold seq_slot_offset. offs. lia.
    + right. rewrite le_enc_length. offs. lia.
  - rewrite app_length. cbn [length]. lia.
  - rewrite word_same8, app_length by auto. cbn [length]. lia.
  - intros k Hk Hcap. rewrite app_length in Hk, Hcap. cbn [length] in Hk, Hcap.
    assert (Hj : N.of_nat k mod w_cap w < w_cap w) by (apply N.mod_lt; auto).
    destruct (Nat.eq_dec k (length l)) as [->|Ne].
    + fold n. rewrite app_nth2, Nat.sub_diag by lia. cbn [nth]. split.
      * rewrite peek_other by (rewrite le_enc_length; unfold data_slot_offset, data_region_offset; offs; lia).
        rewrite peek_other by (rewrite le_enc_length; unfold seq_slot_offset, data_slot_offset, data_region_offset; offs; lia).
        rewrite <- Hm, Nat2N.id. apply peek_same.
      * rewrite word_other by (rewrite le_enc_length; unfold seq_slot_offset; offs; lia). apply word_same8. auto.
    + assert (Hk' : (k < length l)%nat) by lia. rewrite app_nth1 by auto.
      assert (Hne : N.of_nat k mod w_cap w <> n mod w_cap w) by (apply mod_differ; lia).
      destruct (Sl k Hk' ltac:(lia)) as [A B]. split.
      * rewrite peek_other by (rewrite le_enc_length; unfold data_slot_offset, data_region_offset; offs; lia).
        rewrite peek_other by (rewrite le_enc_length; unfold seq_slot_offset, data_slot_offset, data_region_offset; offs; lia).
        rewrite peek_other; [auto|]. unfold data_slot_offset. rewrite Hm.
        assert (N.of_nat k mod w_cap w < n mod w_cap w \/ n mod w_cap w < N.of_nat k mod w_cap w) as [|] by lia; [left|right]; nia.
      * rewrite word_other by (rewrite le_enc_length; unfold seq_slot_offset; offs; lia).
        rewrite word_other by (rewrite le_enc_length; unfold seq_slot_offset; lia).
        rewrite word_other; auto. unfold seq_slot_offset, data_slot_offset, data_region_offset. left. lia.
Qed.
Lemma advance_total w n m f : n mod w_cap w < w_cap w -> word OFF_TOTAL 8 (advance w n m f) = word OFF_TOTAL 8 f.
Proof.
  intros. unfold advance. rewrite !word_other; rewrite ?le_enc_length; auto; unfold seq_slot_offset, data_slot_offset, data_region_offset; offs; lia.
Qed.
Lemma advance_tail w n m f : n mod w_cap w < w_cap w -> word OFF_TAIL 8 (advance w n m f) = word OFF_TAIL 8 f.
Proof.
  intros. unfold advance. rewrite !word_other; rewrite ?le_enc_length; auto; unfold seq_slot_offset, data_slot_offset, data_region_offset; offs; lia.
Qed.
Lemma holds_in_bounds w f l : holds w f l -> let i := N.of_nat (length l) mod w_cap w in
  i < w_cap w /\ data_slot_offset (w_cap w) i (w_type w) + w_type w <= t_len f /\ seq_slot_offset i + 8 <= t_len f /\ HEADER_SIZE <= t_len f.
Proof.
  intros [G S Hd Sl] i. destruct G. pose proof (pow2_pos _ g_cap) as Hc. assert (Hi : i < w_cap w) by (apply N.mod_lt; auto).
  unfold required_region_len in g_len. unfold data_slot_offset, seq_slot_offset, data_region_offset in *. offs. repeat split; auto; nia.
Qed.

(** ** The importer *)
Lemma t_len_poke off d f : t_len (poke off d f) = t_len f.
Proof. reflexivity. Qed.
Lemma store_ok off d f : off + N.of_nat (length d) <= t_len f -> store off d (Ret f) = Ret (poke off d f).
Proof. intros H. unfold store. apply N.leb_le in H. rewrite H. reflexivity. Qed.
Lemma write_pod_holds w f l m : holds w f l -> N.of_nat (length l) + 1 < 2 ^ 63 -> N.of_nat (length m) = w_type w ->
  ring_write w m f = Ret (poke OFF_TOTAL (le_enc 8 (add64 (word OFF_TOTAL 8 f) 1)) (advance w (N.of_nat (length l)) m f), true).
Proof.
  intros H Hn Hm. destruct (holds_in_bounds w f l H) as (Hi & B1 & B2 & B3). destruct H as [G S Hd Sl]. pose proof G as [].
  unfold ring_write. rewrite g_pod. unfold write_pod. rewrite Hm, N.eqb_refl. cbn [negb]. rewrite Hd, g_mask, pow2_mask by auto.
  rewrite add64_small by (unfold U64; lia).
  destruct (N.ltb_spec (t_len f) (data_slot_offset (w_cap w) (N.of_nat (length l) mod w_cap w) (w_type w) + w_type w)); [lia|].
  rewrite (store_ok _ m f) by (rewrite Hm; auto).
  rewrite (store_ok (seq_slot_offset _)) by (rewrite le_enc_length; auto).
  rewrite (store_ok OFF_HEAD) by (rewrite le_enc_length, !t_len_poke; offs; lia).
  fold (advance w (N.of_nat (length l)) m f). unfold bump_total.
  rewrite store_ok by (rewrite le_enc_length; unfold advance; rewrite !t_len_poke; offs; lia).
  rewrite advance_total by auto. reflexivity.
Qed.

(** ** A new topic *)
Lemma new_topic_holds w c ts : w = mkWriter ts c (c - 1) ts true -> is_power_of_two c = true -> c < 2 ^ 32 -> 0 < ts -> ts < 2 ^ 32 ->
  holds w (new_pod_topic c ts) [] /\ word OFF_TOTAL 8 (new_pod_topic c ts) = 0 /\ word OFF_TAIL 8 (new_pod_topic c ts) = 0.
Proof.
  intros -> Hp Hc H1 H2.
  assert (Z : forall off n, off = 56 \/ off = 64 \/ off = 128 -> n = 8%nat -> word off n (new_pod_topic c ts) = 0).
  { intros off n Ho ->. unfold new_pod_topic. rewrite !word_other; rewrite ?le_enc_length; auto; cbn [length]; offs; try lia. }
  split; [|split; apply Z; auto].
  constructor; [|cbn; lia|apply Z; auto|intros k Hk; cbn in Hk; lia].
  constructor; cbn [w_pod w_cap w_mask w_type]; auto; try lia.
  - unfold new_pod_topic. cbn [poke t_len]. lia.
  - unfold new_pod_topic. do 4 (rewrite word_other by (rewrite ?le_enc_length; cbn [length]; offs; lia)). apply word_same. exact H2.
  - unfold new_pod_topic. do 2 (rewrite word_other by (rewrite ?le_enc_length; cbn [length]; offs; lia)). apply word_same. exact Hc.
  - unfold new_pod_topic. do 1 (rewrite word_other by (rewrite ?le_enc_length; cbn [length]; offs; lia)). apply word_same. change (256 ^ N.of_nat 4) with (2 ^ 32). lia.
Qed.

(** ** Reading *)
Lemma read_at w f l last k : holds w f l -> word OFF_TOTAL 8 f = N.of_nat (length l) -> N.of_nat (length l) <> last ->
  (k < length l)%nat -> N.of_nat (length l) <= N.of_nat k + w_cap w ->
  read_slot_inner f last (Some (N.of_nat k + 1)) = Ret (Some (mkSlot (nth k l []) (N.of_nat (length l)) true)).
Proof.
  intros [G S Hd Sl] T Hl Hk Hc. pose proof G as []. destruct (Sl k Hk Hc) as [A B]. pose proof (pow2_pos _ g_cap) as Hp.
  unfold read_slot_inner. rewrite g_magic, g_wtype, g_wpod, T, g_wcap, g_wmask, g_mask, g_cap, !N.eqb_refl. cbn [negb orb].
  destruct (N.ltb_spec (t_len f) HEADER_SIZE) as [F|_]; [unfold required_region_len, data_region_offset in g_len; lia|].
  destruct (N.eqb_spec (w_cap w) 0); [contradiction|]. cbn [negb orb].
  destruct (N.eqb_spec (N.of_nat (length l)) 0); [lia|]. destruct (N.eqb_spec (N.of_nat (length l)) last); [contradiction|]. cbn [orb].
  destruct (N.eqb_spec (N.of_nat k + 1) 0); [lia|]. destruct (N.ltb_spec (N.of_nat (length l)) (N.of_nat k + 1)); [lia|]. cbn [orb].
  destruct (N.leb_spec (w_cap w) (N.of_nat (length l) - (N.of_nat k + 1))); [lia|].
  rewrite pow2_mask by auto. replace (N.of_nat k + 1 - 1) with (N.of_nat k) by lia.
  destruct (N.eqb_spec (w_type w) 0); [contradiction|].
  destruct (N.ltb_spec (t_len f) (required_region_len (w_cap w) (w_type w))); [lia|].
  unfold get_slice. destruct (N.leb_spec (data_slot_offset (w_cap w) (N.of_nat k mod w_cap w) (w_type w) + w_type w) (t_len f)).
  - rewrite A. reflexivity.
  - exfalso. pose proof (N.mod_lt (N.of_nat k) (w_cap w) Hp). unfold required_region_len, data_slot_offset in *. nia.
Qed.
Lemma read_lapped w f l last k : holds w f l -> word OFF_TOTAL 8 f = N.of_nat (length l) ->
  N.of_nat k + w_cap w < N.of_nat (length l) -> read_slot_inner f last (Some (N.of_nat k + 1)) = Ret None.
Proof.
  intros [G S Hd Sl] T Hc. pose proof G as [].
  unfold read_slot_inner. rewrite T, g_wcap, g_magic, g_wmask, g_mask, g_cap, !N.eqb_refl. cbn [negb orb].
  repeat match goal with |- context [if ?b then Ret None else _] => let E := fresh in destruct b eqn:E; [reflexivity|] end. exfalso.
  bool_prop. lia.
Qed.
Lemma read_newest w f l last : holds w f l -> word OFF_TOTAL 8 f = N.of_nat (length l) ->
  read_latest_slot_bytes f last = Ret (if (length l =? 0)%nat || (N.of_nat (length l) =? last) then None
                                       else Some (mkSlot (List.last l []) (N.of_nat (length l)) true)).
Proof.
  intros H T. unfold read_latest_slot_bytes. destruct ((length l =? 0)%nat || (N.of_nat (length l) =? last)) eqn:E.
  - destruct H as [G S Hd Sl]. pose proof G as []. unfold read_slot_inner. rewrite T. replace ((N.of_nat (length l) =? 0) || (N.of_nat (length l) =? last)) with true.
    + repeat case_match; reflexivity.
    + symmetry. apply orb_true_iff in E as [E|E]; [apply Nat.eqb_eq in E; rewrite E; reflexivity|rewrite E; apply orb_true_r].
  - apply orb_false_iff in E as [E1 E2]. apply Nat.eqb_neq in E1. apply N.eqb_neq in E2.
    assert (Hp : w_cap w <> 0) by (destruct H as [[] _ _ _]; apply pow2_pos; auto).
    pose proof (read_at w f l last (length l - 1) H T E2 ltac:(lia) ltac:(lia)) as R.
    replace (N.of_nat (length l - 1) + 1) with (N.of_nat (length l)) in R by lia.
    replace (List.last l []) with (nth (length l - 1) l []).
    + rewrite <- R. unfold read_slot_inner. rewrite T. reflexivity.
    + clear -E1. destruct l using rev_ind; [contradiction|]. rewrite last_last, app_length, app_nth2; cbn [length]; [|lia].
      replace (length l + 1 - 1 - length l)%nat with O by lia. reflexivity.
Qed.

(** ** Histories of imports *)
Lemma import_step w f l m : holds w f l -> N.of_nat (length l) + 1 < 2 ^ 63 -> N.of_nat (length m) = w_type w ->
  exists f', ring_write w m f = Ret (f', true) /\ holds w f' (l ++ [m]) /\
    word OFF_TOTAL 8 f' = add64 (word OFF_TOTAL 8 f) 1 /\ word OFF_TAIL 8 f' = word OFF_TAIL 8 f.
Proof.
  intros H Hn Hm. destruct (holds_in_bounds w f l H) as (Hi & _).
  eexists. split; [apply write_pod_holds; eauto|]. split; [|split].
  - apply holds_poke; [apply advance_holds; auto|]. right. rewrite le_enc_length. offs. lia.
  - apply word_same8. unfold add64. apply N.mod_lt. discriminate.
  - rewrite word_other by (rewrite le_enc_length; offs; lia). apply advance_tail. auto.
Qed.
Lemma recv_frame mpsc w c f l : holds w f l ->
  let f' := snd (fst (recv_pod mpsc w c f)) in holds w f' l /\ word OFF_TOTAL 8 f' = word OFF_TOTAL 8 f.
Proof.
  intros H. unfold recv_pod. cbv zeta. set (head := if lo_head c =? lo_tail c then word OFF_HEAD 8 f else lo_head c). clearbody head.
  destruct (head =? lo_tail c); [auto|]. destruct (_ && _); [auto|]. destruct (_ =? 0); [|auto]. cbn [fst snd]. split.
  - apply holds_poke; auto. left. rewrite le_enc_length. offs. lia.
  - apply word_other. rewrite le_enc_length. offs. lia.
Qed.
Lemma recv_step mpsc w f l c : holds w f l -> let n := N.of_nat (length l) in
  lo_tail c <= lo_head c -> lo_head c <= n -> n <= lo_tail c + w_cap w ->
  exists c' f', recv_pod mpsc w c f = (c', f', if lo_tail c =? n then None else Some (nth (N.to_nat (lo_tail c)) l [])) /\
    holds w f' l /\ word OFF_TOTAL 8 f' = word OFF_TOTAL 8 f /\
    lo_tail c' = (if lo_tail c =? n then lo_tail c else lo_tail c + 1) /\ lo_tail c' <= lo_head c' /\ lo_head c' <= n.
Proof.
  intros H n H1 H2 H3. pose proof H as [G S Hd Sl]. pose proof G as []. fold n in S, Hd. unfold recv_pod.
  set (head := if lo_head c =? lo_tail c then word OFF_HEAD 8 f else lo_head c).
  assert (Hh : lo_tail c <= head /\ head <= n /\ (head = lo_tail c -> lo_tail c = n)).
  { unfold head. destruct (N.eqb_spec (lo_head c) (lo_tail c)); rewrite ?Hd; lia. }
  destruct Hh as (A & B & C). destruct (N.eqb_spec (lo_tail c) n) as [E|E].
  - destruct (N.eqb_spec head (lo_tail c)); [|lia]. exists (mkLocal head (lo_tail c)), f. cbn [lo_tail lo_head]. split; [reflexivity|]. split; [auto|]. repeat split; lia.
  - destruct (N.eqb_spec head (lo_tail c)); [tauto|].
    destruct (Sl (N.to_nat (lo_tail c)) ltac:(lia) ltac:(lia)) as [P Q]. rewrite N2Nat.id in P, Q.
    rewrite g_mask, pow2_mask by auto. rewrite add64_small by (unfold U64; lia). rewrite Q, N.eqb_refl, P, andb_false_r.
    destruct (N.land (lo_tail c + 1) (flush_mask (w_cap w)) =? 0).
    + eexists _, _. split; [reflexivity|]. cbn [lo_tail lo_head]. split; [|split; [|repeat split; lia]].
      * apply holds_poke; auto. left. rewrite le_enc_length. offs. lia.
      * apply word_other. rewrite le_enc_length. offs. lia.
    + eexists _, _. split; [reflexivity|]. cbn [lo_tail lo_head]. split; [auto|]. repeat split; lia.
Qed.

Lemma skipn_all_nth {A} (d : A) l k : (k < length l)%nat -> skipn k l = nth k l d :: skipn (S k) l.
Proof. revert l. induction k as [|k IH]; intros [|x l] H; cbn [length] in H; try lia; [reflexivity|]. apply IH. lia. Qed.
Lemma irun_queue mpsc w h : forall f l c out, holds w f l -> let n := N.of_nat (length l) in word OFF_TOTAL 8 f = n ->
  lo_tail c <= lo_head c -> lo_head c <= n -> n <= lo_tail c + w_cap w ->
  Forall (fun m => N.of_nat (length m) = w_type w) (imported h) ->
  N.of_nat (length l + length h) < 2 ^ 63 ->
  queue (N.to_nat (w_cap w)) (skipn (N.to_nat (lo_tail c)) l) h = Some out ->
  exists f' c', irun mpsc w f c h = Ret (f', c', out) /\ holds w f' (l ++ imported h) /\
    word OFF_TOTAL 8 f' = N.of_nat (length (l ++ imported h)).
Proof.
  induction h as [|e h IH]; intros f l c out H n T H1 H2 H3 Hm Hn Q; cbn [length] in Hn.
  - cbn in Q. inv Q. exists f, c. cbn [imported flat_map]. rewrite app_nil_r. auto.
  - destruct e as [m|]; cbn [queue irun] in *.
    + unfold imported in Hm. cbn [flat_map app] in Hm. inv Hm. rename H5 into Hm, H6 into Hms.
      destruct (import_step w f l m H ltac:(lia) Hm) as (f1 & E & Hf & T1 & _).
      rewrite E. rewrite skipn_length in Q.
      destruct (Nat.ltb_spec (length l - N.to_nat (lo_tail c)) (N.to_nat (w_cap w))); [|discriminate].
      assert (Tn : word OFF_TOTAL 8 f1 = N.of_nat (length (l ++ [m]))).
      { rewrite T1, T, add64_small, app_length by (unfold U64, n; lia). cbn [length]. unfold n. lia. }
      edestruct (IH f1 (l ++ [m]) c out) as (f2 & c2 & R & A & B); auto.
      * rewrite app_length. cbn [length]. lia.
      * rewrite app_length. cbn [length]. lia.
      * rewrite app_length. cbn [length]. lia.
      * rewrite skipn_app. replace (N.to_nat (lo_tail c) - length l)%nat with O by lia. exact Q.
      * exists f2, c2. unfold imported in *. cbn [flat_map]. rewrite <- app_assoc in A, B. auto.
    + destruct (recv_step mpsc w f l c H H1 H2 H3) as (c1 & f1 & E & Hf & T1 & Ht & A & B). fold n in E, Ht, B.
      rewrite E. unfold imported in *. cbn [flat_map app] in *. destruct (N.eqb_spec (lo_tail c) n) as [Z|Z].
      * rewrite skipn_all2 in Q by (unfold n in Z; lia).
        edestruct (IH f1 l c1 out) as (f2 & c2 & R & P1 & P2); auto; rewrite ?Ht, ?T1; auto; try lia.
        -- rewrite skipn_all2 by (unfold n in Z; lia). auto.
        -- rewrite R. exists f2, c2. auto.
      * rewrite (skipn_all_nth ([] : bytes)) in Q by lia. destruct (queue _ _ h) as [out'|] eqn:Q'; [|discriminate]. inv Q.
        edestruct (IH f1 l c1 out') as (f2 & c2 & R & P1 & P2); auto; rewrite ?Ht, ?T1; auto; try lia.
        -- rewrite <- Q'. do 2 f_equal. lia.
        -- rewrite R. exists f2, c2. auto.
Qed.

(** ** Histories of a local publisher *)
Lemma lrun_holds w h : forall f p c l s oks, holds w f l -> word OFF_TOTAL 8 f = N.of_nat (length l) -> lo_head p = N.of_nat (length l) ->
  Forall (fun m => N.of_nat (length m) = w_type w) (sent h) -> uses_send h ->
  N.of_nat (length l + length h) < 2 ^ 63 ->
  lrun w (f, p, c) h = (s, oks) -> none_dropped h oks ->
  let f' := fst (fst s) in holds w f' (l ++ sent h) /\ word OFF_TOTAL 8 f' = N.of_nat (length (l ++ sent h)) /\
    lo_head (snd (fst s)) = N.of_nat (length (l ++ sent h)).
Proof.
  induction h as [|e h IH]; intros f p c l s oks H T P Hm U Hn R ND; cbn [length] in Hn.
  - cbn in R. inv R. cbn [fst snd sent flat_map]. rewrite app_nil_r. auto.
  - cbn [lrun] in R. destruct (lstep w (f, p, c) e) as [[[f1 p1] c1] ok] eqn:E. destruct (lrun w (f1, p1, c1) h) as [s2 oks2] eqn:R2.
    inv R. assert (U' : uses_send h) by (intros m Hi; apply (U m); right; auto).
    assert (ND' : none_dropped h oks2) by (intros k m Hk; apply (ND (S k) m Hk)).
    destruct e as [m|m|]; cbn [lstep] in E; [|exfalso; apply (U m); left; auto|].
    + pose proof (ND O m eq_refl) as Ok. cbn in Ok. inv Ok.
      unfold sent in *. cbn [flat_map app] in *. inv Hm. rename H2 into Hm, H3 into Hms.
      destruct (send_pod w p m f) as [[p' f'] ok'] eqn:E'. inv E. unfold send_pod, try_send_pod in E'.
      cbv zeta in E'. set (tail := if w_cap w <=? sub64 (lo_head p) (lo_tail p) then word OFF_TAIL 8 (count_send f) else lo_tail p) in E'. clearbody tail.
      destruct (w_cap w <=? sub64 (lo_head p) tail); inv E'.
      pose proof (holds_in_bounds w f l H) as (Hi & _).
      assert (Hc : holds w (count_send f) l) by (apply holds_poke; auto; right; rewrite le_enc_length; offs; lia).
      assert (Tc : word OFF_TOTAL 8 (count_send f) = N.of_nat (length l) + 1).
      { unfold count_send. rewrite word_same8; rewrite T, add64_small by (unfold U64; lia); auto. unfold U64. lia. }
      pose proof (advance_holds w (count_send f) l m Hc Hm ltac:(lia)) as A.
      pose proof (advance_total w (N.of_nat (length l)) m (count_send f) Hi) as AT.
      destruct H as [G S Hd Sl]. pose proof G as []. rewrite g_mask, pow2_mask, P, add64_small in R2 by (auto; unfold U64; lia).
      fold (advance w (N.of_nat (length l)) m (count_send f)) in R2.
            replace (l ++ m :: _) with ((l ++ [m]) ++ flat_map (fun e : lev => match e with LSend m | LTry m => [m] | LRecv => [] end) h)
        by (rewrite <- app_assoc; reflexivity).
      eapply IH; eauto.
      * rewrite AT, Tc, app_length. cbn [length]. lia.
      * cbn [lo_head]. rewrite app_length. cbn [length]. lia.
      * rewrite app_length. cbn [length]. lia.
    + unfold sent in *. cbn [flat_map app] in *.
      destruct (recv_pod false w c f) as [[c' f'] o] eqn:E'. inv E.
      pose proof (recv_frame false w c f l H) as (A & B). rewrite E' in A, B. cbn [fst snd] in A, B.
      eapply IH; eauto; rewrite ?B; auto. lia.
Qed.

(** ** Echo *)
Lemma read_range_spec w l head fs ls : (forall k, current w (fs k) (ls k) /\ exists t, ls k = l ++ t) ->
  sr_payload head = List.last l [] -> sr_idx head = N.of_nat (length l) ->
  forall want k a, (0 < a)%nat -> (a + want <= length l)%nat ->
  exists out lapped kept, read_range fs k head (N.of_nat a + 1) want = Ret (out, lapped) /\
    map sr_payload out = map (fun j => nth j l []) (filter kept (seq a want)) /\
    lapped = N.of_nat (length (filter (fun j => negb (kept j)) (seq a want))) /\
    (forall j, In j (seq a want) -> kept j = false -> exists i, (k <= i)%nat /\ (j + N.to_nat (w_cap w) < length (ls i))%nat) /\
    Forall (fun s => sr_idx s = N.of_nat (length l) \/ exists i, sr_idx s = N.of_nat (length (ls i))) out.
Proof.
  intros Hfs Hp Hi. induction want as [|want IH]; intros k a Ha Hw.
  - exists [], 0, (fun _ => true). cbn. repeat split; auto. intros ? [].
  - cbn [read_range]. destruct (IH (S k) (S a) ltac:(lia) ltac:(lia)) as (out & lapped & kept & R & P & L & O & F).
    replace (N.of_nat a + 1 + 1) with (N.of_nat (S a) + 1) by lia. rewrite R.
    assert (Ext : forall (v : bool), let kept' := fun j => if (j =? a)%nat then v else kept j in
              filter kept' (seq (S a) want) = filter kept (seq (S a) want) /\
              filter (fun j => negb (kept' j)) (seq (S a) want) = filter (fun j => negb (kept j)) (seq (S a) want)).
    { intros v kept'. split; apply filter_ext_in; intros j Hj; apply in_seq in Hj; unfold kept'; destruct (Nat.eqb_spec j a); auto; lia. }
    assert (Yes : forall s, sr_payload s = nth a l [] -> (sr_idx s = N.of_nat (length l) \/ exists i, sr_idx s = N.of_nat (length (ls i))) ->
      exists out0 lapped0 kept0, Ret (s :: out, lapped) = Ret (out0, lapped0) /\
       map sr_payload out0 = map (fun j => nth j l []) (filter kept0 (seq a (S want))) /\
       lapped0 = N.of_nat (length (filter (fun j => negb (kept0 j)) (seq a (S want)))) /\
       (forall j, In j (seq a (S want)) -> kept0 j = false -> exists i, (k <= i)%nat /\ (j + N.to_nat (w_cap w) < length (ls i))%nat) /\
       Forall (fun s => sr_idx s = N.of_nat (length l) \/ exists i, sr_idx s = N.of_nat (length (ls i))) out0).
    { intros s Hs Hs2. destruct (Ext true) as [E1 E2]. eexists _, _, _. split; [reflexivity|]. cbn [seq filter].
      rewrite E1, E2, Nat.eqb_refl. cbn [negb map]. rewrite P, Hs. repeat split; auto.
      intros j [<-|Hj]; [rewrite Nat.eqb_refl; discriminate|]. intros Hk. apply in_seq in Hj as Hj'.
      destruct (Nat.eqb_spec j a); [lia|]. destruct (O j Hj Hk) as (i & ? & ?). exists i. split; auto. lia. }
    destruct (N.eqb_spec (N.of_nat a + 1) (sr_idx head)) as [E|E].
    + apply Yes; [|left; auto]. rewrite Hp. assert (Hl : length l = S a) by lia. clear - Hl. destruct l as [|x l] using rev_ind; [cbn in Hl; lia|].
      rewrite app_length in Hl. cbn [length] in Hl. rewrite last_last, app_nth2 by lia. replace (a - length l)%nat with O by lia. reflexivity.
    + destruct (Hfs k) as ((Hh & Ht) & t & El).
      assert (Hlen : (length l <= length (ls k))%nat) by (rewrite El, app_length; lia).
      destruct (N.le_gt_cases (N.of_nat (length (ls k))) (N.of_nat a + w_cap w)) as [C|C].
      * unfold read_one_slot. rewrite (read_at w _ (ls k)); auto; try lia.
        apply Yes; cbn [sr_payload sr_idx]; [|right; exists k; auto]. rewrite El, app_nth1 by lia. reflexivity.
      * unfold read_one_slot. rewrite (read_lapped w _ (ls k)); auto.
        destruct (Ext false) as [E1 E2]. eexists _, _, _. split; [reflexivity|]. cbn [seq filter].
        rewrite E1, E2, Nat.eqb_refl. cbn [negb length]. split; [auto|]. split; [rewrite L; lia|]. split; auto.
        intros j [<-|Hj]; [exists k; split; lia|]. intros Hk. apply in_seq in Hj as Hj'.
        destruct (Nat.eqb_spec j a); [lia|]. destruct (O j Hj Hk) as (i & ? & ?). exists i. split; auto. lia.
Qed.
Lemma read_since w f l fs ls last max : current w f l -> (forall k, current w (fs k) (ls k) /\ exists t, ls k = l ++ t) ->
  (0 < last < length l)%nat ->
  let want := seq last (N.to_nat (N.min (N.of_nat (length l - last)) max)) in
  exists out lapped kept, read_slots_since f fs (N.of_nat last) max = Ret (out, lapped) /\
    map sr_payload out = map (fun j => nth j l []) (filter kept want) /\
    lapped = N.of_nat (length (filter (fun j => negb (kept j)) want)) /\
    (forall j, In j want -> kept j = false -> exists i, (j + N.to_nat (w_cap w) < length (ls i))%nat) /\
    Forall (fun s => sr_idx s = N.of_nat (length l) \/ exists i, sr_idx s = N.of_nat (length (ls i))) out.
Proof.
  intros (H & T) Hfs Hl want. unfold read_slots_since. rewrite (read_newest w f l) by auto.
  destruct (Nat.eqb_spec (length l) 0); [lia|]. destruct (N.eqb_spec (N.of_nat (length l)) (N.of_nat last)); [lia|]. cbn [orb].
  destruct (N.eqb_spec (N.of_nat last) 0); [lia|]. cbn [sr_idx].
  destruct (N.eqb_spec (N.of_nat (length l) - N.of_nat last) 0); [lia|].
  replace (N.of_nat (length l) - N.of_nat last) with (N.of_nat (length l - last)) by lia.
  destruct (read_range_spec w l (mkSlot (List.last l []) (N.of_nat (length l)) true) fs ls Hfs eq_refl eq_refl
    (N.to_nat (N.min (N.of_nat (length l - last)) max)) 0 last ltac:(lia) ltac:(lia)) as (out & lapped & kept & R & P & L & O & F).
  exists out, lapped, kept. repeat split; auto. intros j Hj Hk. destruct (O j Hj Hk) as (i & _ & ?). eauto.
Qed.
Lemma filter_all {A} (p : A -> bool) l : (forall x, In x l -> p x = true) -> filter p l = l.
Proof. induction l as [|x l IH]; intros H; cbn; [auto|]. rewrite H by (left; auto). f_equal. apply IH. intros; apply H; right; auto. Qed.
Lemma map_nth_seq {A} (d : A) l a b : (a + b <= length l)%nat -> map (fun j => nth j l d) (seq a b) = firstn b (skipn a l).
Proof.
  revert a. induction b as [|b IH]; intros a H; [reflexivity|]. cbn [seq map]. rewrite (skipn_all_nth d) by lia.
  cbn [firstn]. f_equal. apply IH. lia.
Qed.
Lemma echo_position_exact n slots last : Forall (fun s => sr_idx s = n) slots -> last <= n ->
  echo_position last slots = if (length slots =? 0)%nat then last else n.
Proof.
  intros F. unfold echo_position. revert last. induction F as [|s r Hs _ IH]; intros last Hl; cbn [fold_left length Nat.eqb]; [auto|].
  rewrite Hs, N.max_r by auto. rewrite IH by lia. destruct r; auto.
Qed.

Lemma poll_exact w f l last max : current w f l -> (0 < last <= length l)%nat -> (length l <= last + N.to_nat (w_cap w))%nat ->
  N.of_nat (length l - last) <= max ->
  exists slots, read_slots_since f (fun _ => f) (N.of_nat last) max = Ret (slots, 0) /\
    map sr_payload slots = messages l last (length l) /\ echo_position (N.of_nat last) slots = N.of_nat (length l).
Proof.
  intros C Hl Hc Hm. destruct (Nat.eq_dec last (length l)) as [E|E].
  - exists []. destruct C as (H & T). unfold read_slots_since. rewrite (read_newest w f l) by auto. rewrite E, N.eqb_refl, orb_true_r.
    split; [auto|]. unfold messages. rewrite Nat.sub_diag. split; [reflexivity|]. cbn. auto.
  - destruct (read_since w f l (fun _ => f) (fun _ => l) last max C) as (out & lapped & kept & R & P & L & O & F).
    { intros _. split; auto. exists []. rewrite app_nil_r. auto. } { lia. }
    rewrite N.min_l in P, L, O by auto. rewrite Nat2N.id in P, L, O.
    assert (K : forall j, In j (seq last (length l - last)) -> kept j = true).
    { intros j Hj. destruct (kept j) eqn:Hk; auto. destruct (O j Hj Hk) as (_ & Hi). apply in_seq in Hj. lia. }
    rewrite (filter_all kept) in P by auto. rewrite map_nth_seq in P by lia.
    exists out. rewrite R, L. split; [|split; auto].
    + do 2 f_equal. replace (filter _ _) with (@nil nat); auto. symmetry. clear -K. revert K. generalize (seq last (length l - last)). induction l0 as [|x r IH]; intros K; cbn; auto.
      rewrite K by (left; auto). cbn. apply IH. intros; apply K; right; auto.
    + rewrite (echo_position_exact (N.of_nat (length l))); [|eapply Forall_impl; [|exact F]; cbn; intros s [?|[_ ?]]; auto|lia].
      destruct (Nat.eqb_spec (length out) 0) as [Z|Z]; auto. exfalso. apply (f_equal (@length _)) in P.
      rewrite map_length, firstn_length, skipn_length in P. lia.
Qed.
Lemma messages_app l t : messages (l ++ t) (length l) (length (l ++ t)) = t.
Proof.
  unfold messages. rewrite skipn_app, skipn_all, Nat.sub_diag, app_length. cbn [app skipn]. replace (length l + length t - length l)%nat with (length t) by lia.
  apply firstn_all.
Qed.
Lemma messages_split l t u : messages (l ++ t ++ u) (length l) (length (l ++ t ++ u)) = t ++ u.
Proof. apply messages_app. Qed.
Lemma last_cons {A} (y d : A) ls : List.last (y :: ls) d = List.last ls y.
Proof.
  revert y d. induction ls as [|x ls IH]; intros y d; [reflexivity|]. change (List.last (x :: ls) d = List.last (x :: ls) y).
  rewrite (IH x d), (IH x y). reflexivity.
Qed.
Lemma echo_all w max polls : forall l ls, Forall2 (current w) polls ls -> (0 < length l)%nat ->
  paced (Nat.min (N.to_nat (w_cap w)) (N.to_nat max)) l ls ->
  exists t, List.last ls l = l ++ t /\ echo_run max (N.of_nat (length l)) polls = t.
Proof.
  induction polls as [|f polls IH]; intros l ls F Hl P; inv F; cbn [echo_run].
  - exists []. rewrite app_nil_r. auto.
  - cbn [paced] in P. destruct P as ((t & -> & Ht) & P). rename l' into ls.
    destruct (poll_exact w f (l ++ t) (length l) max H1) as (slots & R & Pay & Pos).
    { rewrite app_length. lia. } { rewrite app_length. lia. } { rewrite app_length. lia. }
    rewrite R, Pay, Pos, messages_app. destruct (IH (l ++ t) ls H3 ltac:(rewrite app_length; lia) P) as (u & E1 & E2).
    exists (t ++ u). rewrite E2. split; auto. rewrite app_assoc, <- E1. apply last_cons.
Qed.
Lemma read_range_lapped w f l head : current w f l -> sr_idx head = N.of_nat (length l) ->
  forall want k a, (a + want + N.to_nat (w_cap w) <= length l)%nat ->
  read_range (fun _ => f) k head (N.of_nat a + 1) want = Ret ([], N.of_nat want).
Proof.
  intros (H & T) Hh. assert (w_cap w <> 0) by (destruct H as [[] _ _ _]; apply pow2_pos; auto).
  induction want as [|want IH]; intros k a Hw; [reflexivity|]. cbn [read_range].
  destruct (N.eqb_spec (N.of_nat a + 1) (sr_idx head)); [lia|]. unfold read_one_slot. rewrite (read_lapped w f l); auto; [|lia].
  replace (N.of_nat a + 1 + 1) with (N.of_nat (S a) + 1) by lia. rewrite IH by lia. do 2 f_equal. lia.
Qed.
Lemma poll_stuck w f l last max : current w f l -> (0 < last)%nat -> (last + N.to_nat max + N.to_nat (w_cap w) <= length l)%nat ->
  read_slots_since f (fun _ => f) (N.of_nat last) max = Ret ([], max).
Proof.
  intros C Hl Hn. pose proof C as (H & T). assert (w_cap w <> 0) by (destruct H as [[] _ _ _]; apply pow2_pos; auto).
  unfold read_slots_since. rewrite (read_newest w f l) by auto.
  destruct (Nat.eqb_spec (length l) 0); [lia|]. destruct (N.eqb_spec (N.of_nat (length l)) (N.of_nat last)); [lia|]. cbn [orb].
  destruct (N.eqb_spec (N.of_nat last) 0); [lia|]. cbn [sr_idx].
  destruct (N.eqb_spec (N.of_nat (length l) - N.of_nat last) 0); [lia|]. rewrite N.min_r by lia.
  rewrite (read_range_lapped w f l) by (auto; lia). do 2 f_equal. lia.
Qed.

(** ** Files of unknown contents *)
Lemma mask_index c x : is_power_of_two c = true -> N.land x (c - 1) < c.
Proof. intros H. rewrite pow2_mask by auto. apply N.mod_lt, pow2_pos, H. Qed.
Lemma slot_fits c i s len : i < c -> required_region_len c s <= len -> data_slot_offset c i s + s <= len.
Proof. unfold required_region_len, data_slot_offset. intros. nia. Qed.
Lemma read_cases f last ord :
  match read_slot_inner f last ord with
  | Fault => word OFF_IS_POD 1 f <> POD_YES /\ exists slot, HEADER_SIZE <= slot /\ slot + 16 <= t_len f /\ U64 <= slot + 16 + word (slot + 8) 8 f
  | Ret None => True
  | Ret (Some s) => exists off, HEADER_SIZE <= off /\ off + N.of_nat (length (sr_payload s)) <= t_len f /\
      sr_payload s = peek off (length (sr_payload s)) f /\ sr_idx s = word OFF_TOTAL 8 f
  end.
Proof.
  unfold read_slot_inner.
  repeat match goal with |- context [if ?b then Ret None else _] => let E := fresh "E" in destruct b eqn:E; [exact I|] end.
  apply orb_false_iff in E1 as [E1 Em]. apply orb_false_iff in E1 as [E1 Ep]. apply negb_false_iff in Em, Ep.
  apply N.eqb_eq in Em. set (target := match ord with Some n => n | None => word OFF_TOTAL 8 f end) in *.
  pose proof (mask_index (word OFF_CAP 4 f) (target - 1) Ep) as Hi. rewrite <- Em in Hi.
  set (i := N.land (target - 1) (word OFF_MASK 4 f)) in *. clearbody i.
  destruct (N.eqb_spec (word OFF_IS_POD 1 f) POD_YES) as [Pod|Pod].
  - destruct (word OFF_TYPE_SIZE 4 f =? 0) eqn:Z; [exact I|].
    destruct (N.ltb_spec (t_len f) (required_region_len (word OFF_CAP 4 f) (word OFF_TYPE_SIZE 4 f))); [exact I|].
    pose proof (slot_fits _ _ _ _ Hi H) as Fit. unfold get_slice. apply N.leb_le in Fit as Fit'. rewrite Fit'.
    cbn [sr_payload sr_idx]. rewrite peek_length, N2Nat.id. eexists. repeat split; eauto.
    unfold data_slot_offset, data_region_offset. lia.
  - destruct (N.ltb_spec (word OFF_SLOT 4 f) 16); [exact I|].
    destruct (N.ltb_spec (t_len f) (required_region_len (word OFF_CAP 4 f) (word OFF_SLOT 4 f))); [exact I|].
    pose proof (slot_fits _ _ _ _ Hi H0) as Fit. set (start := data_slot_offset _ i _) in *.
    assert (HEADER_SIZE <= start) by (unfold start, data_slot_offset, data_region_offset; lia). clearbody start.
    destruct (N.ltb_spec (t_len f) (start + 8 + 8)); [lia|].
    destruct (word (start + 8) 8 f =? 0); [exact I|].
    destruct (N.leb_spec U64 (start + 16 + word (start + 8) 8 f)).
    + split; auto. exists start. repeat split; auto. lia.
    + destruct (N.ltb_spec (t_len f) (start + 16 + word (start + 8) 8 f)); [exact I|].
      unfold get_slice. apply N.leb_le in H4 as H5. rewrite H5. cbn [sr_payload sr_idx]. rewrite peek_length, N2Nat.id.
      exists (start + 16). repeat split; auto. lia.
Qed.

Lemma open_spec f w : open_path f = Some w ->
  HEADER_SIZE <= t_len f /\ word 0 8 f = TOPIC_MAGIC /\ w_type w = word OFF_TYPE_SIZE 4 f /\ w_cap w = word OFF_CAP 4 f /\
  w_mask w = word OFF_MASK 4 f /\ w_slot w = word OFF_SLOT 4 f /\ w_pod w = (word OFF_IS_POD 1 f =? POD_YES) /\
  is_power_of_two (w_cap w) = true /\ w_mask w = w_cap w - 1 /\
  (let stride := if w_pod w then w_type w else w_slot w in stride <> 0 /\ required_region_len (w_cap w) stride <= t_len f).
Proof.
  unfold open_path. intros H.
  repeat match type of H with (if ?b then None else _) = _ => let E := fresh "E" in destruct b eqn:E; [discriminate|] end.
  inv H. cbn [w_type w_cap w_mask w_slot w_pod]. bool_prop. repeat split; auto.
Qed.
Lemma poke_other i off d f : i < off \/ off + N.of_nat (length d) <= i -> t_at (poke off d f) i = t_at f i.
Proof. intros H. cbn [poke t_at]. destruct (_ && _) eqn:E; auto. bool_prop. lia. Qed.
Definition serial_import (w : RingWriter) (h : N) (m : bytes) (f : TF) : TF :=
  let start := data_slot_offset (w_cap w) (h mod w_cap w) (w_slot w) in
  poke OFF_HEAD (le_enc 8 (add64 h 1)) (poke start (le_enc 8 (add64 h 1)) (poke (start + 16) m (poke (start + 8) (le_enc 8 (N.of_nat (length m))) f))).
Definition pod_import (w : RingWriter) (h : N) (m : bytes) (f : TF) : TF :=
  poke OFF_HEAD (le_enc 8 (add64 h 1)) (poke (seq_slot_offset (h mod w_cap w)) (le_enc 8 (add64 h 1))
    (poke (data_slot_offset (w_cap w) (h mod w_cap w) (w_type w)) m f)).
Definition fits (w : RingWriter) (m : bytes) : bool :=
  if w_pod w then N.of_nat (length m) =? w_type w else N.of_nat (length m) + 16 <=? w_slot w.
Lemma ring_write_cases w f g m : open_path f = Some w -> t_len g = t_len f ->
  let h := word OFF_HEAD 8 g in
  let body := if w_pod w then pod_import w h m g else serial_import w h m g in
  word OFF_TOTAL 8 body = word OFF_TOTAL 8 g /\
  ring_write w m g = Ret (if fits w m then poke OFF_TOTAL (le_enc 8 (add64 (word OFF_TOTAL 8 g) 1)) body else g, fits w m).
Proof.
  intros O L h body. destruct (open_spec f w O) as (B0 & _ & _ & _ & _ & _ & _ & P2 & Mk & St & Fit). rewrite <- L in B0, Fit. clear f O L.
  pose proof (mask_index (w_cap w) h P2) as Hi. rewrite pow2_mask in Hi by auto.
  unfold ring_write, fits, body. destruct (w_pod w).
  - assert (T : word OFF_TOTAL 8 (pod_import w h m g) = word OFF_TOTAL 8 g).
    { unfold pod_import. rewrite !word_other; rewrite ?le_enc_length; auto; unfold seq_slot_offset, data_slot_offset, data_region_offset; offs; lia. }
    split; [exact T|]. unfold write_pod. destruct (N.eqb_spec (N.of_nat (length m)) (w_type w)) as [E|E]; cbn [negb]; [|reflexivity].
    fold h. rewrite Mk, pow2_mask by auto. pose proof (slot_fits _ _ _ _ Hi Fit) as S.
    destruct (N.ltb_spec (t_len g) (data_slot_offset (w_cap w) (h mod w_cap w) (w_type w) + w_type w)); [lia|].
    rewrite (store_ok _ m g) by (rewrite E; auto).
    rewrite (store_ok (seq_slot_offset _)) by (rewrite le_enc_length, t_len_poke; unfold seq_slot_offset, required_region_len, data_region_offset in *; nia).
    rewrite (store_ok OFF_HEAD) by (rewrite le_enc_length, !t_len_poke; offs; lia).
    fold (pod_import w h m g). unfold bump_total.
    rewrite store_ok by (rewrite le_enc_length; unfold pod_import; rewrite !t_len_poke; offs; lia). rewrite T. reflexivity.
  - assert (T : word OFF_TOTAL 8 (serial_import w h m g) = word OFF_TOTAL 8 g).
    { unfold serial_import. cbv zeta. rewrite !word_other; rewrite ?le_enc_length; auto; unfold data_slot_offset, data_region_offset; offs; lia. }
    split; [exact T|]. unfold write_serialized.
    destruct (N.ltb_spec (w_slot w) 16); [destruct (N.leb_spec (N.of_nat (length m) + 16) (w_slot w)); [lia|reflexivity]|].
    destruct (N.ltb_spec (w_slot w - 16) (N.of_nat (length m))); (destruct (N.leb_spec (N.of_nat (length m) + 16) (w_slot w))); try lia; [reflexivity|].
    fold h. rewrite Mk, pow2_mask by auto. pose proof (slot_fits _ _ _ _ Hi Fit) as S.
    destruct (N.ltb_spec (t_len g) (data_slot_offset (w_cap w) (h mod w_cap w) (w_slot w) + w_slot w)); [lia|].
    rewrite (store_ok (_ + 8)) by (rewrite le_enc_length; lia).
    rewrite (store_ok (_ + 16)) by (rewrite t_len_poke; lia).
    rewrite (store_ok (data_slot_offset _ _ _)) by (rewrite le_enc_length, !t_len_poke; lia).
    rewrite (store_ok OFF_HEAD) by (rewrite le_enc_length, !t_len_poke; offs; lia).
    fold (serial_import w h m g). unfold bump_total.
    rewrite store_ok by (rewrite le_enc_length; unfold serial_import; cbv zeta; rewrite !t_len_poke; offs; lia). rewrite T. reflexivity.
Qed.
Lemma import_frame w f g m : open_path f = Some w -> t_len g = t_len f ->
  exists g', ring_write w m g = Ret (g', fits w m) /\ t_len g' = t_len g /\
    (fits w m = false -> g' = g) /\ forall i, ~ import_area w g i -> t_at g' i = t_at g i.
Proof.
  intros O L. destruct (ring_write_cases w f g m O L) as [_ R]. eexists. split; [exact R|].
  destruct (fits w m) eqn:E; [|repeat split; auto]. split; [destruct (w_pod w); reflexivity|]. split; [discriminate|].
  intros i Hi. unfold import_area in Hi. unfold fits in E. unfold pod_import, serial_import. destruct (w_pod w) eqn:P.
  - apply N.eqb_eq in E. rewrite !poke_other; rewrite ?le_enc_length; auto; unfold seq_slot_offset, data_slot_offset in *; offs; lia.
  - apply N.leb_le in E. cbv zeta. rewrite !poke_other; rewrite ?le_enc_length; auto; unfold data_slot_offset in *; offs; lia.
Qed.
Lemma import_visible w f f' m last : open_path f = Some w -> word OFF_HEAD 8 f = word OFF_TOTAL 8 f -> word OFF_HEAD 8 f + 1 < 2 ^ 63 ->
  t_len f < 2 ^ 63 -> ring_write w m f = Ret (f', true) -> m <> [] -> word OFF_HEAD 8 f + 1 <> last ->
  read_latest_slot_bytes f' last = Ret (Some (mkSlot m (word OFF_HEAD 8 f + 1) (w_pod w))).
Proof.
  intros O HT Hn Hl R Hm Hlast. destruct (ring_write_cases w f f m O eq_refl) as [T R']. rewrite R in R'.
  assert (Inj : forall (a b : TF * bool), Ret a = Ret b -> a = b) by (intros ? ? [= ]; auto). apply Inj in R'. clear Inj R.
  destruct (fits w m) eqn:Fi; [|inversion R']. assert (f' = _) by (apply (f_equal fst) in R'; exact R'). cbn [fst] in H. clear R'.
  destruct (open_spec f w O) as (B0 & Mg & Ty & Cp & Mk' & Sl & Pd & P2 & Mk & St & Fit).
  set (h := word OFF_HEAD 8 f) in *. rewrite <- HT in H.
  pose proof (mask_index (w_cap w) h P2) as Hi. rewrite pow2_mask in Hi by auto.
  assert (Ha : add64 h 1 = h + 1) by (apply add64_small; unfold U64; lia). rewrite Ha in H.
  assert (Hdr : forall off n, off + N.of_nat n <= OFF_TOTAL \/ (OFF_CAP <= off /\ off + N.of_nat n <= HEADER_SIZE) -> word off n f' = word off n f).
  { intros off n Ho. rewrite H. rewrite word_other by (rewrite le_enc_length; offs; lia). unfold pod_import, serial_import. cbv zeta.
    destruct (w_pod w); rewrite !word_other; rewrite ?le_enc_length; auto; unfold seq_slot_offset, data_slot_offset, data_region_offset; offs; lia. }
  assert (Len : t_len f' = t_len f) by (rewrite H; destruct (w_pod w); reflexivity).
  assert (Tot : word OFF_TOTAL 8 f' = h + 1) by (rewrite H; apply word_same8; unfold U64; lia).
  unfold read_latest_slot_bytes, read_slot_inner.
  rewrite Len, Tot, !(Hdr 0), !(Hdr OFF_TYPE_SIZE), !(Hdr OFF_IS_POD), !(Hdr OFF_CAP), !(Hdr OFF_MASK), !(Hdr OFF_SLOT) by (offs; lia).
  rewrite Mg, <- Ty, <- Cp, <- Mk', <- Sl, <- Pd, Mk, P2, !N.eqb_refl. cbn [negb orb].
  destruct (N.ltb_spec (t_len f) HEADER_SIZE); [lia|]. pose proof (pow2_pos _ P2). destruct (N.eqb_spec (w_cap w) 0); [contradiction|]. cbn [orb].
  destruct (N.eqb_spec (h + 1) 0); [lia|]. destruct (N.eqb_spec (h + 1) last); [contradiction|]. cbn [orb].
  rewrite N.ltb_irrefl. cbn [orb]. rewrite N.sub_diag. destruct (N.leb_spec (w_cap w) 0); [lia|].
  rewrite pow2_mask by auto. replace (h + 1 - 1) with h by lia. unfold fits in Fi. destruct (w_pod w).
  - apply N.eqb_eq in Fi. destruct (N.eqb_spec (w_type w) 0); [contradiction|].
    destruct (N.ltb_spec (t_len f) (required_region_len (w_cap w) (w_type w))); [lia|].
    pose proof (slot_fits _ _ _ _ Hi Fit) as S. unfold get_slice. rewrite Len. apply N.leb_le in S. rewrite S.
    do 3 f_equal. rewrite H. rewrite peek_other by (rewrite le_enc_length; unfold data_slot_offset, data_region_offset; offs; lia).
    unfold pod_import. rewrite peek_other by (rewrite le_enc_length; unfold data_slot_offset, data_region_offset; offs; lia).
    rewrite peek_other by (rewrite le_enc_length; unfold seq_slot_offset, data_slot_offset, data_region_offset; offs; lia).
    rewrite <- Fi, Nat2N.id. apply peek_same.
  - apply N.leb_le in Fi. destruct (N.ltb_spec (w_slot w) 16); [lia|].
    destruct (N.ltb_spec (t_len f) (required_region_len (w_cap w) (w_slot w))); [lia|].
    pose proof (slot_fits _ _ _ _ Hi Fit) as S. set (start := data_slot_offset (w_cap w) (h mod w_cap w) (w_slot w)) in *.
    assert (HS : HEADER_SIZE <= start) by (unfold start, data_slot_offset, data_region_offset; lia).
    destruct (N.ltb_spec (t_len f) (start + 8 + 8)); [lia|].
    assert (Dl : word (start + 8) 8 f' = N.of_nat (length m)).
    { rewrite H. rewrite word_other by (rewrite le_enc_length; offs; lia). cbv iota. unfold serial_import. fold start. cbv zeta.
      rewrite word_other by (rewrite le_enc_length; offs; lia). rewrite word_other by (rewrite le_enc_length; lia). rewrite word_other by lia.
      apply word_same8. unfold U64. lia. }
    rewrite Dl. destruct (N.eqb_spec (N.of_nat (length m)) 0); [destruct m; [contradiction|cbn in *; lia]|].
    destruct (N.leb_spec U64 (start + 16 + N.of_nat (length m))); [unfold U64 in *; lia|].
    destruct (N.ltb_spec (t_len f) (start + 16 + N.of_nat (length m))); [lia|].
    unfold get_slice. rewrite Len. destruct (N.leb_spec (start + 16 + N.of_nat (length m)) (t_len f)); [|lia].
    do 3 f_equal. rewrite H. rewrite peek_other by (rewrite le_enc_length; offs; lia). cbv iota. unfold serial_import. fold start. cbv zeta.
    rewrite peek_other by (rewrite le_enc_length; offs; lia). rewrite peek_other by (rewrite le_enc_length; lia). rewrite Nat2N.id. apply peek_same.
Qed.

(** ** What goes wrong *)
Lemma lrun_try w h : forall f p c s oks, (forall m, ~ In (LSend m) h) -> is_power_of_two (w_cap w) = true -> w_mask w = w_cap w - 1 ->
  Forall (fun m => N.of_nat (length m) = w_type w) (sent h) ->
  lrun w (f, p, c) h = (s, oks) -> word OFF_TOTAL 8 (fst (fst s)) = word OFF_TOTAL 8 f.
Proof.
  induction h as [|e h IH]; intros f p c s oks U P2 Mk Hm R; cbn [lrun] in R.
  - inv R. reflexivity.
  - destruct (lstep w (f, p, c) e) as [[[f1 p1] c1] ok] eqn:E. destruct (lrun w (f1, p1, c1) h) as [s2 oks2] eqn:R2. inv R.
    assert (Hm' : Forall (fun m => N.of_nat (length m) = w_type w) (sent h)).
    { unfold sent in *. cbn [flat_map] in Hm. apply Forall_app in Hm. tauto. }
    rewrite (IH f1 p1 c1 _ _ ltac:(intros m Hi; apply (U m); right; auto) P2 Mk Hm' R2).
    destruct e as [m|m|]; cbn [lstep] in E; [exfalso; apply (U m); left; auto| |].
    + destruct (try_send_pod w p m f) as [[p' f'] ok'] eqn:E'. inv E. unfold try_send_pod in E'. cbv zeta in E'.
      set (tail := if w_cap w <=? sub64 (lo_head p) (lo_tail p) then word OFF_TAIL 8 f else lo_tail p) in E'. clearbody tail.
      destruct (w_cap w <=? sub64 (lo_head p) tail); inv E'; auto.
      rewrite !word_other; rewrite ?le_enc_length; auto; unfold seq_slot_offset, data_slot_offset, data_region_offset; offs; lia.
    + destruct (recv_pod false w c f) as [[c' f'] o] eqn:E'. inv E. unfold recv_pod in E'. cbv zeta in E'. rewrite andb_false_l in E'.
      set (head := if lo_head c =? lo_tail c then word OFF_HEAD 8 f else lo_head c) in E'. clearbody head.
      destruct (head =? lo_tail c); apply (f_equal (fun x => snd (fst x))) in E'; cbn [fst snd] in E'; subst f1; [auto|].
      destruct (N.land _ _ =? 0); [|auto]. apply word_other. rewrite le_enc_length. offs. lia.
Qed.
Lemma read_total_zero f last : word OFF_TOTAL 8 f = 0 -> read_latest_slot_bytes f last = Ret None.
Proof.
  intros H. unfold read_latest_slot_bytes, read_slot_inner. rewrite H. change (0 =? 0) with true. rewrite orb_true_l.
  repeat match goal with |- (if ?b then _ else _) = _ => destruct b; [reflexivity|] end. reflexivity.
Qed.

(** A message counted and not yet written. *)
Lemma read_between w f l : current w f l -> N.of_nat (length l) + 1 < 2 ^ 63 -> (N.to_nat (w_cap w) <= length l)%nat ->
  forall last, last <> N.of_nat (length l) + 1 ->
  read_latest_slot_bytes (count_send f) last =
    Ret (Some (mkSlot (nth (length l - N.to_nat (w_cap w)) l []) (N.of_nat (length l) + 1) true)).
Proof.
  intros (H & T) Hn Hc last Hlast.
  assert (Hc' : holds w (count_send f) l) by (apply holds_poke; auto; right; rewrite le_enc_length; offs; lia).
  assert (Tc : word OFF_TOTAL 8 (count_send f) = N.of_nat (length l) + 1).
  { unfold count_send. rewrite word_same8; rewrite T, add64_small by (unfold U64; lia); auto. unfold U64. lia. }
  destruct Hc' as [G S Hd Sl]. pose proof G as []. pose proof (pow2_pos _ g_cap) as Hp.
  destruct (Sl (length l - N.to_nat (w_cap w))%nat ltac:(lia) ltac:(lia)) as [A _].
  unfold read_latest_slot_bytes, read_slot_inner. set (g := count_send f) in *. clearbody g.
  rewrite g_magic, g_wtype, g_wpod, Tc, g_wcap, g_wmask, g_mask, g_cap, !N.eqb_refl. cbn [negb orb].
  destruct (N.ltb_spec (t_len g) HEADER_SIZE) as [F|_]; [unfold required_region_len, data_region_offset in g_len; lia|].
  destruct (N.eqb_spec (w_cap w) 0); [contradiction|]. cbn [negb orb].
  destruct (N.eqb_spec (N.of_nat (length l) + 1) 0); [lia|]. destruct (N.eqb_spec (N.of_nat (length l) + 1) last); [congruence|]. cbn [orb].
  rewrite N.ltb_irrefl, N.sub_diag. cbn [orb]. destruct (N.leb_spec (w_cap w) 0); [lia|].
  rewrite pow2_mask by auto. replace (N.of_nat (length l) + 1 - 1) with (N.of_nat (length l)) by lia.
  assert (E : N.of_nat (length l) mod w_cap w = N.of_nat (length l - N.to_nat (w_cap w)) mod w_cap w).
  { replace (N.of_nat (length l)) with (N.of_nat (length l - N.to_nat (w_cap w)) + 1 * w_cap w) by lia. apply N.mod_add. auto. }
  rewrite E. destruct (N.eqb_spec (w_type w) 0); [contradiction|].
  destruct (N.ltb_spec (t_len g) (required_region_len (w_cap w) (w_type w))); [lia|].
  pose proof (slot_fits _ _ _ _ (N.mod_lt (N.of_nat (length l - N.to_nat (w_cap w))) _ Hp) g_len) as Fit.
  unfold get_slice. apply N.leb_le in Fit. rewrite Fit, A. reflexivity.
Qed.
Lemma send_current w f l p m p' f' : current w f l -> lo_head p = N.of_nat (length l) -> N.of_nat (length l) + 1 < 2 ^ 63 ->
  N.of_nat (length m) = w_type w -> send_pod w p m f = (p', f', true) -> current w f' (l ++ [m]).
Proof.
  intros (H & T) P Hn Hm E.
  assert (R : lrun w (f, p, mkLocal 0 0) [LSend m] = ((f', p', mkLocal 0 0), [true])) by (cbn [lrun lstep]; rewrite E; reflexivity).
  destruct (fun a b c d => lrun_holds w [LSend m] f p (mkLocal 0 0) l _ _ H T P a b c R d) as (A & B & _).
  - cbn. constructor; auto.
  - intros x [D|[]]. discriminate.
  - cbn [length]. lia.
  - intros [|k] x D; cbn in D |- *; auto. destruct k; discriminate.
  - split; auto.
Qed.

(** The subscriber that waits for the stamp and has been lapped. *)
Lemma stamp_lapped w f l t : holds w f l -> (t + N.to_nat (w_cap w) < length l)%nat ->
  word (seq_slot_offset (N.of_nat t mod w_cap w)) 8 f <> N.of_nat t + 1.
Proof.
  intros [G S Hd Sl] Ht. pose proof G as []. pose proof (pow2_pos _ g_cap) as Hp. set (c := w_cap w) in *.
  set (d := (N.of_nat (length l) - 1 - N.of_nat t) mod c). assert (Hdl : d < c) by (apply N.mod_lt; auto).
  set (k := N.of_nat (length l) - 1 - d).
  assert (Ek : k mod c = N.of_nat t mod c).
  { unfold k. replace (N.of_nat (length l) - 1 - d) with (N.of_nat t + ((N.of_nat (length l) - 1 - N.of_nat t) / c) * c).
    - apply N.mod_add. auto.
    - unfold d. pose proof (N.div_mod (N.of_nat (length l) - 1 - N.of_nat t) c Hp). lia. }
  destruct (Sl (N.to_nat k) ltac:(unfold k; lia) ltac:(unfold k; lia)) as [_ B]. rewrite N2Nat.id, Ek in B. rewrite B. unfold k. lia.
Qed.
Lemma stalled w h : forall f l c t, holds w f l -> lo_tail c = N.of_nat t -> (t + N.to_nat (w_cap w) < length l)%nat ->
  lo_tail c <= lo_head c -> lo_head c <= N.of_nat (length l) ->
  Forall (fun m => N.of_nat (length m) = w_type w) (imported h) -> N.of_nat (length l + length h) < 2 ^ 63 ->
  exists f' c', irun true w f c h = Ret (f', c', []).
Proof.
  induction h as [|e h IH]; intros f l c t H Ht Hl H1 H2 Hm Hn; [exists f, c; reflexivity|]. cbn [length] in Hn. destruct e as [m|]; cbn [irun].
  - unfold imported in Hm. cbn [flat_map app] in Hm. inv Hm.
    destruct (import_step w f l m H ltac:(lia) H4) as (f1 & E & Hf & _). rewrite E.
    eapply (IH f1 (l ++ [m]) c t); eauto; rewrite ?app_length; cbn [length]; lia.
  - unfold recv_pod. set (head := if lo_head c =? lo_tail c then word OFF_HEAD 8 f else lo_head c).
    assert (Hh : lo_tail c <= head /\ head <= N.of_nat (length l) /\ head <> lo_tail c).
    { unfold head. destruct H as [_ _ Hd _]. destruct (N.eqb_spec (lo_head c) (lo_tail c)); rewrite ?Hd; lia. }
    destruct (N.eqb_spec head (lo_tail c)); [lia|]. pose proof (stamp_lapped w f l t H Hl) as St. pose proof H as [G S Hd Sl]. destruct G.
    rewrite g_mask, pow2_mask, Ht, add64_small by (auto; unfold U64; lia). apply N.eqb_neq in St. rewrite St. cbn [negb andb].
    destruct (IH f l (mkLocal head (N.of_nat t)) t) as (f' & c' & R); cbn [lo_tail lo_head]; auto; try lia.
    rewrite R. eauto.
Qed.
