(** Proofs about log entries sent to other machines. *)
From Coq Require Import String.
From Verif.Base Require Import Prelude Bytes Str.
From Verif.Model Require Import LogEntry LogNet.
From Verif.Spec Require Import LogNetSpec.
Local Open Scope N_scope.
Local Open Scope list_scope.

(** ** Reading what was written *)
Lemma sub_app a b c : sub (a ++ b ++ c) (length a) (length b) = Some b.
Proof.
  unfold sub. rewrite !app_length. replace (length a + length b <=? length a + (length b + length c))%nat with true by (symmetry; apply Nat.leb_le; lia).
  f_equal. rewrite slice_app_r by lia. rewrite Nat.sub_diag, slice_app_l by (cbn [Nat.add]; lia). apply slice_all. reflexivity.
Qed.
Lemma enc16_len s : length (enc16 s) = (2 + length s)%nat.
Proof. unfold enc16. rewrite app_length, le_enc_length. reflexivity. Qed.
Lemma pow2 : 256 ^ N.of_nat 2 = 65536.
Proof. reflexivity. Qed.
Lemma text_at_enc a s c : N.of_nat (length s) < 65536 -> text_at (a ++ enc16 s ++ c) (length a) = inl (s, (length a + 2 + length s)%nat).
Proof.
  intros L. unfold text_at, enc16. rewrite <- !app_assoc. rewrite N.mod_small by exact L. set (w := le_enc 2 (N.of_nat (length s))).
  assert (Lw : length w = 2%nat) by apply le_enc_length. pose proof (sub_app a w (s ++ c)) as S1. rewrite Lw in S1. rewrite S1.
  assert (D : le_dec w = N.of_nat (length s)) by (apply le_dec_enc; rewrite pow2; exact L). rewrite D, Nat2N.id. rewrite !app_length, Lw.
  replace (length a + (2 + (length s + length c)) <? length a + 2)%nat with false by (symmetry; apply Nat.ltb_ge; lia).
  replace (length a + (2 + (length s + length c)) <? length a + 2 + length s)%nat with false by (symmetry; apply Nat.ltb_ge; lia).
  pose proof (sub_app (a ++ w) s c) as S2. rewrite <- !app_assoc in S2. rewrite app_length, Lw in S2. rewrite S2. reflexivity.
Qed.
Lemma text_at_ok data pos : text_at data pos <> inr true.
Proof.
  unfold text_at, sub. destruct (length data <? pos + 2)%nat eqn:A; [discriminate|]. apply Nat.ltb_ge in A. replace (pos + 2 <=? length data)%nat with true by (symmetry; apply Nat.leb_le; lia).
  set (n := N.to_nat _). destruct (length data <? pos + 2 + n)%nat eqn:B; [discriminate|]. apply Nat.ltb_ge in B. replace (pos + 2 + n <=? length data)%nat with true by (symmetry; apply Nat.leb_le; lia). discriminate.
Qed.
Lemma entries_at_ok lossy host data : forall count pos, entries_at lossy host data pos count <> None.
Proof.
  induction count as [|c IH]; intros pos; cbn [entries_at]; [discriminate|]. pose proof (text_at_ok data pos) as T. destruct (text_at data pos) as [[name p1]|[|]]; [|congruence|discriminate].
  destruct (length data <=? p1)%nat eqn:A; [discriminate|]. apply Nat.leb_gt in A. destruct (nth_error data p1) as [l|] eqn:E; [|apply nth_error_None in E; lia].
  pose proof (text_at_ok data (p1 + 1)) as T2. destruct (text_at data (p1 + 1)) as [[msg p2]|[|]]; [|congruence|discriminate]. specialize (IH p2). destruct (entries_at lossy host data p2 c); [discriminate|congruence].
Qed.
Lemma handle_ok lossy data : handle_remote_logs lossy data <> None.
Proof.
  unfold handle_remote_logs. destruct (length data <? 4)%nat; [discriminate|]. pose proof (text_at_ok data 0) as T. destruct (text_at data 0) as [[host p1]|[|]]; [|congruence|discriminate].
  destruct (length data <? p1 + 2)%nat eqn:A; [discriminate|]. apply Nat.ltb_ge in A. unfold sub. replace (p1 + 2 <=? length data)%nat with true by (symmetry; apply Nat.leb_le; lia). apply entries_at_ok.
Qed.
Lemma entries_at_count lossy host data : forall count pos l, entries_at lossy host data pos count = Some l -> (length l <= count)%nat /\ forall r, In r l -> exists name, rm_name r = prefixed host name.
Proof.
  induction count as [|c IH]; intros pos l H; cbn [entries_at] in H; [injection H as <-; split; [reflexivity|intros r []]|].
  assert (Z : Some [] = Some l -> (length l <= S c)%nat /\ forall r : remote, In r l -> exists name, rm_name r = prefixed host name) by (intros X; injection X as <-; split; [cbn; lia|intros r []]).
  destruct (text_at data pos) as [[name p1]|[|]]; [|discriminate|auto]. destruct (length data <=? p1)%nat; [auto|]. destruct (nth_error data p1); [|discriminate].
  destruct (text_at data (p1 + 1)) as [[msg p2]|[|]]; [|discriminate|auto]. destruct (entries_at lossy host data p2 c) as [r|] eqn:E; [|discriminate]. injection H as <-. destruct (IH _ _ E) as [A B].
  split; [cbn [length]; lia|]. intros x [<-|I]; [exists (lossy name); reflexivity|apply B, I].
Qed.
Lemma level_type t : type_of_level (level_byte t) = match t with Publish | Subscribe => Info | x => x end.
Proof. destruct t; reflexivity. Qed.
Lemma enc_entry_len e : length (enc_entry e) = (5 + length (le_node e) + length (le_message e))%nat.
Proof. unfold enc_entry. rewrite !app_length, !enc16_len. cbn [length]. lia. Qed.
(** The entries are read back. *)
Lemma entries_back lossy host : (forall s, utf8 s = true -> lossy s = s) -> forall es a, Forall carried_entry es ->
  entries_at lossy host (a ++ flat_map enc_entry es) (length a) (length es) = Some (map (image host) es).
Proof.
  intros U. induction es as [|e r IH]; intros a F; cbn [length entries_at flat_map map]; [reflexivity|]. inversion F as [|x y [[U1 L1] [U2 L2]] F']; subst.
  set (rest := flat_map enc_entry r) in *.
  assert (Hd : a ++ enc_entry e ++ rest = a ++ enc16 (le_node e) ++ [level_byte (le_type e)] ++ enc16 (le_message e) ++ rest) by (unfold enc_entry; rewrite <- !app_assoc; reflexivity).
  rewrite Hd. rewrite text_at_enc by exact L1.
  assert (Hlen : (length (a ++ enc16 (le_node e) ++ [level_byte (le_type e)] ++ enc16 (le_message e) ++ rest) <=? length a + 2 + length (le_node e))%nat = false).
  { apply Nat.leb_gt. rewrite !app_length, !enc16_len. cbn [length]. lia. }
  rewrite Hlen.
  assert (Hn : nth_error (a ++ enc16 (le_node e) ++ [level_byte (le_type e)] ++ enc16 (le_message e) ++ rest) (length a + 2 + length (le_node e)) = Some (level_byte (le_type e))).
  { rewrite nth_error_app2 by lia. rewrite nth_error_app2 by (rewrite enc16_len; lia). rewrite enc16_len. replace (length a + 2 + length (le_node e) - length a - (2 + length (le_node e)))%nat with 0%nat by lia. reflexivity. }
  rewrite Hn.
  pose proof (text_at_enc (a ++ enc16 (le_node e) ++ [level_byte (le_type e)]) (le_message e) rest L2) as T. rewrite <- !app_assoc in T. rewrite !app_length, enc16_len in T. cbn [length] in T.
  replace (length a + 2 + length (le_node e) + 1)%nat with (length a + (2 + length (le_node e) + 1))%nat by lia. rewrite T.
  specialize (IH (a ++ enc_entry e) F'). rewrite <- !app_assoc, Hd in IH. rewrite app_length, enc_entry_len in IH.
  replace (length a + (2 + length (le_node e) + 1) + 2 + length (le_message e))%nat with (length a + (5 + length (le_node e) + length (le_message e)))%nat by lia. rewrite IH. f_equal. f_equal.
  unfold image, prefixed. rewrite level_type, (U _ U1), (U _ U2). destruct (le_type e); reflexivity.
Qed.
(** A payload with these entries. *)
Definition payload (host : bytes) (es : list entry) : bytes := enc16 host ++ le_enc 2 (N.of_nat (length es) mod 65536) ++ flat_map enc_entry es.
Lemma payload_back lossy host es : (forall s, utf8 s = true -> lossy s = s) -> carried host -> Forall carried_entry es -> N.of_nat (length es) < 65536 -> handle_remote_logs lossy (payload host es) = Some (map (image host) es).
Proof.
  intros U [H1 H2] F L. unfold handle_remote_logs, payload. rewrite N.mod_small by exact L. set (w := le_enc 2 (N.of_nat (length es))). assert (Lw : length w = 2%nat) by apply le_enc_length.
  replace (length (enc16 host ++ w ++ flat_map enc_entry es) <? 4)%nat with false by (symmetry; apply Nat.ltb_ge; rewrite !app_length, enc16_len, Lw; lia).
  pose proof (text_at_enc [] host (w ++ flat_map enc_entry es) H2) as T. cbn [app length] in T. rewrite T. cbn [Nat.add].
  replace (length (enc16 host ++ w ++ flat_map enc_entry es) <? S (S (length host + 2)))%nat with false by (symmetry; apply Nat.ltb_ge; rewrite !app_length, enc16_len, Lw; lia).
  pose proof (sub_app (enc16 host) w (flat_map enc_entry es)) as S1. rewrite enc16_len, Lw in S1. cbn [Nat.add] in S1. rewrite S1.
  assert (D : le_dec w = N.of_nat (length es)) by (apply le_dec_enc; rewrite pow2; exact L). rewrite D, Nat2N.id.
  pose proof (entries_back lossy (lossy host) U es (enc16 host ++ w) F) as E. rewrite <- app_assoc in E. rewrite app_length, enc16_len, Lw in E. transitivity (entries_at lossy (lossy host) (enc16 host ++ w ++ flat_map enc_entry es) (2 + length host + 2) (length es)); [f_equal; lia|]. rewrite E, (U _ H1). reflexivity.
Qed.

(** ** Histories *)
Lemma filter_short {A} (f : A -> bool) l : (length (filter f l) <= length l)%nat.
Proof. induction l as [|x r IH]; cbn [filter length]; [lia|]. destruct (f x); cbn [length]; lia. Qed.
Definition wanted (l : rlevel) (es : list entry) : list entry := filter (fun e => should_replicate l (le_type e)) es.
(** A sender holds these entries. *)
Definition holding (d : LogDrain) (es : list entry) : Prop := ld_batch d = flat_map enc_entry es /\ ld_count d = N.of_nat (length es).
(** Sent so far are these groups, held are [pend]; together what was wanted of the entries before the sender's position. *)
Definition inv (n0 : nat) (level : rlevel) (host : bytes) (s : LState) (gs : list (list entry)) (pend : list entry) : Prop :=
  let d := l_drain s in
  ld_level d = level /\ ld_host d = host /\ (n0 <= ld_last d <= length (l_log s))%nat /\ holding d pend /\ N.of_nat (length pend) < 64 /\ l_out s = map (payload host) gs /\ Forall (fun g => N.of_nat (length g) < 65536) gs /\
  concat gs ++ pend = wanted level (skipn n0 (firstn (ld_last d) (l_log s))).
Lemma flat_map_app' (f : entry -> bytes) a b : flat_map f (a ++ b) = flat_map f a ++ flat_map f b.
Proof. induction a as [|x r IH]; cbn [app flat_map]; [reflexivity|]. rewrite IH, app_assoc. reflexivity. Qed.
Lemma flush_holding d es late : holding d es -> N.of_nat (length es) < 65536 ->
  (snd (flush d late) = Some (payload (ld_host d) es) /\ fst (flush d late) = mkLogDrain (ld_last d) (ld_level d) [] 0 (ld_host d)) \/
  (snd (flush d late) = None /\ fst (flush d late) = d /\ N.of_nat (length es) < 64 /\ (es = [] \/ late = false)).
Proof.
  intros [B C] L. unfold flush, payload. rewrite C, B. destruct ((MAX_BATCH_SIZE <=? N.of_nat (length es)) || ((0 <? N.of_nat (length es)) && late)) eqn:E; [left; split; reflexivity|right].
  apply orb_false_iff in E as [E1 E2]. apply N.leb_gt in E1. split; [reflexivity|]. split; [reflexivity|]. split; [exact E1|]. destruct es as [|x r]; [left; reflexivity|right]. apply andb_false_iff in E2 as [E2|E2]; [|exact E2]. apply N.ltb_ge in E2. cbn [length] in E2. lia.
Qed.
Lemma take_holding cap d es cur log : holding d es -> holding (take_new cap d cur log) (es ++ if (ld_last d <? cur)%nat then wanted (ld_level d) (since cap log (ld_last d)) else []) /\
  ld_level (take_new cap d cur log) = ld_level d /\ ld_host (take_new cap d cur log) = ld_host d /\ ld_last (take_new cap d cur log) = if (ld_last d <? cur)%nat then cur else ld_last d.
Proof.
  intros [B C]. unfold take_new, wanted. destruct (ld_last d <? cur)%nat; cbn [ld_level ld_host ld_last]; [|rewrite app_nil_r; repeat split; assumption].
  split; [|repeat split]. unfold holding. cbn [ld_batch ld_count]. rewrite flat_map_app', app_length, B, C. split; [reflexivity|lia].
Qed.
Lemma lstep_push n0 level host cap s e gs pend : inv n0 level host s gs pend -> inv n0 level host (lstep cap s (LPush e)) gs pend.
Proof.
  unfold inv. cbn [lstep l_drain l_log l_out]. intros (A & B & [C1 C2] & D & E & F & F2 & G). rewrite app_length. cbn [length]. repeat split; auto; [lia|apply D|apply D|].
  rewrite firstn_app. replace (ld_last (l_drain s) - length (l_log s))%nat with 0%nat by lia. cbn [firstn]. rewrite app_nil_r. exact G.
Qed.
Lemma poll_flush cap d cur log late : ld_level d <> LNone -> poll cap d cur log late = flush (take_new cap d cur log) late.
Proof. unfold poll. destruct (ld_level d); congruence. Qed.
Lemma skipn_from {A} (a b : nat) (l : list A) : (a <= b)%nat -> skipn a l = skipn a (firstn b l) ++ skipn b l.
Proof.
  intros H. rewrite <- (firstn_skipn b l) at 1. rewrite skipn_app. destruct (Nat.le_gt_cases b (length l)) as [Hb|Hb].
  - rewrite firstn_length, Nat.min_l by exact Hb. replace (a - b)%nat with 0%nat by lia. reflexivity.
  - rewrite (skipn_all2 (n := b)) by lia. rewrite skipn_nil, app_nil_r. reflexivity.
Qed.
Lemma lstep_poll n0 level host cap s late gs pend : level <> LNone -> N.of_nat cap <= 50000 -> (length (l_log s) - ld_last (l_drain s) <= cap)%nat -> inv n0 level host s gs pend ->
  exists gs' pend', inv n0 level host (lstep cap s (LPoll [] late)) gs' pend' /\ ld_last (l_drain (lstep cap s (LPoll [] late))) = length (l_log s) /\ (late = true -> pend' = []).
Proof.
  intros Nn Cap K (A & B & [C1 C2] & D & E & F & F2 & G). cbn [lstep]. rewrite app_nil_r. set (d := l_drain s) in *. rewrite poll_flush by congruence.
  destruct (take_holding cap d pend (length (l_log s)) (l_log s) D) as (H1 & H2 & H3 & H4). set (new := if (ld_last d <? length (l_log s))%nat then wanted (ld_level d) (since cap (l_log s) (ld_last d)) else []) in H1.
  set (d1 := take_new cap d (length (l_log s)) (l_log s)) in *.
  assert (Last : ld_last d1 = length (l_log s)) by (rewrite H4; destruct (ld_last d <? length (l_log s))%nat eqn:X; [reflexivity|apply Nat.ltb_ge in X; lia]).
  assert (New : new = wanted level (skipn (ld_last d) (l_log s))).
  { unfold new. destruct (ld_last d <? length (l_log s))%nat eqn:X.
    - rewrite A. unfold since. rewrite Nat.max_l by lia. reflexivity.
    - apply Nat.ltb_ge in X. rewrite skipn_all2 by lia. reflexivity. }
  assert (Ln : N.of_nat (length (pend ++ new)) < 65536).
  { rewrite app_length, New. unfold wanted. pose proof (filter_short (fun e => should_replicate level (le_type e)) (skipn (ld_last d) (l_log s))) as X. rewrite skipn_length in X. lia. }
  assert (All : concat gs ++ pend ++ new = wanted level (skipn n0 (l_log s))).
  { rewrite app_assoc, G, New. unfold wanted. rewrite <- filter_app. f_equal. symmetry. apply skipn_from. lia. }
  destruct (flush_holding d1 (pend ++ new) late H1 Ln) as [[P Q]|(P & Q & R & R2)]; destruct (flush d1 late) as [d2 p]; cbn [fst snd] in P, Q; subst d2 p.
  - exists (gs ++ [pend ++ new]), []. cbn [l_drain l_log ld_last]. split; [|split; [exact Last|reflexivity]]. unfold inv. cbn [l_drain l_log l_out ld_level ld_host ld_last]. rewrite Last, H2, H3. split; [exact A|]. split; [exact B|]. split; [lia|].
    split; [split; reflexivity|]. split; [cbn; lia|]. split; [rewrite F, map_app; cbn [map]; rewrite B; reflexivity|]. split; [apply Forall_app; split; [exact F2|constructor; [exact Ln|constructor]]|]. rewrite app_nil_r, concat_app. cbn [concat]. rewrite app_nil_r, firstn_all. exact All.
  - exists gs, (pend ++ new). cbn [l_drain l_log]. split; [|split; [exact Last|intros ->; destruct R2 as [R2|R2]; [exact R2|discriminate]]]. unfold inv. cbn [l_drain l_log l_out]. rewrite Last, H2, H3, app_nil_r, firstn_all.
    repeat split; auto; [lia|apply H1|apply H1].
Qed.
Lemma lrun_inv n0 level host cap : level <> LNone -> N.of_nat cap <= 50000 -> forall ops s gs pend, inv n0 level host s gs pend -> undisturbed ops -> keeps_up cap (length (l_log s) - ld_last (l_drain s)) ops -> (length (l_log s) - ld_last (l_drain s) <= cap)%nat ->
  exists gs' pend', inv n0 level host (lrun cap s ops) gs' pend' /\ l_log (lrun cap s ops) = l_log s ++ pushed ops /\ (length (l_log (lrun cap s ops)) - ld_last (l_drain (lrun cap s ops)) <= cap)%nat.
Proof.
  intros Nn Cap. induction ops as [|o ops IH]; intros s gs pend I U K L; cbn [lrun fold_left pushed]; [exists gs, pend; rewrite app_nil_r; auto|]. fold (lrun cap (lstep cap s o) ops). destruct o as [e|b late]; cbn [undisturbed keeps_up] in U, K.
  - destruct K as [K1 K2]. pose proof (lstep_push n0 level host cap s e gs pend I) as I'. assert (E : (length (l_log (lstep cap s (LPush e))) - ld_last (l_drain (lstep cap s (LPush e))))%nat = S (length (l_log s) - ld_last (l_drain s))).
    { cbn [lstep l_log l_drain]. rewrite app_length. cbn [length]. destruct I as (_ & _ & [_ X] & _). lia. }
    destruct (IH (lstep cap s (LPush e)) gs pend I' U) as (gs' & p' & A & B & B2); [rewrite E; exact K2|rewrite E; lia|]. exists gs', p'. split; [exact A|]. split; [|exact B2]. rewrite B. cbn [lstep l_log]. rewrite <- app_assoc. reflexivity.
  - destruct U as [-> U]. destruct (lstep_poll n0 level host cap s late gs pend Nn Cap L I) as (g1 & p1 & I1 & Last & _).
    assert (Lg : l_log (lstep cap s (LPoll [] late)) = l_log s) by (cbn [lstep]; rewrite app_nil_r; destruct (poll _ _ _ _ _); reflexivity).
    destruct (IH (lstep cap s (LPoll [] late)) g1 p1 I1 U) as (gs' & p' & A & B & B2); [rewrite Lg, Last, Nat.sub_diag; exact K|rewrite Lg, Last; lia|]. exists gs', p'. split; [exact A|]. split; [|exact B2]. rewrite B, Lg. reflexivity.
Qed.
Lemma received_groups lossy host gs : (forall s, utf8 s = true -> lossy s = s) -> carried host -> Forall (fun g => Forall carried_entry g /\ N.of_nat (length g) < 65536) gs -> received lossy (map (payload host) gs) = Some (map (image host) (concat gs)).
Proof.
  intros U H. induction 1 as [|g gs [A B] F IH]; cbn [map received concat]; [reflexivity|]. rewrite payload_back by assumption. rewrite IH, map_app. reflexivity.
Qed.
