(** Truncation keeps text well formed, and a stored entry reads back. *)
From Verif Require Import Base.Prelude Base.Bytes Model.LogEntry Spec.LogBufferSpec.
Open Scope nat_scope.

(** * UTF-8 *)
(** One character and the rest. *)
Inductive chars : bytes -> Prop :=
| chars_nil : chars []
| chars_cons h t r :
    cont h = false -> forallb cont t = true ->
    (forall x, utf8 (h :: t ++ x) = utf8 x) ->
    (forall n, n < length t -> utf8 (h :: firstn n t) = false) ->
    chars r -> chars (h :: t ++ r).

Lemma within_cont lo hi c : (128 <= lo)%N -> (hi <= 191)%N -> within lo hi c = true -> cont c = true.
Proof. unfold within, cont. intros. bool_prop. apply andb_true_intro; split; [apply N.leb_le|apply N.ltb_lt]; lia. Qed.
Lemma lead2_cont b c : lead2 b c = true -> cont b = false /\ cont c = true /\ (128 <= b)%N.
Proof. unfold lead2, within, cont. intros. bool_prop. split; [|split; lia]. lia. Qed.
Lemma lead3_cont b c : lead3 b c = true -> cont b = false /\ cont c = true /\ (128 <= b)%N /\ forall c', lead2 b c' = false.
Proof. unfold lead3, lead2, within, cont. intros. split; [lia|]. split; [lia|]. split; [lia|]. intros c'; lia. Qed.
Lemma lead4_cont b c : lead4 b c = true -> cont b = false /\ cont c = true /\ (128 <= b)%N /\ (forall c', lead2 b c' = false) /\ (forall c', lead3 b c' = false).
Proof. unfold lead4, lead3, lead2, within, cont. intros. split; [lia|]. split; [lia|]. split; [lia|]. split; intros c'; lia. Qed.

Lemma utf8_chars n : forall l, length l <= n -> utf8 l = true -> chars l.
Proof.
  induction n as [|n IH]; intros l Hl Hu; [destruct l; [constructor|cbn in Hl; lia]|].
  destruct l as [|b r]; [constructor|]. cbn [utf8] in Hu. cbn [length] in Hl.
  destruct (b <? 128)%N eqn:Eb.
  - apply (chars_cons b [] r); auto.
    + unfold cont; lia.
    + intros x. cbn [app utf8]. rewrite Eb. reflexivity.
    + cbn; intros; lia.
    + apply IH; auto; lia.
  - destruct r as [|c r1]; [discriminate|]. cbn [length] in Hl.
    destruct (lead2 b c) eqn:E2.
    + destruct (lead2_cont _ _ E2) as (B & C & _).
      apply (chars_cons b [c] r1); auto.
      * cbn. rewrite C. reflexivity.
      * intros x. cbn [app utf8]. rewrite Eb, E2. reflexivity.
      * intros k Hk. cbn in Hk. assert (k = 0) as -> by lia. cbn. rewrite Eb. reflexivity.
      * apply IH; auto; lia.
    + destruct r1 as [|d r2]; [discriminate|]. cbn [length] in Hl.
      destruct (lead3 b c && cont d) eqn:E3.
      * apply andb_prop in E3 as [E3 Cd]. destruct (lead3_cont _ _ E3) as (B & C & _ & L2).
        apply (chars_cons b [c; d] r2); auto.
        -- cbn. rewrite C, Cd. reflexivity.
        -- intros x. cbn [app utf8]. rewrite Eb, E2, E3, Cd. reflexivity.
        -- intros k Hk. cbn in Hk. destruct k as [|[|k]]; [| |lia]; cbn; rewrite Eb; auto. rewrite E2; auto.
        -- apply IH; auto; lia.
      * destruct r2 as [|e r3]; [discriminate|]. cbn [length] in Hl.
        apply andb_prop in Hu as [Hu H0]. apply andb_prop in Hu as [Hu H1]. apply andb_prop in Hu as [H H2].
        destruct (lead4_cont b c) as (B & C & _ & L2 & L3); auto.
        apply (chars_cons b [c; d; e] r3); auto.
        -- cbn. rewrite C. rewrite H2, H1. reflexivity.
        -- intros x. cbn [app utf8]. rewrite Eb, E2, E3. rewrite H, H2, H1. reflexivity.
        -- intros k Hk. cbn in Hk. destruct k as [|[|[|k]]]; [| | |lia]; cbn; rewrite Eb; auto.
           ++ rewrite E2; auto.
           ++ rewrite E2, E3; auto.
        -- apply IH; auto; lia.
Qed.
Lemma utf8_chars' l : utf8 l = true -> chars l.
Proof. apply utf8_chars with (n := length l); auto. Qed.
Lemma chars_utf8 l : chars l -> utf8 l = true.
Proof. induction 1; [reflexivity|]. rewrite H1. auto. Qed.

Lemma boundary_all s : is_char_boundary s (length s) = true.
Proof.
  unfold is_char_boundary. destruct (length s =? 0); auto.
  replace (nth_error s (length s)) with (@None N); [apply Nat.eqb_refl|].
  symmetry. apply nth_error_None. lia.
Qed.
Lemma forallb_nth {A} (f : A -> bool) l n x : forallb f l = true -> nth_error l n = Some x -> f x = true.
Proof. intros H Hn. rewrite forallb_forall in H. eapply H, nth_error_In; eauto. Qed.

(** A prefix of well-formed text is well formed exactly when it ends on a character
    boundary. *)
Lemma prefix_utf8 s : chars s -> forall n, n <= length s -> utf8 (firstn n s) = is_char_boundary s n.
Proof.
  induction 1 as [|h t r Hh Ht Hx Hs Hr IH]; intros n Hn.
  - cbn in Hn. assert (n = 0) as -> by lia. reflexivity.
  - cbn [length] in Hn. rewrite app_length in Hn.
    destruct n as [|n]; [reflexivity|]. cbn [firstn].
    unfold is_char_boundary. cbn [Nat.eqb nth_error].
    destruct (Nat.lt_ge_cases n (length t)) as [L|G].
    + rewrite firstn_app. replace (n - length t) with 0 by lia. cbn [firstn]. rewrite app_nil_r, Hs by auto.
      rewrite nth_error_app1 by auto. destruct (nth_error t n) eqn:E.
      * rewrite (forallb_nth _ _ _ _ Ht E). reflexivity.
      * apply nth_error_None in E. lia.
    + rewrite firstn_app, firstn_all2 by lia. rewrite Hx, IH by lia.
      rewrite nth_error_app2 by lia. unfold is_char_boundary.
      destruct (n - length t =? 0) eqn:E0.
      * apply Nat.eqb_eq in E0. assert (n = length t) as -> by lia.
        rewrite E0. destruct r as [|b r]; cbn [nth_error].
        -- cbn [length]. rewrite app_length. cbn. symmetry. apply Nat.eqb_eq. lia.
        -- inv Hr. rewrite H1. reflexivity.
      * destruct (nth_error r (n - length t)) eqn:E; auto.
        apply Nat.eqb_neq in E0. apply nth_error_None in E.
        cbn [length]. rewrite app_length.
        destruct (Nat.eqb_spec (n - length t) (length r)); symmetry; [apply Nat.eqb_eq|apply Nat.eqb_neq]; lia.
Qed.

Lemma utf8_app a b : utf8 a = true -> utf8 b = true -> utf8 (a ++ b) = true.
Proof.
  intros Ha Hb. apply utf8_chars' in Ha. induction Ha as [|h t r Hh Ht Hx Hs Hr IH]; auto.
  cbn [app]. rewrite <- app_assoc, Hx. auto.
Qed.

Lemma back_up_boundary s e : is_char_boundary s (back_up s e) = true.
Proof. induction e; cbn [back_up]; [reflexivity|]. destruct (is_char_boundary s (S e)) eqn:E; auto. Qed.
Lemma back_up_le s e : back_up s e <= e.
Proof. induction e; cbn [back_up]; auto. case_match; lia. Qed.
Lemma back_up_max s e n : n <= e -> is_char_boundary s n = true -> n <= back_up s e.
Proof.
  induction e; cbn [back_up]; intros L H; auto. case_match; auto.
  apply IHe; auto. destruct (Nat.eq_dec n (S e)); [subst; congruence|lia].
Qed.

Lemma truncate_cut max s : 3 <= max -> text s -> cut max s (truncate_field s max).
Proof.
  intros Hm [Hu Hb]. unfold truncate_field. destruct (length s <=? max) eqn:E.
  - apply Nat.leb_le in E. split; [split; auto|]. split; [auto|lia].
  - apply Nat.leb_gt in E. change (length dots) with 3.
    pose proof (back_up_le s (max - 3)) as L.
    pose proof (back_up_boundary s (max - 3)) as B.
    set (n := back_up s (max - 3)) in *.
    assert (Hn : utf8 (firstn n s) = true) by (rewrite (prefix_utf8 s); auto using utf8_chars'; lia).
    split; [split|].
    + apply utf8_app; auto.
    + apply bytes_ok_app. split; [apply bytes_ok_firstn; auto|]. repeat constructor.
    + split; [lia|]. intros _. exists (firstn n s), (skipn n s).
      split; [symmetry; apply firstn_skipn|]. split; [reflexivity|].
      rewrite app_length, firstn_length. cbn [length dots]. split; [lia|].
      intros q r' Hq Hqu Hl. rewrite Nat.min_l by lia. apply back_up_max; [lia|].
      rewrite <- (prefix_utf8 s); auto using utf8_chars'.
      * rewrite Hq, firstn_app, Nat.sub_diag, firstn_all. cbn. rewrite app_nil_r. auto.
      * rewrite Hq, app_length. lia.
Qed.
Lemma truncate_length max s : 3 <= max -> length (truncate_field s max) <= max.
Proof.
  intros Hm. unfold truncate_field. destruct (length s <=? max) eqn:E; [apply Nat.leb_le; auto|].
  rewrite app_length, firstn_length. pose proof (back_up_le s (max - length dots)). change (length dots) with 3 in *. lia.
Qed.

Lemma shorten_cut e : entry_ok e -> cut_entry e (shorten e).
Proof.
  intros (A & B & C & D & _). unfold cut_entry, shorten; cbn.
  repeat split; try (apply truncate_cut; auto; unfold MAX_MESSAGE_LEN; lia).
  destruct (le_topic e) as [t|]; auto. apply truncate_cut; auto. lia.
Qed.
Lemma shorten_ok e : entry_ok e -> entry_ok (shorten e).
Proof.
  intros (A & B & C & D & E & F & G). unfold entry_ok, shorten; cbn.
  repeat split; try apply truncate_cut; auto; unfold MAX_MESSAGE_LEN; try lia;
    destruct (le_topic e) as [x|]; try discriminate; injection H as <-; apply truncate_cut; auto; lia.
Qed.

(** * The stored form *)
Lemma serialize_length e :
  length (serialize e) = 52 + length (le_timestamp e) + length (le_node e) + length (le_message e)
    + (match le_topic e with None => 1 | Some t => 9 + length t end).
Proof.
  unfold serialize, enc_opt, enc_str. repeat (rewrite app_length || rewrite le_enc_length).
  destruct (le_topic e); cbn [length]; repeat (rewrite app_length || rewrite le_enc_length); lia.
Qed.
Lemma shorten_fits e : length (serialize (shorten e)) <= SLOT_DATA_SIZE.
Proof.
  rewrite serialize_length. unfold shorten, SLOT_DATA_SIZE; cbn [le_timestamp le_node le_message le_topic].
  pose proof (truncate_length 32 (le_timestamp e)). pose proof (truncate_length 64 (le_node e)).
  pose proof (truncate_length MAX_MESSAGE_LEN (le_message e)). unfold MAX_MESSAGE_LEN in *.
  destruct (le_topic e) as [t|]; [pose proof (truncate_length 64 t)|]; lia.
Qed.

Lemma take_app a b : take (length a) (a ++ b) = Some (a, b).
Proof.
  unfold take. rewrite app_length. replace (length a + length b <? length a) with false by (symmetry; apply Nat.ltb_ge; lia).
  rewrite firstn_app, firstn_all, Nat.sub_diag, skipn_app, skipn_all, Nat.sub_diag. cbn. rewrite app_nil_r. reflexivity.
Qed.
Lemma dec_int_enc k n b : (n < 256 ^ N.of_nat k)%N -> dec_int k (le_enc k n ++ b) = Some (n, b).
Proof.
  intros H. unfold dec_int. rewrite <- (le_enc_length k n) at 1. rewrite take_app, le_dec_enc; auto.
Qed.
Lemma dec_str_enc s b : utf8 s = true -> (N.of_nat (length s) < 2 ^ 64)%N -> dec_str (enc_str s ++ b) = Some (s, b).
Proof.
  intros Hu Hl. unfold dec_str, enc_str. rewrite <- app_assoc, dec_int_enc by exact Hl.
  rewrite app_length. replace (N.of_nat (length s + length b) <? N.of_nat (length s))%N with false
    by (symmetry; apply N.ltb_ge; lia).
  rewrite Nat2N.id, take_app, Hu. reflexivity.
Qed.
Lemma dec_opt_enc o b :
  (forall s, o = Some s -> utf8 s = true /\ (N.of_nat (length s) < 2 ^ 64)%N) ->
  dec_opt (enc_opt o ++ b) = Some (o, b).
Proof.
  intros H. destruct o as [s|]; [|reflexivity]. destruct (H s eq_refl).
  unfold enc_opt, dec_opt. cbn [app]. change (1 =? 0)%N with false. change (1 =? 1)%N with true.
  cbv iota. rewrite dec_str_enc; auto.
Qed.
Definition sizes_ok (e : entry) : Prop :=
  (forall s, In s (le_timestamp e :: le_node e :: le_message e :: match le_topic e with Some t => [t] | None => [] end) ->
    (N.of_nat (length s) < 2 ^ 64)%N).
Lemma deserialize_serialize e b : entry_ok e -> sizes_ok e -> deserialize (serialize e ++ b) = Some e.
Proof.
  intros ((A & _) & (B & _) & (C & _) & D & E & F & G) S.
  unfold serialize, deserialize. repeat rewrite <- app_assoc.
  rewrite dec_str_enc by (auto; apply S; cbn; auto).
  rewrite dec_int_enc by exact E.
  rewrite dec_str_enc by (auto; apply S; cbn; auto).
  rewrite dec_int_enc by (destruct (le_type e); reflexivity).
  replace (type_of_tag (type_tag (le_type e))) with (Some (le_type e)) by (destruct (le_type e); reflexivity).
  rewrite dec_opt_enc.
  2:{ intros s Hs. split; [apply (D s Hs)|]. apply S. rewrite Hs. cbn; auto. }
  rewrite dec_str_enc by (auto; apply S; cbn; auto).
  rewrite dec_int_enc by exact F. rewrite dec_int_enc by exact G.
  destruct e; reflexivity.
Qed.
Lemma shorten_sizes e : sizes_ok (shorten e).
Proof.
  intros s Hs. assert (length s <= 280); [|lia].
  unfold shorten in Hs; cbn [le_timestamp le_node le_message le_topic In] in Hs.
  pose proof (truncate_length 32 (le_timestamp e)). pose proof (truncate_length 64 (le_node e)).
  pose proof (truncate_length MAX_MESSAGE_LEN (le_message e)). unfold MAX_MESSAGE_LEN in *.
  destruct Hs as [<-|[<-|[<-|Hs]]]; try lia.
  destruct (le_topic e) as [t|]; [|destruct Hs]. destruct Hs as [<-|[]].
  pose proof (truncate_length 64 t). lia.
Qed.
Lemma stored_some e : exists d, stored e = Some d /\ length d = SLOT_DATA_SIZE
  /\ (entry_ok e -> deserialize d = Some (shorten e)).
Proof.
  pose proof (shorten_fits e) as F. unfold stored.
  replace (length (serialize (shorten e)) <=? SLOT_DATA_SIZE) with true by (symmetry; apply Nat.leb_le; auto).
  eexists. split; [reflexivity|]. split.
  - rewrite app_length, repeat_length. lia.
  - intros Ok. apply deserialize_serialize; auto using shorten_ok, shorten_sizes.
Qed.
