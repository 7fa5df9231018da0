From Verif.Base Require Import Prelude Bytes AMap Str.
From Verif.Model Require Import Wire Reliability.
From Verif.Spec Require Import ReliabilitySpec.
Local Open Scope N_scope.

(** Flat form of the run. *)
Definition dstep (d : Dedup) (a : arrival) : Dedup * bool :=
  if system a then (d, true) else is_new_message d (fst a) (om_topic (snd a)) (om_seq (snd a)).
Fixpoint flat_run (d : Dedup) (l : list arrival) : Dedup * list arrival :=
  match l with
  | [] => (d, [])
  | a :: r => let '(d1, k) := dstep d a in
              let '(d2, out) := flat_run d1 r in (d2, if k then a :: out else out)
  end.

Lemma flat_run_app d l1 l2 :
  flat_run d (l1 ++ l2) =
  let '(d1, o1) := flat_run d l1 in let '(d2, o2) := flat_run d1 l2 in (d2, o1 ++ o2).
Proof.
  revert d; induction l1 as [|a l1 IH]; intros d; cbn [app flat_run].
  - destruct (flat_run d l2); reflexivity.
  - destruct (dstep d a) as [d1 k]. rewrite IH. destruct (flat_run d1 l1) as [d2 o1].
    destruct (flat_run d2 l2) as [d3 o2]. destruct k; reflexivity.
Qed.

Lemma dedup_messages_flat s ms : forall d,
  flat_run d (map (pair s) ms) = let '(d1, out) := dedup_messages d s ms in (d1, map (pair s) out).
Proof.
  induction ms as [|m r IH]; intros d; cbn [map flat_run dedup_messages]; auto.
  unfold dstep, system; cbn [fst snd].
  destruct (is_system_topic_hash (om_topic m)).
  - rewrite IH. destruct (dedup_messages d s r). reflexivity.
  - destruct (is_new_message d s (om_topic m) (om_seq m)) as [d1 k]. rewrite IH.
    destruct (dedup_messages d1 s r). destruct k; reflexivity.
Qed.

Lemma dedup_run_flat h : forall d,
  flat_run d (arrivals h) = let '(d1, out) := dedup_run d h in (d1, arrivals out).
Proof.
  induction h as [|[s ms] r IH]; intros d; cbn [arrivals flat_map dedup_run fst snd]; auto.
  rewrite flat_run_app, dedup_messages_flat. destruct (dedup_messages d s ms) as [d1 out].
  fold (arrivals r). rewrite IH. destruct (dedup_run d1 r). reflexivity.
Qed.

Lemma delivered_flat h : delivered h = snd (flat_run [] (arrivals h)).
Proof. unfold delivered. rewrite dedup_run_flat. destruct (dedup_run [] h); reflexivity. Qed.

Lemma wsub_le a b : b <= a -> a < 2 ^ 32 -> u32_wrapping_sub a b = a - b.
Proof.
  intros. unfold u32_wrapping_sub. change (2 ^ 32) with 4294967296 in *.
  replace (a + 4294967296 - b) with ((a - b) + 1 * 4294967296) by lia.
  rewrite N.mod_add by lia. apply N.mod_small. lia.
Qed.

Lemma dup_iff last s : last < 2 ^ 32 -> s < 2 ^ 32 ->
  (s <=? last) && (u32_wrapping_sub last s <? U32_HALF) = true <-> s <= last /\ last - s < 2147483647.
Proof.
  intros Hl Hs. rewrite andb_true_iff, N.leb_le, N.ltb_lt. unfold U32_HALF. split; intros [H1 H2]; split; auto;
  rewrite wsub_le in * by auto; auto.
Qed.

Lemma keys_incl_length {V} (d : list ((N * N) * V)) ks :
  NoDup (keys d) -> incl (keys d) ks -> (length d <= length ks)%nat.
Proof. intros. rewrite <- (map_length fst d). apply NoDup_incl_length; auto. Qed.

Lemma same_stream_iff a b : same_stream a b = true <-> stream_of a = stream_of b.
Proof.
  unfold same_stream, stream_of. rewrite andb_true_iff, !N.eqb_eq. split.
  - intros [-> ->]; auto.
  - intros H; injection H; auto.
Qed.

Definition dinv (ks : list (N * N)) (d : Dedup) (seen : list arrival) : Prop :=
  NoDup (keys d) /\ incl (keys d) ks /\
  forall k, match lookup pair_eqb k d with
            | Some last => (exists b, In b seen /\ system b = false /\ stream_of b = k /\ seq_of b = last) /\
                           (forall b, In b seen -> stream_of b = k -> seq_of b <= last)
            | None => forall b, In b seen -> system b = false -> stream_of b <> k
            end.

Lemma system_stream a b : stream_of a = stream_of b -> system a = system b.
Proof. unfold stream_of, system. intros H; injection H as _ ->; auto. Qed.

Lemma cap_small ks (d : Dedup) : N.of_nat (length ks) < 4096 -> NoDup (keys d) -> incl (keys d) ks ->
  enforce_key_cap d = d.
Proof.
  intros Hk Hn Hi. unfold enforce_key_cap, MAX_TRACKED_KEYS.
  pose proof (keys_incl_length d ks Hn Hi). rewrite (proj2 (N.ltb_lt _ _)) by lia. auto.
Qed.

Lemma keep_newest_run ks l : forall d seen,
  N.of_nat (length ks) < 4096 -> (forall a, In a l -> In (stream_of a) ks) ->
  half_window (seen ++ l) -> u32_seqs (seen ++ l) ->
  dinv ks d seen -> snd (flat_run d l) = keep_newest seen l.
Proof.
  induction l as [|a r IH]; intros d seen Hk Hin Hw Hu Hd; cbn [flat_run keep_newest]; auto.
  assert (Hw' : half_window ((a :: seen) ++ r)).
  { intros x y Hx Hy. apply Hw; rewrite in_app_iff in *; cbn [In] in *; tauto. }
  assert (Hu' : u32_seqs ((a :: seen) ++ r)).
  { intros x Hx. apply Hu; rewrite in_app_iff in *; cbn [In] in *; tauto. }
  assert (Hin' : forall x, In x r -> In (stream_of x) ks) by (intros; apply Hin; right; auto).
  unfold dstep. destruct (system a) eqn:Esys; cbn [orb].
  - specialize (IH d (a :: seen) Hk Hin' Hw' Hu').
    destruct (flat_run d r) as [d2 out]; cbn [snd] in *. f_equal. apply IH.
    destruct Hd as (Hnd & Hi & Hl). split; [auto|]. split; [auto|]. intros k. specialize (Hl k).
    destruct (lookup pair_eqb k d) as [last|].
    + destruct Hl as [(b & Hb & Hbs & Hbk & Hbl) Hall]. split.
      * exists b; cbn [In]; auto.
      * intros x [<-|Hx] Hxk; auto. exfalso.
        rewrite (system_stream a b) in Esys by congruence. congruence.
    + intros x [<-|Hx] Hxs; auto. congruence.
  - unfold is_new_message. fold (stream_of a). fold (seq_of a).
    destruct Hd as (Hnd & Hi & Hl). pose proof (Hl (stream_of a)) as Hla.
    assert (Ha : In a (seen ++ a :: r)) by (apply in_or_app; right; left; auto).
    assert (Hacc : (match lookup pair_eqb (stream_of a) d with
              | Some last => (seq_of a <=? last) && (u32_wrapping_sub last (seq_of a) <? U32_HALF)
              | None => false end)
             = negb (forallb (fun b => negb (same_stream b a) || (seq_of b <? seq_of a)) seen)).
    { destruct (lookup pair_eqb (stream_of a) d) as [last|].
      - destruct Hla as [(b & Hb & Hbs & Hbk & Hbl) Hall].
        assert (Hb' : In b (seen ++ a :: r)) by (apply in_or_app; auto).
        pose proof (Hw b a Hb' Ha Hbk). pose proof (Hu a Ha). pose proof (Hu b Hb').
        change (2 ^ 31 - 1) with 2147483647 in *.
        destruct (forallb _ seen) eqn:Ef; cbn [negb].
        + rewrite forallb_forall in Ef. specialize (Ef b Hb).
          rewrite (proj2 (same_stream_iff b a) Hbk) in Ef. cbn [negb orb] in Ef.
          apply N.ltb_lt in Ef. rewrite (proj2 (N.leb_gt _ _)) by lia. auto.
        + apply dup_iff; try lia.
          assert (Hex : existsb (fun b => negb (negb (same_stream b a) || (seq_of b <? seq_of a))) seen = true).
          { rewrite <- negb_false_iff, <- Ef. clear. induction seen; cbn [existsb forallb]; auto.
            rewrite negb_orb, negb_involutive, IHseen. auto. }
          apply existsb_exists in Hex as (x & Hx & Hx2). rewrite negb_orb, negb_involutive in Hx2.
          apply andb_prop in Hx2 as [Hx1 Hx2]. apply same_stream_iff in Hx1.
          apply negb_true_iff, N.ltb_ge in Hx2. specialize (Hall x Hx Hx1). lia.
      - symmetry. rewrite negb_false_iff. apply forallb_forall. intros b Hb.
        destruct (same_stream b a) eqn:E; auto. apply same_stream_iff in E.
        exfalso. apply (Hla b Hb); auto. rewrite (system_stream b a); auto. }
    rewrite Hacc. set (new := forallb _ seen) in *. destruct new; cbn [negb].
    + rewrite (cap_small ks) by auto.
      specialize (IH (insert pair_eqb (stream_of a) (seq_of a) d) (a :: seen) Hk Hin' Hw' Hu').
      destruct (flat_run _ r) as [d2 out]; cbn [snd] in *. f_equal. apply IH.
      assert (Hlt : forall last, lookup pair_eqb (stream_of a) d = Some last -> last < seq_of a).
      { intros last E. rewrite E in Hacc, Hla. destruct Hla as [(b & Hb & Hbs & Hbk & Hbl) Hall].
        assert (Hb' : In b (seen ++ a :: r)) by (apply in_or_app; auto).
        pose proof (Hw b a Hb' Ha Hbk). pose proof (Hu a Ha). pose proof (Hu b Hb').
        change (2 ^ 31 - 1) with 2147483647 in *.
        destruct (N.ltb_spec last (seq_of a)); auto. exfalso.
        cbn [negb] in Hacc. assert (false = true); [|discriminate]. rewrite <- Hacc.
        apply dup_iff; lia. }
      split; [apply NoDup_insert_keys; auto using pair_eqb_spec|]. split.
      { intros x Hx. unfold insert in Hx; cbn [keys map fst] in Hx. destruct Hx as [<-|Hx]; [apply Hin; left; auto|].
        apply (keys_remove_In pair_eqb pair_eqb_spec) in Hx. apply Hi; tauto. }
      intros k. destruct (pair_eqb k (stream_of a)) eqn:Ek.
      * apply pair_eqb_spec in Ek; subst k. rewrite (lookup_insert_eq pair_eqb pair_eqb_spec). split.
        -- exists a; cbn [In]; auto.
        -- intros b [<-|Hb] Hbk; [lia|]. specialize (Hl (stream_of a)).
           destruct (lookup pair_eqb (stream_of a) d) as [last|] eqn:El.
           ++ destruct Hl as [_ Hall]. specialize (Hall b Hb Hbk). specialize (Hlt last eq_refl). lia.
           ++ exfalso. apply (Hl b Hb); auto. rewrite (system_stream b a); auto.
      * assert (k <> stream_of a).
        { intros ->. assert (pair_eqb (stream_of a) (stream_of a) = true) by (apply pair_eqb_spec; auto). congruence. }
        rewrite (lookup_insert_neq pair_eqb pair_eqb_spec) by auto. specialize (Hl k).
        destruct (lookup pair_eqb k d) as [last|].
        -- destruct Hl as [(b & Hb & Hbs & Hbk & Hbl) Hall]. split; [exists b; cbn [In]; auto|].
           intros x [<-|Hx] Hxk; auto. congruence.
        -- intros x [<-|Hx] Hxs; auto.
    + specialize (IH d (a :: seen) Hk Hin' Hw' Hu').
      destruct (flat_run d r) as [d2 out]; cbn [snd] in *. apply IH.
      split; [auto|]. split; [auto|]. intros k. specialize (Hl k).
      destruct (lookup pair_eqb k d) as [last|] eqn:El.
      * destruct Hl as [(b & Hb & Hbs & Hbk & Hbl) Hall]. split; [exists b; cbn [In]; auto|].
        intros x [<-|Hx] Hxk; auto. rewrite Hxk, El in Hacc. apply andb_prop in Hacc as [Hacc _].
        apply N.leb_le in Hacc. auto.
      * intros x [<-|Hx] Hxs; auto. intros E. rewrite E, El in Hacc. discriminate.
Qed.

Lemma dedup_keeps_newest h :
  few_streams (arrivals h) -> half_window (arrivals h) -> u32_seqs (arrivals h) ->
  delivered h = keep_newest [] (arrivals h).
Proof.
  intros (ks & Hk & Hin) Hw Hu. rewrite delivered_flat. apply (keep_newest_run ks); auto.
  split; [constructor|]. split; [intros x []|]. intros k; cbn [lookup]. intros b [].
Qed.

(** Nothing on an ordinary stream survives twice. *)
Lemma keep_newest_spec l : forall seen a,
  In a (keep_newest seen l) -> system a = false ->
  forall b, In b seen -> stream_of b = stream_of a -> seq_of b < seq_of a.
Proof.
  induction l as [|x r IH]; intros seen a Hin Hs b Hb Hbk; cbn [keep_newest] in Hin; [contradiction|].
  destruct (system x || _) eqn:E.
  - destruct Hin as [->|Hin].
    + rewrite Hs in E; cbn [orb] in E. rewrite forallb_forall in E. specialize (E b Hb).
      rewrite (proj2 (same_stream_iff b a) Hbk) in E. cbn [negb orb] in E. apply N.ltb_lt; auto.
    + apply (IH (x :: seen)); auto. right; auto.
  - apply (IH (x :: seen)); auto. right; auto.
Qed.

Lemma keep_newest_NoDup l : forall seen,
  NoDup (map (fun a => (stream_of a, seq_of a)) (filter (fun a => negb (system a)) (keep_newest seen l))).
Proof.
  induction l as [|x r IH]; intros seen; cbn [keep_newest]; [constructor|].
  destruct (system x || _) eqn:E; auto. cbn [filter]. destruct (system x) eqn:Es; cbn [negb]; auto.
  cbn [map]. constructor; auto. rewrite in_map_iff. intros (y & Hy & Hin).
  apply filter_In in Hin as [Hin Hys]. apply negb_true_iff in Hys.
  pose proof (keep_newest_spec r (x :: seen) y Hin Hys x (or_introl eq_refl)) as Hlt.
  assert (Hy1 : stream_of y = stream_of x) by (apply (f_equal fst) in Hy; exact Hy).
  assert (Hy2 : seq_of y = seq_of x) by (apply (f_equal snd) in Hy; exact Hy).
  specialize (Hlt (eq_sym Hy1)). lia.
Qed.

Lemma dedup_at_most_once h :
  few_streams (arrivals h) -> half_window (arrivals h) -> u32_seqs (arrivals h) ->
  NoDup (map (fun a => (stream_of a, seq_of a)) (filter (fun a => negb (system a)) (delivered h))).
Proof. intros. rewrite dedup_keeps_newest by auto. apply keep_newest_NoDup. Qed.

(** In-order streams survive whole, also across the wrap. *)
Lemma on_stream_cons k a l :
  on_stream k (a :: l) = if (fst k =? fst a) && (snd k =? om_topic (snd a)) then a :: on_stream k l else on_stream k l.
Proof. reflexivity. Qed.

Lemma on_stream_hit a l : on_stream (fst a, om_topic (snd a)) (a :: l) = a :: on_stream (fst a, om_topic (snd a)) l.
Proof. rewrite on_stream_cons. cbn [fst snd]. rewrite !N.eqb_refl. reflexivity. Qed.

Lemma stream_test k a : (fst k =? fst a) && (snd k =? om_topic (snd a)) = true <-> stream_of a = k.
Proof.
  destruct k as [x y]; unfold stream_of; cbn [fst snd]. rewrite andb_true_iff, !N.eqb_eq.
  split; [intros [-> ->]; auto | intros H; injection H; auto].
Qed.

Definition expand (mcs : list (InMessage * nat)) : list InMessage :=
  flat_map (fun mc => repeat (fst mc) (S (snd mc))) mcs.

(** [rem] more copies of the message numbered [s] are still to come. *)
Lemma stream_run_mid ks key : forall l d s cur rem mcs,
  N.of_nat (length ks) < 4096 -> (forall a, In a l -> In (stream_of a) ks) ->
  NoDup (keys d) -> incl (keys d) ks ->
  is_system_topic_hash (snd key) = false ->
  lookup pair_eqb key d = Some (s mod 2 ^ 32) ->
  om_seq cur = s mod 2 ^ 32 ->
  consecutive (s + 1) (map fst mcs) ->
  map snd (on_stream key l) = repeat cur rem ++ expand mcs ->
  map snd (on_stream key (snd (flat_run d l))) = map fst mcs.
Proof.
  induction l as [|a r IH]; intros d s cur rem mcs Hk Hin Hnd Hi Hsys Hlk Hcur Hc Hl.
  - destruct rem; [|discriminate]. destruct mcs as [|[m c] mcs]; [reflexivity|discriminate].
  - assert (Hin' : forall x, In x r -> In (stream_of x) ks) by (intros; apply Hin; right; auto).
    cbn [flat_run]. rewrite on_stream_cons in Hl.
    destruct ((fst key =? fst a) && (snd key =? om_topic (snd a))) eqn:Ek.
    + assert (Es' : (fst a, om_topic (snd a)) = key) by (apply stream_test; exact Ek). subst key.
      unfold dstep. unfold system. cbn [snd] in Hsys. rewrite Hsys.
      unfold is_new_message. rewrite Hlk. destruct rem as [|rem].
      * destruct mcs as [|[m c] mcs]; [discriminate|].
        cbn [expand flat_map fst snd repeat app] in Hl. cbn [map] in Hl. injection Hl as Hm Hl.
        cbn [map fst consecutive] in Hc. destruct Hc as [Hms Hc].
        assert (Hnew : (om_seq (snd a) <=? s mod 2 ^ 32) &&
                       (u32_wrapping_sub (s mod 2 ^ 32) (om_seq (snd a)) <? U32_HALF) = false).
        { rewrite Hm, Hms. apply not_true_iff_false. change (2 ^ 32) with 4294967296 in *.
          rewrite dup_iff by (apply N.mod_lt; lia). lia. }
        rewrite Hnew, (cap_small ks) by auto.
        specialize (IH (insert pair_eqb (fst a, om_topic (snd a)) (om_seq (snd a)) d) (s + 1) m c mcs Hk Hin').
        destruct (flat_run _ r) as [d2 out]. cbn [snd] in *.
        rewrite on_stream_hit. cbn [map fst]. f_equal; [exact Hm|]. apply IH; auto.
        -- apply NoDup_insert_keys; auto using pair_eqb_spec.
        -- intros x Hx. unfold insert in Hx; cbn [keys map fst] in Hx. destruct Hx as [<-|Hx]; [apply Hin; left; auto|].
           apply (keys_remove_In pair_eqb pair_eqb_spec) in Hx. apply Hi; tauto.
        -- rewrite (lookup_insert_eq pair_eqb pair_eqb_spec). congruence.
      * cbn [repeat app map] in Hl. injection Hl as Hm Hl.
        assert (Hdup : (om_seq (snd a) <=? s mod 2 ^ 32) &&
                       (u32_wrapping_sub (s mod 2 ^ 32) (om_seq (snd a)) <? U32_HALF) = true).
        { rewrite Hm, Hcur. change (2 ^ 32) with 4294967296. apply dup_iff; [apply N.mod_lt; lia..|lia]. }
        rewrite Hdup. specialize (IH d s cur rem mcs Hk Hin').
        destruct (flat_run d r) as [d2 out]. cbn [snd] in *. apply IH; auto.
    + assert (Hne : stream_of a <> key) by (intros E; rewrite (proj2 (stream_test key a) E) in Ek; discriminate).
      unfold dstep. destruct (system a).
      * specialize (IH d s cur rem mcs Hk Hin'). destruct (flat_run d r) as [d2 out]. cbn [snd] in *.
        rewrite on_stream_cons, Ek. apply IH; auto.
      * unfold is_new_message. fold (stream_of a). match goal with |- context [if ?b then (d, false) else _] => destruct b end.
        -- specialize (IH d s cur rem mcs Hk Hin'). destruct (flat_run d r) as [d2 out]. cbn [snd] in *. apply IH; auto.
        -- rewrite (cap_small ks) by auto.
           specialize (IH (insert pair_eqb (stream_of a) (om_seq (snd a)) d) s cur rem mcs Hk Hin').
           destruct (flat_run _ r) as [d2 out]. cbn [snd] in *. rewrite on_stream_cons, Ek. apply IH; auto.
           ++ apply NoDup_insert_keys; auto using pair_eqb_spec.
           ++ intros x Hx. unfold insert in Hx; cbn [keys map fst] in Hx. destruct Hx as [<-|Hx]; [apply Hin; left; auto|].
              apply (keys_remove_In pair_eqb pair_eqb_spec) in Hx. apply Hi; tauto.
           ++ rewrite (lookup_insert_neq pair_eqb pair_eqb_spec) by auto. auto.
Qed.

Lemma stream_run_start ks key : forall l d s mcs,
  N.of_nat (length ks) < 4096 -> (forall a, In a l -> In (stream_of a) ks) ->
  NoDup (keys d) -> incl (keys d) ks ->
  is_system_topic_hash (snd key) = false ->
  lookup pair_eqb key d = None ->
  consecutive s (map fst mcs) ->
  map snd (on_stream key l) = expand mcs ->
  map snd (on_stream key (snd (flat_run d l))) = map fst mcs.
Proof.
  induction l as [|a r IH]; intros d s mcs Hk Hin Hnd Hi Hsys Hlk Hc Hl.
  - destruct mcs as [|[m c] mcs]; [reflexivity|discriminate].
  - assert (Hin' : forall x, In x r -> In (stream_of x) ks) by (intros; apply Hin; right; auto).
    cbn [flat_run]. rewrite on_stream_cons in Hl.
    destruct ((fst key =? fst a) && (snd key =? om_topic (snd a))) eqn:Ek.
    + assert (Es' : (fst a, om_topic (snd a)) = key) by (apply stream_test; exact Ek). subst key.
      unfold dstep. unfold system. cbn [snd] in Hsys. rewrite Hsys.
      unfold is_new_message. rewrite Hlk.
      destruct mcs as [|[m c] mcs]; [discriminate|].
      cbn [expand flat_map fst snd repeat app map] in Hl. injection Hl as Hm Hl.
      cbn [map fst consecutive] in Hc. destruct Hc as [Hms Hc].
      rewrite (cap_small ks) by auto.
      pose proof (stream_run_mid ks (fst a, om_topic (snd a)) r (insert pair_eqb (fst a, om_topic (snd a)) (om_seq (snd a)) d) s m c mcs Hk Hin') as IH2.
      destruct (flat_run _ r) as [d2 out]. cbn [snd] in *.
      rewrite on_stream_hit. cbn [map fst]. f_equal; [exact Hm|]. apply IH2; auto.
      -- apply NoDup_insert_keys; auto using pair_eqb_spec.
      -- intros x Hx. unfold insert in Hx; cbn [keys map fst] in Hx. destruct Hx as [<-|Hx]; [apply Hin; left; auto|].
         apply (keys_remove_In pair_eqb pair_eqb_spec) in Hx. apply Hi; tauto.
      -- rewrite (lookup_insert_eq pair_eqb pair_eqb_spec). congruence.
    + assert (Hne : stream_of a <> key) by (intros E; rewrite (proj2 (stream_test key a) E) in Ek; discriminate).
      unfold dstep. destruct (system a).
      * specialize (IH d s mcs Hk Hin'). destruct (flat_run d r) as [d2 out]. cbn [snd] in *.
        rewrite on_stream_cons, Ek. apply IH; auto.
      * unfold is_new_message. fold (stream_of a). match goal with |- context [if ?b then (d, false) else _] => destruct b end.
        -- specialize (IH d s mcs Hk Hin'). destruct (flat_run d r) as [d2 out]. cbn [snd] in *. apply IH; auto.
        -- rewrite (cap_small ks) by auto.
           specialize (IH (insert pair_eqb (stream_of a) (om_seq (snd a)) d) s mcs Hk Hin').
           destruct (flat_run _ r) as [d2 out]. cbn [snd] in *. rewrite on_stream_cons, Ek. apply IH; auto.
           ++ apply NoDup_insert_keys; auto using pair_eqb_spec.
           ++ intros x Hx. unfold insert in Hx; cbn [keys map fst] in Hx. destruct Hx as [<-|Hx]; [apply Hin; left; auto|].
              apply (keys_remove_In pair_eqb pair_eqb_spec) in Hx. apply Hi; tauto.
           ++ rewrite (lookup_insert_neq pair_eqb pair_eqb_spec) by auto. auto.
Qed.

Lemma dedup_stream_complete h key s mcs :
  few_streams (arrivals h) -> is_system_topic_hash (snd key) = false ->
  consecutive s (map fst mcs) ->
  map snd (on_stream key (arrivals h)) = flat_map (fun mc => repeat (fst mc) (S (snd mc))) mcs ->
  map snd (on_stream key (delivered h)) = map fst mcs.
Proof.
  intros (ks & Hk & Hin) Hsys Hc Hl. rewrite delivered_flat.
  apply (stream_run_start ks key _ _ s); auto.
  - constructor.
  - intros x [].
Qed.

(** ** The failures *)
Lemma restart_starves s t m0 ms :
  is_system_topic_hash t = false -> om_topic m0 = t -> om_seq m0 < 2 ^ 31 - 1 ->
  (forall m, In m ms -> om_topic m = t /\ om_seq m <= om_seq m0) ->
  delivered [(s, [m0]); (s, ms)] = [(s, m0)].
Proof.
  intros Hsys Ht Hn Hms. rewrite delivered_flat. cbn [arrivals flat_map fst snd map app].
  rewrite app_nil_r. cbn [flat_run]. unfold dstep at 1, system. cbn [fst snd]. rewrite Ht, Hsys.
  unfold is_new_message at 1. cbn [lookup].
  set (d := insert pair_eqb (s, t) (om_seq m0) (enforce_key_cap [])).
  assert (Hd : lookup pair_eqb (s, t) d = Some (om_seq m0)) by apply (lookup_insert_eq pair_eqb pair_eqb_spec).
  clearbody d.
  assert (H : flat_run d (map (pair s) ms) = (d, [])).
  { induction ms as [|m ms IH]; cbn [map flat_run]; auto.
    destruct (Hms m (or_introl eq_refl)) as [Hmt Hmn].
    unfold dstep, system; cbn [fst snd]. rewrite Hmt, Hsys. unfold is_new_message. rewrite Hd.
    change (2 ^ 31 - 1) with 2147483647 in Hn.
    rewrite (proj2 (dup_iff (om_seq m0) (om_seq m) ltac:(change (2 ^ 32) with 4294967296; lia) ltac:(change (2 ^ 32) with 4294967296; lia))) by lia.
    rewrite IH; auto. intros; apply Hms; right; auto. }
  rewrite H. reflexivity.
Qed.

Lemma wrap_duplicate s t m :
  is_system_topic_hash t = false -> om_topic m = t ->
  forall a b, om_topic a = t -> om_topic b = t -> om_seq a = 2 ^ 32 - 1 -> om_seq b = 0 ->
  delivered [(s, [a]); (s, [b]); (s, [a])] = [(s, a); (s, b); (s, a)].
Proof.
  intros Hsys _ a b Ha Hb Hsa Hsb. rewrite delivered_flat. cbn [arrivals flat_map fst snd map app flat_run].
  unfold dstep, system; cbn [fst snd]. rewrite Ha, Hb, Hsys. unfold is_new_message. cbn [lookup].
  rewrite !(lookup_insert_eq pair_eqb pair_eqb_spec). rewrite Hsa, Hsb.
  replace (enforce_key_cap (@nil ((N * N) * N))) with (@nil ((N * N) * N)) by reflexivity.
  change ((0 <=? 2 ^ 32 - 1) && (u32_wrapping_sub (2 ^ 32 - 1) 0 <? U32_HALF)) with false. cbn iota.
  rewrite (lookup_insert_eq pair_eqb pair_eqb_spec).
  change ((2 ^ 32 - 1 <=? 0) && (u32_wrapping_sub 0 (2 ^ 32 - 1) <? U32_HALF)) with false. reflexivity.
Qed.

Lemma fresh_keys_run l : forall d,
  NoDup (map stream_of l) -> (forall a, In a l -> ~ In (stream_of a) (keys d)) ->
  (forall a, In a l -> system a = false) ->
  N.of_nat (length d + length l) <= 4096 ->
  exists d', flat_run d l = (d', l) /\ length d' = (length d + length l)%nat /\
             incl (keys d') (map stream_of l ++ keys d).
Proof.
  induction l as [|a r IH]; intros d Hnd Hf Hs Hlen; cbn [flat_run].
  - exists d. rewrite Nat.add_0_r. repeat split; auto. intros x; auto.
  - cbn [length map] in *. inversion Hnd as [|? ? Hna Hnd' Heq]; clear Hnd; subst.
    assert (Hla : lookup pair_eqb (stream_of a) d = None).
    { apply (lookup_None_keys pair_eqb pair_eqb_spec). apply Hf; left; auto. }
    unfold dstep. rewrite (Hs a (or_introl eq_refl)). unfold is_new_message.
    fold (stream_of a). rewrite Hla. unfold enforce_key_cap, MAX_TRACKED_KEYS.
    rewrite (proj2 (N.ltb_lt _ _)) by lia.
    destruct (IH (insert pair_eqb (stream_of a) (om_seq (snd a)) d)) as (d' & E & Hl & Hi); auto.
    + intros x Hx. unfold insert; cbn [keys map fst]. intros [Hx2|Hx2].
      * apply Hna. apply in_map_iff. exists x; auto.
      * apply (keys_remove_In pair_eqb pair_eqb_spec) in Hx2. apply (Hf x); [right|]; tauto.
    + intros; apply Hs; right; auto.
    + rewrite insert_length_absent by auto. lia.
    + exists d'. rewrite E. rewrite insert_length_absent in Hl by auto. repeat split; auto; [lia|].
      intros x Hx. specialize (Hi x Hx). rewrite in_app_iff in Hi. cbn [app In]. rewrite in_app_iff.
      destruct Hi as [Hi|Hi]; auto. unfold insert in Hi; cbn [keys map fst] in Hi. destruct Hi as [Hi|Hi]; auto.
      apply (keys_remove_In pair_eqb pair_eqb_spec) in Hi. tauto.
Qed.

Lemma flood_duplicate l x a :
  length l = N.to_nat 4096 -> NoDup (map stream_of (x :: l)) -> (forall b, In b (x :: l) -> system b = false) ->
  In a l ->
  delivered (map (fun b => (fst b, [snd b])) (l ++ [x; a])) = l ++ [x; a].
Proof.
  intros Hlen Hnd Hs Ha. rewrite delivered_flat.
  assert (E : arrivals (map (fun b : arrival => (fst b, [snd b])) (l ++ [x; a])) = l ++ [x; a]).
  { clear. induction (l ++ [x; a]) as [|[s m] r IH]; auto. cbn [map arrivals flat_map fst snd app].
    unfold arrivals in IH. rewrite IH. reflexivity. }
  match goal with |- context [arrivals ?h] => replace (arrivals h) with (l ++ [x; a]) by (symmetry; exact E) end. rewrite flat_run_app. cbn [map] in Hnd. inversion Hnd as [|? ? Hx Hnd' Heq]; clear Hnd; subst.
  destruct (fresh_keys_run l []) as (d' & Er & Hl & Hi); auto.
  - intros b Hb; apply Hs; right; auto.
  - cbn [length]. lia.
  - rewrite Er. cbn [length app] in *. rewrite app_nil_r in Hi. cbn [flat_run].
    unfold dstep. rewrite (Hs x (or_introl eq_refl)), (Hs a (or_intror Ha)).
    unfold is_new_message. fold (stream_of x). fold (stream_of a).
    assert (Hlx : lookup pair_eqb (stream_of x) d' = None).
    { apply (lookup_None_keys pair_eqb pair_eqb_spec). intros Hin. apply Hx. apply Hi; auto. }
    rewrite Hlx. unfold enforce_key_cap at 1. rewrite (proj2 (N.ltb_ge _ _)) by (unfold MAX_TRACKED_KEYS; lia).
    assert (Hne : stream_of a <> stream_of x).
    { intros Hin. apply Hx. rewrite <- Hin. apply in_map; auto. }
    rewrite (lookup_insert_neq pair_eqb pair_eqb_spec) by auto. reflexivity.
Qed.

(** ** Latches *)
Lemma tick_lookup now st k : NoDup (keys st) ->
  lookup pair_eqb k (fst (tick_resends now st)) =
    match lookup pair_eqb k st with
    | Some e => if latch_due now e then if MAX_LATCH_RESENDS <=? le_resends e then None
                                       else Some (mkLatch (le_payload e) (le_resends e + 1) now)
                else Some e
    | None => None
    end /\
  filter (fun x => (fst (fst x) =? fst k) && (snd (fst x) =? snd k)) (snd (tick_resends now st)) =
    match lookup pair_eqb k st with
    | Some e => if latch_due now e && negb (MAX_LATCH_RESENDS <=? le_resends e) then [(k, le_payload e)] else []
    | None => []
    end /\
  NoDup (keys (fst (tick_resends now st))) /\ incl (keys (fst (tick_resends now st))) (keys st).
Proof.
  unfold tick_resends; cbn [fst snd].
  induction st as [|[k' e] r IH]; intros Hnd; cbn [flat_map lookup keys map fst].
  - repeat split; auto. intros x; auto.
  - cbn [keys map fst] in Hnd. inversion Hnd as [|? ? Hni Hnd' Heq]; clear Hnd; subst. destruct (IH Hnd') as (IH1 & IH2 & IH3 & IH4). clear IH.
    set (st1 := flat_map _ r) in *. set (o1 := flat_map _ r) in *.
    assert (Hk : forall l, lookup pair_eqb k ((k', l) :: st1) = if pair_eqb k k' then Some l else lookup pair_eqb k st1) by reflexivity.
    assert (Habs : pair_eqb k k' = true -> lookup pair_eqb k r = None).
    { intros E. apply pair_eqb_spec in E; subst k'. apply (lookup_None_keys pair_eqb pair_eqb_spec). auto. }
    assert (Hkf : forall p, (fst (fst (k', p : bytes)) =? fst k) && (snd (fst (k', p)) =? snd k) = pair_eqb k k').
    { intros; cbn [fst snd]. unfold pair_eqb. rewrite (N.eqb_sym (fst k)), (N.eqb_sym (snd k)). auto. }
    assert (Hni' : ~ In k' (keys st1)) by (intros Hin; apply Hni, IH4; auto).
    repeat split.
    + destruct (latch_due now e) eqn:Ed; [destruct (MAX_LATCH_RESENDS <=? le_resends e) eqn:Em|];
        cbn [app]; rewrite ?Hk; rewrite IH1; (destruct (pair_eqb k k') eqn:Ek;
        [rewrite ?(Habs eq_refl), ?Ed, ?Em; auto | auto]).
    + destruct (latch_due now e && negb (MAX_LATCH_RESENDS <=? le_resends e)) eqn:Ed; cbn [app filter].
      * rewrite Hkf, IH2. destruct (pair_eqb k k') eqn:Ek; auto. rewrite (Habs eq_refl), Ed.
        apply pair_eqb_spec in Ek; subst; auto.
      * rewrite IH2. destruct (pair_eqb k k') eqn:Ek; auto. rewrite (Habs eq_refl), Ed. auto.
    + destruct (latch_due now e); [destruct (MAX_LATCH_RESENDS <=? le_resends e)|]; cbn [app map fst]; auto; constructor; auto.
    + destruct (latch_due now e); [destruct (MAX_LATCH_RESENDS <=? le_resends e)|]; cbn [app map fst];
        intros x Hx; cbn [In] in *; try (destruct Hx as [Hx|Hx]; auto); right; apply IH4; auto.
Qed.

Lemma test_key k t s : (t =? fst k) && (s =? snd k) = true <-> (t, s) = k.
Proof. destruct k; cbn [fst snd]. rewrite andb_true_iff, !N.eqb_eq. split; [intros [-> ->]; auto|intros H; injection H; auto]. Qed.

Lemma lstep_nodup st o : NoDup (keys st) -> NoDup (keys (fst (lstep st o))).
Proof.
  intros. destruct o; cbn [lstep fst].
  - apply NoDup_insert_keys; auto using pair_eqb_spec.
  - apply NoDup_remove_keys; auto using pair_eqb_spec.
  - apply (tick_lookup now st (0, 0)); auto.
Qed.

Lemma lrun_nodup h : forall st, NoDup (keys st) -> NoDup (keys (fst (lrun st h))).
Proof.
  induction h as [|o r IH]; intros st Hn; cbn [lrun]; auto.
  pose proof (lstep_nodup st o Hn). destruct (lstep st o) as [st1 out]. cbn [fst] in *.
  specialize (IH st1 H). destruct (lrun st1 r). auto.
Qed.

Lemma resends_cons k o out outs :
  resends k ((o, out) :: outs) =
  map (fun x => (op_time o, snd x)) (filter (fun x => (fst (fst x) =? fst k) && (snd (fst x) =? snd k)) out) ++ resends k outs.
Proof. reflexivity. Qed.

Lemma no_latch_no_resend k ops : forall st, NoDup (keys st) -> lookup pair_eqb k st = None ->
  forallb (fun o => negb (starts k o)) ops = true -> resends k (snd (lrun st ops)) = [].
Proof.
  induction ops as [|o r IH]; intros st Hnd Hl Hs; cbn [lrun]; auto.
  cbn [forallb] in Hs. apply andb_prop in Hs as [Ho Hr]. apply negb_true_iff in Ho.
  pose proof (lstep_nodup st o Hnd) as Hnd1. destruct (lstep st o) as [st1 out] eqn:E. cbn [fst] in Hnd1.
  assert (lookup pair_eqb k st1 = None /\ map (fun x => (op_time o, snd x)) (filter (fun x => (fst (fst x) =? fst k) && (snd (fst x) =? snd k)) out) = []) as [Hl1 Hout].
  { destruct o; cbn [lstep starts] in *.
    - injection E as <- <-. split; auto. unfold start_latch.
      rewrite (lookup_insert_neq pair_eqb pair_eqb_spec); auto. intros Ek.
      rewrite (proj2 (test_key k topic seq) (eq_sym Ek)) in Ho. discriminate.
    - injection E as <- <-. split; auto. unfold on_ack. destruct (pair_eqb k (topic, seq)) eqn:Ek.
      + apply pair_eqb_spec in Ek; subst k. apply lookup_remove_eq.
      + rewrite (lookup_remove_neq pair_eqb pair_eqb_spec); auto. intros ->. rewrite (proj2 (pair_eqb_spec _ _)) in Ek; auto. discriminate.
    - destruct (tick_lookup now st k Hnd) as (H1 & H2 & _). rewrite E in H1, H2. cbn [fst snd] in *. rewrite Hl in *.
      rewrite H2. auto. }
  specialize (IH st1 Hnd1 Hl1 Hr). destruct (lrun st1 r). cbn [snd] in *.
  rewrite resends_cons, Hout, IH. reflexivity.
Qed.

Lemma latch_run k p ops : forall st last sent, NoDup (keys st) ->
  lookup pair_eqb k st = Some (mkLatch p sent last) -> sent <= 100 ->
  forallb (fun o => negb (starts k o)) ops = true ->
  resends k (snd (lrun st ops)) = expected_resends k p last sent ops.
Proof.
  induction ops as [|o r IH]; intros st last sent Hnd Hl Hle Hs; cbn [lrun expected_resends]; auto.
  cbn [forallb] in Hs. apply andb_prop in Hs as [Ho Hr]. apply negb_true_iff in Ho.
  pose proof (lstep_nodup st o Hnd) as Hnd1. destruct (lstep st o) as [st1 out] eqn:E. cbn [fst] in Hnd1.
  destruct o; cbn [lstep starts acks] in *.
  - injection E as <- <-.
    assert (Hl1 : lookup pair_eqb k (start_latch now st topic seq payload) = Some (mkLatch p sent last)).
    { unfold start_latch. rewrite (lookup_insert_neq pair_eqb pair_eqb_spec); auto. intros Ek.
      rewrite (proj2 (test_key k topic seq) (eq_sym Ek)) in Ho. discriminate. }
    specialize (IH _ last sent Hnd1 Hl1 Hle Hr). destruct (lrun _ r). cbn [snd] in *.
    rewrite resends_cons, IH. reflexivity.
  - injection E as <- <-. destruct ((topic =? fst k) && (seq =? snd k)) eqn:Ek.
    + apply test_key in Ek. subst k.
      pose proof (no_latch_no_resend (topic, seq) r (on_ack st topic seq) Hnd1 (lookup_remove_eq _ _ _) Hr) as H.
      destruct (lrun _ r). cbn [snd] in *. rewrite resends_cons, H. reflexivity.
    + assert (Hl1 : lookup pair_eqb k (on_ack st topic seq) = Some (mkLatch p sent last)).
      { unfold on_ack. rewrite (lookup_remove_neq pair_eqb pair_eqb_spec); auto. intros Ek2.
        rewrite (proj2 (test_key k topic seq) (eq_sym Ek2)) in Ek. discriminate. }
      specialize (IH _ last sent Hnd1 Hl1 Hle Hr). destruct (lrun _ r). cbn [snd] in *.
      rewrite resends_cons, IH. reflexivity.
  - destruct (tick_lookup now st k Hnd) as (H1 & H2 & _). rewrite E in H1, H2. cbn [fst snd] in *. rewrite Hl in *.
    unfold latch_due, MAX_LATCH_RESENDS, LATCH_RESEND_INTERVAL in H1, H2. cbn [le_resends le_last_sent le_payload] in *.
    destruct (N.leb_spec 10 (now - last)).
    + rewrite (proj2 (N.leb_le (last + 10) now)) by lia. destruct (N.leb_spec 100 sent).
      * rewrite (proj2 (N.ltb_ge sent 100)) by lia. cbn [andb negb] in *.
        pose proof (no_latch_no_resend k r st1 Hnd1 H1 Hr) as Hn.
        assert (He : expected_resends k p last sent r = []).
        { clear -H0. induction r as [|o r IH]; cbn [expected_resends]; auto.
          destruct o; rewrite ?IH; auto; try (destruct (acks _ _); auto).
          rewrite (proj2 (N.ltb_ge sent 100)) by lia. auto. }
        destruct (lrun st1 r). cbn [snd] in *. rewrite resends_cons, H2, Hn, He. reflexivity.
      * rewrite (proj2 (N.ltb_lt sent 100)) by lia. cbn [andb negb] in *.
        specialize (IH _ now (sent + 1) Hnd1 H1 ltac:(lia) Hr). destruct (lrun st1 r). cbn [snd] in *.
        rewrite resends_cons, H2, IH. reflexivity.
    + rewrite (proj2 (N.leb_gt (last + 10) now)) by lia. rewrite andb_false_r. cbn [andb] in *.
      specialize (IH _ last sent Hnd1 H1 Hle Hr). destruct (lrun st1 r). cbn [snd] in *.
      rewrite resends_cons, H2, IH. reflexivity.
Qed.

Lemma latched_resends pre t0 topic seq p post :
  let k := (topic, seq) in
  forallb (fun o => negb (starts k o)) post = true ->
  let st := fst (lrun [] (pre ++ [LStart t0 topic seq p])) in
  resends k (snd (lrun st post)) = expected_resends k p t0 0 post.
Proof.
  intros k Hs st. apply latch_run; auto; [apply lrun_nodup; constructor | | lia].
  unfold st. clear. generalize (@nil ((N * N) * LatchedEntry)). induction pre as [|o r IH]; intros l; cbn [app lrun].
  - cbn [lstep fst]. apply (lookup_insert_eq pair_eqb pair_eqb_spec).
  - destruct (lstep l o) as [st1 out]. specialize (IH st1). destruct (lrun st1 _). auto.
Qed.

Lemma expected_bounds k p ops : forall last sent, sent <= 100 ->
  let r := expected_resends k p last sent ops in
  N.of_nat (length r) + sent <= 100 /\ spaced 10 last (map fst r) /\ Forall (fun x => snd x = p) r.
Proof.
  induction ops as [|o r IH]; intros last sent Hle; cbn [expected_resends length map spaced]; cbv zeta.
  - repeat split; auto; lia.
  - destruct o; try (destruct (acks k _); [repeat split; cbn; auto; lia | apply IH; auto]).
    destruct ((sent <? 100) && (last + 10 <=? now)) eqn:E.
    + apply andb_prop in E as [E1 E2]. apply N.ltb_lt in E1. apply N.leb_le in E2.
      destruct (IH now (sent + 1) ltac:(lia)) as (I1 & I2 & I3).
      cbn [length map fst spaced]. repeat split; auto; try lia.
    + apply IH; auto.
Qed.

Lemma expected_after_ack k p post1 a post2 : forall last sent, acks k a = true ->
  expected_resends k p last sent (post1 ++ a :: post2) = expected_resends k p last sent post1.
Proof.
  induction post1 as [|o r IH]; intros last sent Ha; cbn [app expected_resends].
  - destruct a; try discriminate. rewrite Ha. auto.
  - destruct o; rewrite ?IH by auto; auto. 
Qed.
