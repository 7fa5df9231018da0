From Coq Require Import String.
From Verif.Base Require Import Prelude Bytes AMap Str.
From Verif.Model Require Import Wire Optimize.
From Verif.Spec Require Import OptimizeSpec.
From Verif.Proofs Require Import WireProofs.
Open Scope list_scope.
Open Scope N_scope.

(** ** Delta regions *)
Lemma patch_mid pre seg post d : length seg = length d ->
  patch (pre ++ seg ++ post) (length pre) d = pre ++ d ++ post.
Proof.
  intros H. unfold patch. rewrite firstn_app, Nat.sub_diag, firstn_all. cbn [firstn]. rewrite app_nil_r.
  f_equal. f_equal. rewrite app_assoc, skipn_app, skipn_all2 by (rewrite app_length; lia).
  cbn [app]. rewrite app_length, H, Nat.sub_diag. reflexivity.
Qed.
Definition patch_all (rs : list (nat * bytes)) (base : bytes) : bytes :=
  fold_left (fun b r => patch b (fst r) (snd r)) rs base.
Lemma changed_patch : forall old new, length old = length new ->
  (forall i pre, length pre = i -> patch_all (changed i None old new) (pre ++ old) = pre ++ new)
  /\ (forall i s d pre seg, length pre = s -> length seg = length d -> (s + length d = i)%nat ->
      patch_all (changed i (Some (s, d)) old new) (pre ++ seg ++ old) = pre ++ d ++ new).
Proof.
  induction old as [|a o IH]; intros [|b n] Hl; try discriminate; cbn [length] in Hl.
  - split; [intros; cbn; auto|]. intros i s d pre seg Hp Hs Hi. cbn [changed flush_region patch_all fold_left fst snd].
    subst s. apply patch_mid; auto.
  - assert (Hl' : length o = length n) by lia. destruct (IH n Hl') as (I1 & I2). split.
    + intros i pre Hp. cbn [changed]. destruct (a =? b) eqn:E.
      * bool_prop. subst b. cbn [flush_region app].
        specialize (I1 (S i) (pre ++ [a])). rewrite <- !app_assoc in I1. cbn [app] in I1. apply I1.
        rewrite app_length; cbn; lia.
      * specialize (I2 (S i) i [b] pre [a]). cbn [app length] in I2. apply I2; auto. lia.
    + intros i s d pre seg Hp Hs Hi. cbn [changed]. destruct (a =? b) eqn:E.
      * bool_prop. subst b. cbn [flush_region app]. unfold patch_all. cbn [fold_left fst snd].
        subst s. rewrite patch_mid by auto. fold (patch_all (changed (S i) None o n)).
        specialize (I1 (S i) (pre ++ d ++ [a])). rewrite <- !app_assoc in I1. cbn [app] in I1. apply I1.
        rewrite !app_length; cbn; lia.
      * specialize (I2 (S i) s (d ++ [b]) pre (seg ++ [a])). rewrite <- !app_assoc in I2. cbn [app] in I2. apply I2; auto;
          rewrite !app_length; cbn; lia.
Qed.
Lemma le16 n : n <= 65535 -> le_dec (le_enc 2 n) = n.
Proof. intros. apply le_dec_enc. change (256 ^ N.of_nat 2) with 65536. lia. Qed.
Lemma get_le_app_0 k n rest : le_dec (le_enc k n) = n -> get_le 0 k (le_enc k n ++ rest) = n.
Proof.
  intros H. unfold get_le. rewrite slice_app_l by (rewrite le_enc_length; lia).
  rewrite slice_all by apply le_enc_length. auto.
Qed.
Lemma apply_regions : forall rs base fuel, forallb region_fits rs = true ->
  (length (flat_map encode_region rs) <= fuel)%nat ->
  apply_delta fuel base (flat_map encode_region rs) = Some (patch_all rs base).
Proof.
  induction rs as [|[s d] rs IH]; intros base fuel Hf Hl.
  - destruct fuel; reflexivity.
  - cbn [forallb] in Hf. bool_prop. cbn [flat_map] in *.
    assert (He : encode_region (s, d) = le_enc 2 (N.of_nat s) ++ le_enc 2 (N.of_nat (length d)) ++ d) by reflexivity.
    unfold region_fits in H. cbn [fst snd] in H. bool_prop.
    rewrite He in *. rewrite <- !app_assoc in *.
    rewrite !app_length, !le_enc_length in Hl.
    set (tail := flat_map encode_region rs) in *.
    remember (le_enc 2 (N.of_nat s) ++ le_enc 2 (N.of_nat (length d)) ++ d ++ tail) as whole eqn:Wd.
    assert (Hw : length whole = (4 + length d + length tail)%nat) by (rewrite Wd, !app_length, !le_enc_length; lia).
    destruct fuel as [|fuel]; [lia|]. cbn [apply_delta].
    assert (Hne : match whole with [] => false | _ => true end = true) by (destruct whole; [cbn in Hw; lia|auto]).
    assert (G0 : get_le 0 2 whole = N.of_nat s) by (rewrite Wd; apply get_le_app_0, le16; lia).
    assert (G2 : get_le 2 2 whole = N.of_nat (length d)).
    { rewrite Wd. unfold get_le. rewrite slice_app_r by (rewrite le_enc_length; lia). rewrite le_enc_length.
      change (2 - 2)%nat with 0%nat. rewrite slice_app_l by (rewrite le_enc_length; lia).
      rewrite slice_all by apply le_enc_length. apply le16. lia. }
    transitivity (apply_delta fuel (patch base s d) tail); [|rewrite IH by (auto; lia); reflexivity].
    destruct whole as [|w0 whole'] eqn:Ew; [discriminate|]. rewrite <- Ew in *.
    rewrite (proj2 (Nat.ltb_ge (length whole) 4)) by lia.
    rewrite G0, G2, !Nat2N.id.
    rewrite (proj2 (Nat.ltb_ge (length whole) (4 + length d))) by lia.
    assert (Sl : slice 4 (length d) whole = d).
    { rewrite Wd, app_assoc. rewrite slice_app_r by (rewrite app_length, !le_enc_length; lia).
      rewrite app_length, !le_enc_length. change (4 - (2 + 2))%nat with 0%nat.
      rewrite slice_app_l by lia. apply slice_all; auto. }
    assert (Sk : skipn (4 + length d) whole = tail).
    { rewrite Wd, !app_assoc. rewrite skipn_app, skipn_all2 by (rewrite !app_length, !le_enc_length; lia).
      rewrite !app_length, !le_enc_length. cbn [app]. replace (4 + length d - (2 + 2 + length d))%nat with 0%nat by lia. reflexivity. }
    rewrite Sl, Sk. reflexivity.
Qed.
Lemma apply_compute old new fuel : length old = length new ->
  (length (compute_delta old new) < length new)%nat -> (length (compute_delta old new) <= fuel)%nat ->
  apply_delta fuel old (compute_delta old new) = Some new.
Proof.
  intros Hl Hlt Hf. unfold compute_delta in *. rewrite Hl, Nat.eqb_refl in *. cbn [negb] in *.
  destruct (forallb region_fits (changed 0 None old new)) eqn:E; [|lia].
  rewrite apply_regions by auto. f_equal. apply (proj1 (changed_patch old new Hl) 0%nat []); auto.
Qed.

(** ** Chains *)
Lemma process_outgoing_cons {O} (step : O -> list OutMessage -> O * list OutMessage) os ms : os <> [] ->
  process_outgoing step os ms =
  (fst (run_chain step os (filter (fun m => negb (is_immediate m)) ms)),
   filter is_immediate ms ++ snd (run_chain step os (filter (fun m => negb (is_immediate m)) ms))).
Proof. destruct os; [congruence|]. intros _. unfold process_outgoing. destruct (run_chain _ _ _); reflexivity. Qed.

Lemma run_chain_one {O} (step : O -> list OutMessage -> O * list OutMessage) o ms :
  run_chain step [o] ms = ([fst (step o ms)], snd (step o ms)).
Proof. cbn [run_chain]. destruct (step o ms); reflexivity. Qed.

(** A chain of one optimizer over a history: its state after, and the outputs, with the urgent messages put
    in front of each batch. *)
Lemma export_pass_one close now o b :
  export_pass close now [o] b =
  ([match b with [] => o | _ => fst (opt_out close now o (non_urgent b)) end],
   match b with [] => [] | _ => filter is_immediate b ++ snd (opt_out close now o (non_urgent b)) end).
Proof.
  unfold export_pass. destruct b as [|m r]; auto. rewrite process_outgoing_cons by congruence.
  rewrite run_chain_one. cbn [fst snd].
  replace (non_urgent (m :: r)) with (filter (fun x => negb (is_immediate x)) (m :: r)); auto.
  apply filter_ext. intros x. unfold is_immediate. destruct (om_prio x); reflexivity.
Qed.
Lemma non_urgent_app a b : non_urgent (a ++ b) = non_urgent a ++ non_urgent b.
Proof. apply filter_app. Qed.

Lemma retain_app {S} (step : S -> OutMessage -> S * option OutMessage) a b : forall s,
  retain step s (a ++ b) =
  (fst (retain step (fst (retain step s a)) b), snd (retain step s a) ++ snd (retain step (fst (retain step s a)) b)).
Proof.
  induction a as [|m r IH]; intros s; cbn [app retain fst snd].
  - destruct (retain step s b); reflexivity.
  - destruct (step s m) as [s1 o]. rewrite IH. destruct (retain step s1 r) as [s2 out]. cbn [fst snd].
    destruct (retain step s2 b). cbn [fst snd]. destruct o; reflexivity.
Qed.

(** history of a single per-message optimizer *)
Lemma predict_run close h : forall p,
  fst (export_run close [OPredict p] h) = [OPredict (fst (retain (predict_one close) p (non_urgent (given h))))]
  /\ (forall m, In m (wired (snd (export_run close [OPredict p] h))) <->
        (In m (given h) /\ is_immediate m = true) \/ In m (snd (retain (predict_one close) p (non_urgent (given h))))).
Proof.
  induction h as [|[now b] r IH]; intros p.
  - cbn. split; auto. tauto.
  - cbn [export_run]. rewrite export_pass_one.
    assert (E : opt_out close now (OPredict p) (non_urgent b) =
       (OPredict (fst (retain (predict_one close) p (non_urgent b))), snd (retain (predict_one close) p (non_urgent b)))).
    { cbn [opt_out]. destruct (retain _ p _); reflexivity. }
    rewrite E. cbn [fst snd].
    set (p1 := fst (retain (predict_one close) p (non_urgent b))).
    assert (Ep : match b with [] => OPredict p | _ => OPredict p1 end = OPredict p1).
    { destruct b; auto. }
    rewrite Ep. destruct (export_run close [OPredict p1] r) as [os2 outs] eqn:Er.
    destruct (IH p1) as (A & B). rewrite Er in A, B. cbn [fst snd] in *.
    unfold given. cbn [flat_map snd]. fold (given r). rewrite non_urgent_app, retain_app. cbn [fst snd]. fold p1.
    split; auto. intros m. unfold wired. cbn [concat]. rewrite in_app_iff. fold (wired outs). rewrite B.
    rewrite !in_app_iff. destruct b as [|x b].
    + cbn [non_urgent filter retain snd In]. tauto.
    + rewrite in_app_iff, filter_In. tauto.
Qed.
Lemma delta_run close h : forall p,
  fst (export_run close [ODelta p] h) = [ODelta (fst (retain delta_one p (non_urgent (given h))))]
  /\ (forall m, In m (wired (snd (export_run close [ODelta p] h))) <->
        (In m (given h) /\ is_immediate m = true) \/ In m (snd (retain delta_one p (non_urgent (given h))))).
Proof.
  induction h as [|[now b] r IH]; intros p.
  - cbn. split; auto. tauto.
  - cbn [export_run]. rewrite export_pass_one.
    assert (E : opt_out close now (ODelta p) (non_urgent b) =
       (ODelta (fst (retain delta_one p (non_urgent b))), snd (retain delta_one p (non_urgent b)))).
    { cbn [opt_out]. destruct (retain _ p _); reflexivity. }
    rewrite E. cbn [fst snd].
    set (p1 := fst (retain delta_one p (non_urgent b))).
    assert (Ep : match b with [] => ODelta p | _ => ODelta p1 end = ODelta p1).
    { destruct b; auto. }
    rewrite Ep. destruct (export_run close [ODelta p1] r) as [os2 outs] eqn:Er.
    destruct (IH p1) as (A & B). rewrite Er in A, B. cbn [fst snd] in *.
    unfold given. cbn [flat_map snd]. fold (given r). rewrite non_urgent_app, retain_app. cbn [fst snd]. fold p1.
    split; auto. intros m. unfold wired. cbn [concat]. rewrite in_app_iff. fold (wired outs). rewrite B.
    rewrite !in_app_iff. destruct b as [|x b].
    + cbn [non_urgent filter retain snd In]. tauto.
    + rewrite in_app_iff, filter_In. tauto.
Qed.

(** ** Predict: at most 100 messages of a topic in a row are withheld *)
Definition supp (p : Predict) (t : N) : N := match lookup N.eqb t p with Some s => ts_suppress s | None => 0 end.
Lemma predict_one_other close p m t : om_topic m <> t -> supp (fst (predict_one close p m)) t = supp p t.
Proof.
  intros H. unfold predict_one, supp. cbv zeta.
  assert (L : forall v : TopicState, lookup N.eqb t (insert N.eqb (om_topic m) v p) = lookup N.eqb t p).
  { intros v. apply lookup_insert_neq; [apply N.eqb_eq|auto]. }
  repeat match goal with |- context [if ?c then (_, _) else _] => destruct c end; cbn [fst]; rewrite L; auto.
Qed.
Lemma predict_one_same close p m : supp p (om_topic m) <= 100 ->
  match snd (predict_one close p m) with
  | Some m' => m' = m /\ supp (fst (predict_one close p m)) (om_topic m) = 0
  | None => supp (fst (predict_one close p m)) (om_topic m) = supp p (om_topic m) + 1 /\ supp p (om_topic m) < 100
  end.
Proof.
  unfold predict_one, supp. cbv zeta.
  destruct (lookup N.eqb (om_topic m) p) as [s|] eqn:El; intros H;
  repeat match goal with |- context [if ?c then _ else _] => destruct c eqn:? end; cbn [fst snd];
    rewrite ?lookup_insert_eq by apply N.eqb_eq; cbn [ts_suppress ts_new] in *; bool_prop; try (split; auto; lia).
Qed.
Lemma predict_inv close t ms : forall p, supp p t <= 100 -> supp (fst (retain (predict_one close) p ms)) t <= 100.
Proof.
  induction ms as [|m r IH]; intros p H; cbn [retain fst]; auto.
  destruct (predict_one close p m) as [p1 o] eqn:E. destruct (retain (predict_one close) p1 r) as [p2 out] eqn:Er.
  cbn [fst]. specialize (IH p1). rewrite Er in IH. cbn [fst] in IH. apply IH.
  destruct (N.eq_dec (om_topic m) t).
  - subst t. pose proof (predict_one_same close p m H) as G. rewrite E in G. cbn [fst snd] in G. destruct o; lia.
  - pose proof (predict_one_other close p m t n) as G. rewrite E in G. cbn [fst] in G. lia.
Qed.
Lemma on_topic_cons t m r : on_topic t (m :: r) = if om_topic m =? t then m :: on_topic t r else on_topic t r.
Proof. reflexivity. Qed.
Lemma predict_fresh close t ms : forall p, supp p t <= 100 ->
  (forall m, In m (snd (retain (predict_one close) p ms)) -> om_topic m <> t) ->
  supp p t + N.of_nat (length (on_topic t ms)) <= 100.
Proof.
  induction ms as [|m r IH]; intros p H Hn.
  - cbn. lia.
  - cbn [retain] in Hn. destruct (predict_one close p m) as [p1 o] eqn:E.
    destruct (retain (predict_one close) p1 r) as [p2 out] eqn:Er. cbn [snd] in Hn.
    specialize (IH p1). rewrite Er in IH. cbn [snd] in IH. rewrite on_topic_cons.
    destruct (om_topic m =? t) eqn:Et; bool_prop.
    + subst t. pose proof (predict_one_same close p m H) as G. rewrite E in G. cbn [fst snd] in G. destruct o as [m'|].
      * exfalso. destruct G as (-> & _). apply (Hn m); auto. left; auto.
      * destruct G as (G1 & G2). assert (supp p1 (om_topic m) <= 100) by lia. specialize (IH H0 Hn).
        cbn [length]. lia.
    + pose proof (predict_one_other close p m t Et) as G. rewrite E in G. cbn [fst] in G.
      rewrite <- G. apply IH; [lia|]. intros x Hx. apply Hn. destruct o; [right|]; auto.
Qed.
Lemma predict_thinned close ms : forall p, thinned (snd (retain (predict_one close) p ms)) ms.
Proof.
  induction ms as [|m r IH]; intros p; cbn [retain snd]; [constructor|].
  destruct (predict_one close p m) as [p1 o] eqn:E. destruct (retain (predict_one close) p1 r) as [p2 out] eqn:Er.
  specialize (IH p1). rewrite Er in IH. cbn [snd] in *.
  assert (o = Some m \/ o = None).
  { revert E. unfold predict_one. cbv zeta. repeat case_match; intros [= <- <-]; auto. }
  destruct H as [-> | ->]; constructor; auto.
Qed.

(** ** Delta: a full payload at least every [interval] messages *)
Definition since (d : Delta) (t : N) : N := match lookup N.eqb t (de_since d) with Some n => n | None => 0 end.
Lemma delta_one_interval d m : de_interval (fst (delta_one d m)) = de_interval d.
Proof. unfold delta_one. cbv zeta. repeat case_match; reflexivity. Qed.
Lemma delta_one_other d m t : om_topic m <> t -> since (fst (delta_one d m)) t = since d t.
Proof.
  intros H. unfold delta_one, since. cbv zeta.
  assert (L : forall v : N, lookup N.eqb t (insert N.eqb (om_topic m) v (de_since d)) = lookup N.eqb t (de_since d)).
  { intros v. apply lookup_insert_neq; [apply N.eqb_eq|auto]. }
  destruct (lookup N.eqb (om_topic m) (de_last d)); [|cbn [fst de_since]; rewrite L; auto].
  repeat match goal with |- context [if ?c then _ else _] => destruct c eqn:? end; cbn [fst de_since]; rewrite L; auto.
Qed.
Lemma delta_one_same d m :
  (snd (delta_one d m) = Some m /\ since (fst (delta_one d m)) (om_topic m) <= since d (om_topic m) + 1)
  \/ (since (fst (delta_one d m)) (om_topic m) = since d (om_topic m) + 1 /\ since d (om_topic m) + 1 < de_interval d).
Proof.
  unfold delta_one, since. cbv zeta.
  destruct (lookup N.eqb (om_topic m) (de_last d)) as [prev|];
  repeat match goal with |- context [if ?c then _ else _] => destruct c eqn:? end; cbn [fst snd de_since];
    rewrite ?lookup_insert_eq by apply N.eqb_eq; bool_prop; try (left; split; [reflexivity|lia]); right; split; auto; lia.
Qed.

Lemma delta_fresh t ms : forall d,
  (forall m, In m (snd (retain delta_one d ms)) -> In m ms -> om_topic m <> t) ->
  since d t + N.of_nat (length (on_topic t ms)) < de_interval d \/ on_topic t ms = [].
Proof.
  induction ms as [|m r IH]; intros d Hn; [auto|].
  cbn [retain] in Hn. pose proof (delta_one_interval d m) as Hint. pose proof (delta_one_same d m) as Hsame.
  pose proof (delta_one_other d m t) as Hoth.
  destruct (delta_one d m) as [d1 o] eqn:E.
  destruct (retain delta_one d1 r) as [d2 out] eqn:Er. cbn [fst snd] in *.
  specialize (IH d1). rewrite Er in IH. cbn [snd] in IH. rewrite on_topic_cons in *.
  destruct (om_topic m =? t) eqn:Et; bool_prop.
  - subst t. destruct Hsame as [(-> & _)|(G1 & G2)].
    + exfalso. apply (Hn m); auto; left; auto.
    + left. assert (IH' := IH). rewrite Hint in IH'. cbn [length].
      destruct IH' as [G|G].
      * intros x Hx Hx2. apply Hn; [destruct o; [right|]; auto|right; auto].
      * lia.
      * rewrite G. cbn. lia.
  - rewrite Hint, Hoth in IH by auto. apply IH; auto.
    intros x Hx Hx2. apply Hn; [destruct o; [right|]; auto|right; auto].
Qed.

(** ** Delta: an applying receiver follows the sender *)
Lemma with_payload_topic m p : om_topic (with_payload m p) = om_topic m.
Proof. reflexivity. Qed.
Lemma beqb_true a b : beqb a b = true -> a = b.
Proof. apply beqb_spec. Qed.
Lemma delta_one_lookup_other d m t : om_topic m <> t ->
  lookup N.eqb t (de_last (fst (delta_one d m))) = lookup N.eqb t (de_last d)
  /\ forall m', snd (delta_one d m) = Some m' -> om_topic m' = om_topic m.
Proof.
  intros H. unfold delta_one. cbv zeta.
  assert (L : forall v : bytes, lookup N.eqb t (insert N.eqb (om_topic m) v (de_last d)) = lookup N.eqb t (de_last d)).
  { intros v. apply lookup_insert_neq; [apply N.eqb_eq|auto]. }
  destruct (lookup N.eqb (om_topic m) (de_last d));
  repeat match goal with |- context [if ?c then (_, _) else _] => destruct c end; cbn [fst snd de_last];
    rewrite ?L; split; auto; intros m' [= <-]; auto.
Qed.
Lemma delta_one_follow d m n held : length (om_payload m) = n ->
  (forall v, lookup N.eqb (om_topic m) (de_last d) = Some v -> length v = n) ->
  held = lookup N.eqb (om_topic m) (de_last d) ->
  lookup N.eqb (om_topic m) (de_last (fst (delta_one d m))) = Some (om_payload m)
  /\ match snd (delta_one d m) with
     | None => held = Some (om_payload m)
     | Some m' => om_topic m' = om_topic m /\ rx_apply n held m' = Some (om_payload m)
     end.
Proof.
  intros Hn Hv ->. unfold delta_one. cbv zeta.
  destruct (lookup N.eqb (om_topic m) (de_last d)) as [prev|] eqn:El.
  2:{ cbn [fst snd de_last]. rewrite lookup_insert_eq by apply N.eqb_eq. repeat split; auto.
      unfold rx_apply. rewrite Hn, Nat.eqb_refl. auto. }
  specialize (Hv prev eq_refl).
  match goal with |- context [if ?c then (_, _) else _] => destruct c end.
  { cbn [fst snd de_last]. rewrite lookup_insert_eq by apply N.eqb_eq. repeat split; auto.
    unfold rx_apply. rewrite Hn, Nat.eqb_refl. auto. }
  destruct (beqb prev (om_payload m)) eqn:Eb.
  { apply beqb_true in Eb. subst prev. cbn [fst snd de_last]. rewrite El. auto. }
  destruct (Nat.ltb_spec (length (compute_delta prev (om_payload m))) (length (om_payload m) * 3 / 4));
    cbn [fst snd de_last]; rewrite lookup_insert_eq by apply N.eqb_eq; repeat split; auto.
  2:{ unfold rx_apply. rewrite Hn, Nat.eqb_refl. auto. }
  assert (Hlt : (length (compute_delta prev (om_payload m)) < length (om_payload m))%nat).
  { eapply Nat.lt_le_trans; [exact H|]. apply Nat.div_le_upper_bound; lia. }
  unfold rx_apply. cbn [om_payload with_payload].
  rewrite (proj2 (Nat.eqb_neq _ _)) by lia. apply apply_compute; auto. lia.
Qed.
Lemma last_value_cons m ms : last_value (m :: ms) = match last_value ms with Some v => Some v | None => Some (om_payload m) end.
Proof. unfold last_value. cbn [rev]. destruct (rev ms); reflexivity. Qed.
Lemma delta_follow t n ms : forall d, (forall m, In m ms -> om_topic m = t -> length (om_payload m) = n) ->
  (forall v, lookup N.eqb t (de_last d) = Some v -> length v = n) ->
  fold_left (rx_apply n) (on_topic t (snd (retain delta_one d ms))) (lookup N.eqb t (de_last d))
  = match last_value (on_topic t ms) with Some v => Some v | None => lookup N.eqb t (de_last d) end.
Proof.
  induction ms as [|m r IH]; intros d Hn Hv; [reflexivity|].
  cbn [retain]. pose proof (delta_one_lookup_other d m t) as Ho.
  pose proof (delta_one_follow d m n (lookup N.eqb (om_topic m) (de_last d))) as Hf.
  destruct (delta_one d m) as [d1 o] eqn:E. destruct (retain delta_one d1 r) as [d2 out] eqn:Er. cbn [fst snd] in *.
  specialize (IH d1). rewrite Er in IH. cbn [snd] in IH. rewrite on_topic_cons.
  destruct (om_topic m =? t) eqn:Et; bool_prop.
  - subst t. destruct Hf as (F1 & F2); auto; [apply Hn; [left|]; auto|].
    rewrite last_value_cons.
    assert (IH' : fold_left (rx_apply n) (on_topic (om_topic m) out) (Some (om_payload m)) =
       match last_value (on_topic (om_topic m) r) with Some v => Some v | None => Some (om_payload m) end).
    { rewrite <- F1. apply IH; [intros; apply Hn; [right|]; auto|]. intros v Ev. rewrite F1 in Ev. inv Ev.
      apply Hn; [left|]; auto. }
    transitivity (fold_left (rx_apply n) (on_topic (om_topic m) out) (Some (om_payload m))).
    + destruct o as [m'|].
      * destruct F2 as (F2 & F3). rewrite on_topic_cons, F2, N.eqb_refl. cbn [fold_left]. rewrite F3. reflexivity.
      * rewrite F2. reflexivity.
    + rewrite IH'. destruct (last_value _); reflexivity.
  - destruct (Ho Et) as (O1 & O2).
    transitivity (fold_left (rx_apply n) (on_topic t out) (lookup N.eqb t (de_last d1))).
    + rewrite O1. destruct o as [m'|]; auto. rewrite on_topic_cons, (O2 m' eq_refl), (proj2 (N.eqb_neq _ _) Et). reflexivity.
    + rewrite IH; [rewrite O1; reflexivity| |].
      * intros; apply Hn; [right|]; auto.
      * rewrite O1; auto.
Qed.
Lemma on_topic_app t a b : on_topic t (a ++ b) = on_topic t a ++ on_topic t b.
Proof. apply filter_app. Qed.
Lemma delta_wired_topic close t h : forall p, (forall m, In m (given h) -> om_topic m = t -> om_prio m <> Immediate) ->
  on_topic t (wired (snd (export_run close [ODelta p] h))) = on_topic t (snd (retain delta_one p (non_urgent (given h))))
  /\ on_topic t (non_urgent (given h)) = on_topic t (given h).
Proof.
  induction h as [|[now b] r IH]; intros p Hn; [cbn; auto|].
  cbn [export_run]. rewrite export_pass_one.
  assert (E : opt_out close now (ODelta p) (non_urgent b) =
       (ODelta (fst (retain delta_one p (non_urgent b))), snd (retain delta_one p (non_urgent b)))).
  { cbn [opt_out]. destruct (retain _ p _); reflexivity. }
  rewrite E. cbn [fst snd].
  set (p1 := fst (retain delta_one p (non_urgent b))).
  assert (Ep : match b with [] => ODelta p | _ => ODelta p1 end = ODelta p1) by (destruct b; auto).
  rewrite Ep. destruct (export_run close [ODelta p1] r) as [os2 outs] eqn:Er.
  destruct (IH p1) as (A & B). { intros m Hm. apply Hn. unfold given. cbn [flat_map snd]. apply in_app_iff; auto. }
  rewrite Er in A. cbn [fst snd] in *.
  unfold given. cbn [flat_map snd]. fold (given r). rewrite non_urgent_app, retain_app, !on_topic_app. cbn [fst snd]. fold p1.
  unfold wired. cbn [concat]. fold (wired outs). rewrite on_topic_app, A, B.
  assert (Hb : forall m, In m b -> om_topic m = t -> om_prio m <> Immediate).
  { intros m Hm. apply Hn. unfold given. cbn [flat_map snd]. apply in_app_iff; auto. }
  assert (Hi : on_topic t (filter is_immediate b) = []).
  { clear - Hb. induction b as [|m b IH]; auto. cbn [filter]. 
    assert (on_topic t (filter is_immediate b) = []) by (apply IH; intros; apply Hb; [right|]; auto).
    destruct (is_immediate m) eqn:Em; auto. rewrite on_topic_cons. destruct (om_topic m =? t) eqn:Et; auto.
    bool_prop. exfalso. apply (Hb m); auto; [left; auto|]. unfold is_immediate in Em. destruct (om_prio m); auto; discriminate. }
  assert (Hu : on_topic t (non_urgent b) = on_topic t b).
  { clear - Hb. induction b as [|m b IH]; auto. unfold non_urgent. cbn [filter]. fold (non_urgent b).
    assert (on_topic t (non_urgent b) = on_topic t b) by (apply IH; intros; apply Hb; [right|]; auto).
    rewrite on_topic_cons. destruct (om_topic m =? t) eqn:Et.
    - bool_prop. assert (G := Hb m (or_introl eq_refl) Et). destruct (om_prio m); try contradiction;
        rewrite on_topic_cons, (proj2 (N.eqb_eq _ _) Et), H; auto.
    - destruct (om_prio m); auto; rewrite on_topic_cons, Et; auto. }
  rewrite Hu. split; auto. destruct b as [|x b]; [rewrite on_topic_app; reflexivity|]. rewrite !on_topic_app, Hi. reflexivity.
Qed.

(** ** Fusion *)
Definition urgents (ms : list OutMessage) : list OutMessage := filter is_immediate ms.
Lemma urgents_non_urgent ms : urgents (non_urgent ms) = [] /\ non_urgent (urgents ms) = [].
Proof.
  induction ms as [|m r IH]; auto. unfold urgents, non_urgent in *. cbn [filter].
  destruct (is_immediate m) eqn:E; unfold is_immediate in E; destruct (om_prio m) eqn:Ep; try discriminate; cbn [filter]; unfold is_immediate in *; rewrite ?Ep; tauto.
Qed.
Lemma non_urgent_idem ms : non_urgent (non_urgent ms) = non_urgent ms.
Proof.
  induction ms as [|m r IH]; auto. unfold non_urgent in *. cbn [filter].
  destruct (om_prio m) eqn:Ep; cbn [filter]; rewrite ?Ep, ?IH; auto.
Qed.
Lemma urgents_idem ms : urgents (urgents ms) = urgents ms.
Proof.
  induction ms as [|m r IH]; auto. unfold urgents in *. cbn [filter].
  destruct (is_immediate m) eqn:Ep; cbn [filter]; rewrite ?Ep, ?IH; auto.
Qed.
Lemma fusion_out_conserve now f ms : snd (fusion_out now f ms) ++ fu_buffer (fst (fusion_out now f ms)) = fu_buffer f ++ ms.
Proof.
  unfold fusion_out. destruct ms as [|m r]; [cbn; rewrite app_nil_r; auto|].
  repeat case_match; cbn [fst snd fu_buffer app]; rewrite ?app_nil_r; auto.
Qed.
Lemma opt_out_fusion close now f ms :
  opt_out close now (OFusion f) ms = (OFusion (fst (fusion_out now f ms)), snd (fusion_out now f ms)).
Proof. cbn [opt_out]. destruct (fusion_out now f ms); reflexivity. Qed.
Lemma fusion_pass close now f b :
  export_pass close now [OFusion f] b =
  ([OFusion (fst (fusion_out now f (non_urgent b)))], urgents b ++ snd (fusion_out now f (non_urgent b))).
Proof.
  rewrite export_pass_one, opt_out_fusion. cbn [fst snd]. destruct b; reflexivity.
Qed.
Lemma fusion_run close h : forall f,
  (forall m, In m (fu_buffer f) -> om_prio m <> Immediate) ->
  exists f', fst (export_run close [OFusion f] h) = [OFusion f']
    /\ fu_window f' = fu_window f
    /\ (forall m, In m (fu_buffer f') -> om_prio m <> Immediate)
    /\ non_urgent (wired (snd (export_run close [OFusion f] h))) ++ fu_buffer f' = fu_buffer f ++ non_urgent (given h)
    /\ urgents (wired (snd (export_run close [OFusion f] h))) = urgents (given h).
Proof.
  induction h as [|[now b] r IH]; intros f Hf.
  - exists f. cbn. rewrite app_nil_r. auto.
  - cbn [export_run]. rewrite fusion_pass. set (f1 := fst (fusion_out now f (non_urgent b))).
    pose proof (fusion_out_conserve now f (non_urgent b)) as Hc. fold f1 in Hc.
    set (o1 := snd (fusion_out now f (non_urgent b))) in *.
    assert (Hall : forall m, In m (o1 ++ fu_buffer f1) -> om_prio m <> Immediate).
    { intros m Hm. rewrite Hc in Hm. apply in_app_iff in Hm. destruct Hm as [|Hm]; [apply Hf; auto|].
      apply filter_In in Hm. destruct (om_prio m); [destruct Hm|..]; congruence. }
    assert (Hw1 : fu_window f1 = fu_window f).
    { subst f1. unfold fusion_out. repeat case_match; reflexivity. }
    destruct (IH f1) as (f' & A & A2 & B & C & D). { intros m Hm. apply Hall, in_app_iff; auto. }
    destruct (export_run close [OFusion f1] r) as [os2 outs]. cbn [fst snd] in *.
    exists f'. split; auto. split; [congruence|]. split; auto.
    unfold wired. cbn [concat]. fold (wired outs).
    unfold given. cbn [flat_map snd]. fold (given r).
    assert (Hno : non_urgent o1 = o1).
    { clear - Hall. induction o1 as [|m o IH]; auto. unfold non_urgent. cbn [filter]. fold (non_urgent o).
      assert (G := Hall m (or_introl eq_refl)). rewrite IH by (intros; apply Hall; right; auto).
      destruct (om_prio m); auto; contradiction. }
    split.
    + rewrite !non_urgent_app, (proj2 (urgents_non_urgent b)), Hno. cbn [app].
      rewrite <- app_assoc, C, app_assoc, Hc, <- app_assoc. reflexivity.
    + unfold urgents in *. rewrite !filter_app, D. f_equal.
      assert (Hu : filter is_immediate o1 = []) by (rewrite <- Hno; apply urgents_non_urgent).
      rewrite Hu, app_nil_r. apply urgents_idem.
Qed.
Lemma export_run_app close a b : forall os,
  export_run close os (a ++ b) =
  (fst (export_run close (fst (export_run close os a)) b),
   snd (export_run close os a) ++ snd (export_run close (fst (export_run close os a)) b)).
Proof.
  induction a as [|[now x] r IH]; intros os; cbn [app export_run fst snd].
  - destruct (export_run close os b); reflexivity.
  - destruct (export_pass close now os x) as [os1 out]. rewrite IH.
    destruct (export_run close os1 r) as [os2 outs]. cbn [fst snd]. reflexivity.
Qed.
(** every start of a window lies in the past *)
Lemma fusion_start close h T : forall f,
  (forall now b, In (now, b) h -> now <= T) -> (forall s, fu_start f = Some s -> s <= T) ->
  exists f', fst (export_run close [OFusion f] h) = [OFusion f'] /\ (forall s, fu_start f' = Some s -> s <= T).
Proof.
  induction h as [|[now b] r IH]; intros f Ht Hs; [exists f; auto|].
  cbn [export_run]. rewrite fusion_pass. set (f1 := fst (fusion_out now f (non_urgent b))).
  destruct (IH f1) as (f' & A & B).
  - intros; eapply Ht; right; eauto.
  - intros s. subst f1. unfold fusion_out. pose proof (Ht now b (or_introl eq_refl)).
    repeat case_match; cbn [fst fu_start]; intros E'; try (injection E' as <-); auto; try discriminate; apply Hs; congruence.
  - exists f'. destruct (export_run close [OFusion f1] r); auto.
Qed.
Lemma fusion_held close h m t : forall f, In m (fu_buffer f) -> (exists s, fu_start f = Some s /\ s <= t) ->
  In m (wired (snd (export_run close [OFusion f] h)))
  \/ exists f', fst (export_run close [OFusion f] h) = [OFusion f'] /\ In m (fu_buffer f')
                /\ exists s, fu_start f' = Some s /\ s <= t.
Proof.
  induction h as [|[now b] r IH]; intros f Hm Hs; [right; exists f; auto|].
  cbn [export_run]. rewrite fusion_pass. set (f1 := fst (fusion_out now f (non_urgent b))).
  destruct Hs as (s & Es & Hs).
  assert (G : In m (snd (fusion_out now f (non_urgent b))) \/ (In m (fu_buffer f1) /\ fu_start f1 = Some s)).
  { subst f1. unfold fusion_out. rewrite Es. destruct (non_urgent b); [auto|].
    destruct (fu_window f <=? now - s); cbn [fst snd fu_buffer fu_start]; rewrite in_app_iff; auto. }
  destruct (export_run close [OFusion f1] r) as [os2 outs] eqn:Er. cbn [fst snd].
  unfold wired. cbn [concat]. fold (wired outs).
  destruct G as [G|(G1 & G2)].
  - left. rewrite !in_app_iff. auto.
  - destruct (IH f1 G1) as [H|H]; [eauto|left|right]; rewrite Er in H; cbn [fst snd] in H; auto.
    rewrite in_app_iff; auto.
Qed.
Lemma om_eq_dec (a b : OutMessage) : {a = b} + {a <> b}.
Proof. repeat decide equality. Qed.
Lemma delta_interval ms : forall d, de_interval (fst (retain delta_one d ms)) = de_interval d.
Proof.
  induction ms as [|m r IH]; intros d; cbn [retain fst]; auto.
  pose proof (delta_one_interval d m) as H. destruct (delta_one d m) as [d1 o]. specialize (IH d1).
  destruct (retain delta_one d1 r). cbn [fst] in *. congruence.
Qed.
Lemma thinned_In {A} (out inp : list A) : thinned out inp -> forall m, In m out -> In m inp.
Proof. induction 1; cbn; intros x Hx; auto. destruct Hx; auto. Qed.
Lemma fusion_window close h : forall f, exists f', fst (export_run close [OFusion f] h) = [OFusion f'] /\ fu_window f' = fu_window f.
Proof.
  induction h as [|[now b] r IH]; intros f; [exists f; auto|].
  cbn [export_run]. rewrite fusion_pass. set (f1 := fst (fusion_out now f (non_urgent b))).
  destruct (IH f1) as (f' & A & B). exists f'. destruct (export_run close [OFusion f1] r). split; auto.
  rewrite B. subst f1. unfold fusion_out. repeat case_match; reflexivity.
Qed.
