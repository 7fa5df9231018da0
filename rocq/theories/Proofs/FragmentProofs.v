From Verif.Base Require Import Prelude Bytes AMap.
From Verif.Model Require Import Wire Fragment.
From Verif.Spec Require Import FragmentSpec.
Open Scope N_scope.

(** ** chunks *)
Lemma chunks_f_concat f n l : (0 < n)%nat -> (length l <= f)%nat -> concat (chunks_f f n l) = l.
Proof.
  revert l; induction f; intros l Hn Hf; cbn [chunks_f].
  - destruct l; simpl in *; auto; lia.
  - destruct l as [|x l]; auto. cbn [concat]. rewrite IHf; auto.
    + apply firstn_skipn.
    + rewrite skipn_length. cbn [length] in *. lia.
Qed.
Lemma chunks_concat n l : (0 < n)%nat -> concat (chunks n l) = l.
Proof. intros; apply chunks_f_concat; auto. Qed.

Lemma chunks_f_count f n l : (0 < n)%nat -> (length l <= f)%nat ->
  (length l <= n * length (chunks_f f n l) /\ n * length (chunks_f f n l) < length l + n)%nat.
Proof.
  revert l; induction f; intros l Hn Hf; cbn [chunks_f].
  - destruct l; simpl in *; lia.
  - destruct l as [|x l]; [simpl; lia|]. set (L := x :: l) in *.
    assert (HL : (0 < length L)%nat) by (subst L; simpl; lia).
    destruct (IHf (skipn n L) Hn) as [H1 H2]; [rewrite skipn_length; lia|].
    rewrite skipn_length in *. cbn [length]. rewrite Nat.mul_succ_r.
    set (k := length (chunks_f f n (skipn n L))) in *.
    assert (k = 0 \/ n <= n * k)%nat by (destruct k; [auto|right; nia]).
    destruct H as [->|H]; [rewrite Nat.mul_0_r in *|]; lia.
Qed.
Lemma chunks_count n l : (0 < n)%nat ->
  (length l <= n * length (chunks n l) /\ n * length (chunks n l) < length l + n)%nat.
Proof. intros; apply chunks_f_count; auto. Qed.

Lemma chunks_f_nth f n l i : (0 < n)%nat -> (length l <= f)%nat ->
  nth i (chunks_f f n l) [] = slice (n * i) n l.
Proof.
  revert l i; induction f; intros l i Hn Hf; cbn [chunks_f].
  - destruct l; simpl in *; [|lia]. unfold slice. rewrite skipn_nil, firstn_nil. destruct i; auto.
  - destruct l as [|x l].
    + unfold slice. rewrite skipn_nil, firstn_nil. destruct i; auto.
    + set (L := x :: l) in *. assert (HL : (0 < length L)%nat) by (subst L; simpl; lia). destruct i.
      * simpl nth. rewrite Nat.mul_0_r. reflexivity.
      * cbn [nth]. rewrite IHf; auto; [|rewrite skipn_length; lia].
        unfold slice. rewrite skipn_skipn. do 2 f_equal. lia.
Qed.
Lemma chunks_nth n l i : (0 < n)%nat -> nth i (chunks n l) [] = slice (n * i) n l.
Proof. intros; apply chunks_f_nth; auto. Qed.

(** ** build_fragments *)
Lemma build_fragments_length m id c i cs : length (build_fragments m id c i cs) = length cs.
Proof. revert i; induction cs; simpl; auto. Qed.
Lemma build_fragments_In m id c i cs f :
  In f (build_fragments m id c i cs) ->
  exists j, (j < length cs)%nat /\
    f = mkFrag (meta_of m) id ((i + N.of_nat j) mod 2 ^ 16) c
          (N.of_nat (length (om_payload m)) mod 2 ^ 32) (nth j cs []).
Proof.
  revert i; induction cs as [|x cs IH]; intros i; cbn [build_fragments In]; [tauto|].
  intros [<-|H].
  - exists 0%nat. split; [simpl; lia|]. cbn [nth N.of_nat]. rewrite N.add_0_r. reflexivity.
  - apply IH in H. destruct H as (j & Hj & ->). exists (S j). split; [simpl; lia|].
    replace (i + N.of_nat (S j)) with (i + 1 + N.of_nat j) by lia. reflexivity.
Qed.
Lemma build_fragments_nth m id c i cs j d :
  (j < length cs)%nat ->
  nth j (build_fragments m id c i cs) d =
   mkFrag (meta_of m) id ((i + N.of_nat j) mod 2 ^ 16) c
          (N.of_nat (length (om_payload m)) mod 2 ^ 32) (nth j cs []).
Proof.
  revert i j; induction cs as [|x cs IH]; intros i j Hj; cbn [length] in Hj; [lia|].
  destruct j; cbn [build_fragments nth].
  - cbn [N.of_nat]. rewrite N.add_0_r. reflexivity.
  - rewrite IH by lia. replace (i + N.of_nat (S j)) with (i + 1 + N.of_nat j) by lia. reflexivity.
Qed.

(** ** weighted sums over seen indices *)
Definition wsum (w : nat -> N) (P : nat -> bool) (s n : nat) : N :=
  fold_right (fun i acc => (if P i then w i else 0) + acc) 0 (seq s n).

Lemma wsum_ext w w' P Q s n :
  (forall i, (s <= i < s + n)%nat -> P i = Q i /\ w i = w' i) -> wsum w P s n = wsum w' Q s n.
Proof.
  unfold wsum. revert s; induction n; intros s H; cbn [seq fold_right]; auto.
  destruct (H s) as [-> ->]; [lia|]. rewrite IHn; auto. intros; apply H; lia.
Qed.
Lemma wsum_none w s n : wsum w (fun _ => false) s n = 0.
Proof. unfold wsum. revert s; induction n; intros; cbn [seq fold_right]; auto. rewrite IHn. reflexivity. Qed.
Lemma wsum_le w P s n : wsum w P s n <= wsum w (fun _ => true) s n.
Proof. unfold wsum. revert s; induction n; intros; cbn [seq fold_right]; [lia|]. specialize (IHn (S s)). destruct (P s); lia. Qed.
Lemma wsum_add w P s n k :
  (s <= k < s + n)%nat -> P k = false ->
  wsum w (fun i => (i =? k)%nat || P i) s n = wsum w P s n + w k.
Proof.
  unfold wsum. revert s; induction n; intros s Hk HP; cbn [seq fold_right]; [lia|].
  destruct (Nat.eq_dec s k) as [->|Hn].
  - rewrite Nat.eqb_refl, HP. cbn [orb].
    assert (E : fold_right (fun i acc => (if (i =? k)%nat || P i then w i else 0) + acc) 0 (seq (S k) n)
              = fold_right (fun i acc => (if P i then w i else 0) + acc) 0 (seq (S k) n)).
    { apply (wsum_ext w w). intros i Hi. split; auto. replace (i =? k)%nat with false; auto.
      symmetry; apply Nat.eqb_neq; lia. }
    rewrite E. lia.
  - rewrite IHn by (auto; lia). replace (s =? k)%nat with false by (symmetry; apply Nat.eqb_neq; lia).
    cbn [orb]. lia.
Qed.
Lemma wsum_count_all P s n :
  wsum (fun _ => 1) P s n = N.of_nat n <-> forallb P (seq s n) = true.
Proof.
  assert (Hle : forall s n, wsum (fun _ => 1) P s n <= N.of_nat n).
  { unfold wsum. clear; intros s n; revert s; induction n; intros; cbn [seq fold_right]; [lia|]. specialize (IHn (S s)). destruct (P s); lia. }
  unfold wsum in *. revert s; induction n; intros; cbn [seq fold_right forallb]; [split; auto|].
  specialize (IHn (S s)). specialize (Hle (S s) n). rewrite andb_true_iff, <- IHn. destruct (P s); split.
  - intros; split; auto. lia.
  - intros [_ H]; lia.
  - intros; lia.
  - intros [H _]; discriminate.
Qed.

(** ** slots *)
Lemma set_nth_length {A} i (x : A) l : length (set_nth i x l) = length l.
Proof. revert i; induction l; destruct i; simpl; auto. Qed.
Lemma set_nth_nth {A} i (x : A) l d j :
  nth j (set_nth i x l) d = if ((j =? i)%nat && (i <? length l)%nat)%bool then x else nth j l d.
Proof.
  revert i j; induction l; intros i j.
  - simpl. destruct i; rewrite ?andb_false_r; auto. 
  - destruct i, j; simpl; auto. rewrite IHl. reflexivity.
Qed.

Definition slots (cs : list bytes) (P : nat -> bool) (s n : nat) : list (option bytes) :=
  map (fun i => if P i then Some (nth i cs []) else None) (seq s n).

Lemma slots_length cs P s n : length (slots cs P s n) = n.
Proof. unfold slots; rewrite map_length, seq_length; auto. Qed.
Lemma slots_nth cs P s n i : (i < n)%nat ->
  nth i (slots cs P s n) None = if P (s + i)%nat then Some (nth (s + i) cs []) else None.
Proof.
  intros. unfold slots.
  rewrite (nth_indep _ None ((fun i => if P i then Some (nth i cs []) else None) 0%nat)) by (rewrite map_length, seq_length; auto).
  rewrite (map_nth (fun i => if P i then Some (nth i cs []) else None)). rewrite seq_nth by auto. reflexivity.
Qed.
Lemma set_nth_slots cs P n k : (k < n)%nat ->
  set_nth k (Some (nth k cs [])) (slots cs P 0 n) = slots cs (fun i => (i =? k)%nat || P i) 0 n.
Proof.
  intros. apply (nth_ext _ _ None None).
  - rewrite set_nth_length, !slots_length; auto.
  - intros j Hj. rewrite set_nth_length, slots_length in Hj. rewrite set_nth_nth, !slots_nth by auto.
    rewrite slots_length. rewrite (proj2 (Nat.ltb_lt k n)) by auto. rewrite andb_true_r. cbn [Nat.add].
    destruct (Nat.eqb_spec j k); subst; simpl; auto.
Qed.
Lemma slots_empty cs n : slots cs (fun _ => false) 0 n = repeat None n.
Proof. unfold slots. generalize 0%nat; induction n; intros; simpl; f_equal; auto. Qed.
Lemma slots_full cs P s n :
  forallb P (seq s n) = true -> (s + n)%nat = length cs -> flatten_frags (slots cs P s n) = concat (skipn s cs).
Proof.
  unfold slots, flatten_frags. revert s; induction n; intros s HP Hn.
  - simpl. rewrite skipn_all2 by lia. reflexivity.
  - cbn [seq map flat_map forallb] in *. apply andb_prop in HP; destruct HP as [Hs HP].
    rewrite Hs, IHn by (auto; lia).
    destruct (skipn s cs) as [|c r] eqn:E.
    { apply (f_equal (@length _)) in E. rewrite skipn_length in E. simpl in E. lia. }
    assert (Hc : nth s cs [] = c).
    { rewrite <- (firstn_skipn s cs) at 1. rewrite E.
      rewrite app_nth2; rewrite firstn_length_le by lia; [rewrite Nat.sub_diag; auto|lia]. }
    assert (Hr : skipn (S s) cs = r).
    { replace (S s) with (1 + s)%nat by lia. rewrite <- skipn_skipn. rewrite E. reflexivity. }
    rewrite Hc, Hr. reflexivity.
Qed.

Lemma sum_lengths_concat (cs : list bytes) :
  wsum (fun i => N.of_nat (length (nth i cs []))) (fun _ => true) 0 (length cs) = N.of_nat (length (concat cs)).
Proof.
  assert (H : forall pre, wsum (fun i => N.of_nat (length (nth i (pre ++ cs) []))) (fun _ => true) (length pre) (length cs)
              = N.of_nat (length (concat cs))).
  { unfold wsum. induction cs as [|c cs IH]; intros pre; cbn [length seq fold_right concat]; auto.
    rewrite app_nth2, Nat.sub_diag by lia. cbn [nth]. rewrite app_length.
    specialize (IH (pre ++ [c])). rewrite app_length in IH. simpl in IH.
    replace (length pre + 1)%nat with (S (length pre)) in IH by lia.
    rewrite <- app_assoc in IH. simpl in IH. rewrite IH. lia. }
  apply (H []).
Qed.

(** ** feed leaves other keys alone *)
Lemma pair_eqb_refl k : pair_eqb k k = true.
Proof. apply pair_eqb_spec; auto. Qed.

Lemma arrives_key key t f : arrives key (RFeed t f) = true <-> frag_key f = key /\ 1 < fr_count f.
Proof.
  unfold arrives, frag_key. destruct key as [a b]; simpl. rewrite !andb_true_iff, !N.eqb_eq, N.ltb_lt.
  split; [intros [[-> ->] ?]; auto | intros [H ?]; inv H; auto].
Qed.

Lemma feed_other key t st f :
  arrives key (RFeed t f) = false -> lookup pair_eqb key (fst (feed t st f)) = lookup pair_eqb key st.
Proof.
  intros Ha. unfold feed.
  destruct (MAX_REASSEMBLY_SIZE <? fr_total f); auto.
  destruct ((fr_count f =? 0) || (MAX_FRAGMENTS_PER_MESSAGE <? fr_count f)) eqn:Ec; auto.
  destruct (fr_count f =? 1) eqn:E1; auto.
  assert (Hk : key <> frag_key f).
  { intros ->. assert (arrives (frag_key f) (RFeed t f) = true); [|congruence].
    apply arrives_key; split; auto. bool_prop. lia. }
  repeat case_match; cbn [fst]; auto;
    rewrite ?(lookup_insert_neq pair_eqb pair_eqb_spec), ?(lookup_remove_neq pair_eqb pair_eqb_spec) by auto; auto.
Qed.

Lemma lookup_gc now st key :
  match lookup pair_eqb key st with
  | Some p => now - pe_first_seen p < FRAGMENT_TIMEOUT
  | None => True end ->
  lookup pair_eqb key (gc_stale now st) = lookup pair_eqb key st.
Proof.
  unfold gc_stale. induction st as [|[k p] st IH]; cbn [lookup filter]; auto.
  destruct (pair_eqb key k) eqn:E; cbn [snd].
  - intros H. apply N.ltb_lt in H. rewrite H. cbn [lookup]. rewrite E. reflexivity.
  - intros H. destruct (_ <? _); cbn [lookup]; rewrite ?E; auto.
Qed.

(** ** C17 *)
Section Reassembly.
  Variables (m : OutMessage) (id t0 : N).
  Let len := N.of_nat (length (om_payload m)).
  Hypothesis Hlo : 1400 < len.
  Hypothesis Hhi : len <= 1048576.
  Let cs := chunks MAX_FRAGMENT_PAYLOAD (om_payload m).
  Let n := length cs.
  Let key := (om_topic m, id).

  Lemma n_bounds : (2 <= n <= 749)%nat.
  Proof.
    unfold n, cs, len in *. destruct (chunks_count MAX_FRAGMENT_PAYLOAD (om_payload m)) as [H1 H2].
    { unfold MAX_FRAGMENT_PAYLOAD; lia. }
    unfold MAX_FRAGMENT_PAYLOAD in *. lia.
  Qed.

  Lemma fragment_eq : fragment id m = ((id + 1) mod 2 ^ 32, build_fragments m id (N.of_nat n) 0 cs).
  Proof.
    unfold fragment. fold len.
    replace (len <=? N.of_nat MAX_FRAGMENT_PAYLOAD) with false
      by (symmetry; apply N.leb_gt; unfold MAX_FRAGMENT_PAYLOAD; lia).
    replace (MAX_REASSEMBLY_SIZE <? len) with false
      by (symmetry; apply N.ltb_ge; unfold MAX_REASSEMBLY_SIZE; lia).
    fold cs. fold n. rewrite (N.mod_small (N.of_nat n)); auto. pose proof n_bounds. change (2 ^ 16) with 65536. lia.
  Qed.

  Definition seenb (seen : list nat) (i : nat) : bool := existsb (Nat.eqb i) seen.

  Definition matches (p : Pending) (seen : list nat) : Prop :=
    pe_frags p = slots cs (seenb seen) 0 n
    /\ pe_rcount p = wsum (fun _ => 1) (seenb seen) 0 n
    /\ pe_rbytes p = wsum (fun i => N.of_nat (length (nth i cs []))) (seenb seen) 0 n
    /\ pe_expected p = N.of_nat n /\ pe_total p = len /\ pe_meta p = meta_of m
    /\ t0 <= pe_first_seen p.

  Definition Inv (seen : list nat) (st : Reassembler) : Prop :=
    match seen with
    | [] => lookup pair_eqb key st = None
    | _ => exists p, lookup pair_eqb key st = Some p /\ matches p seen
    end /\ all_seen n seen = false.

  Lemma feed_key st seen t f i :
    Inv seen st -> t0 <= t ->
    (length st < 256)%nat \/ (exists p, lookup pair_eqb key st = Some p) ->
    (i < n)%nat ->
    f = mkFrag (meta_of m) id (N.of_nat i) (N.of_nat n) len (nth i cs []) ->
    exists st', feed t st f =
      (st', if all_seen n (i :: seen) then Some (mkRe (meta_of m) (om_payload m)) else None)
      /\ Inv (if all_seen n (i :: seen) then [] else i :: seen) st'.
  Proof.
    intros [HI Hns] Ht Hcap Hi Hf. pose proof n_bounds as Hn. subst f. unfold feed.
    cbn [fr_total fr_count fr_index fr_payload fr_meta fr_id frag_key].
    rewrite (proj2 (N.ltb_ge MAX_REASSEMBLY_SIZE len)) by (unfold MAX_REASSEMBLY_SIZE; lia).
    rewrite (proj2 (N.eqb_neq (N.of_nat n) 0)) by lia.
    rewrite (proj2 (N.ltb_ge MAX_FRAGMENTS_PER_MESSAGE (N.of_nat n))) by
      (change MAX_FRAGMENTS_PER_MESSAGE with 749; lia).
    rewrite (proj2 (N.eqb_neq (N.of_nat n) 1)) by lia. cbn [orb].
    unfold frag_key; cbn [fr_meta fr_id meta_of me_topic]. fold key. rewrite Nat2N.id.
    set (p0 := match lookup pair_eqb key st with Some p => p | None => _ end).
    assert (Hp0 : matches p0 seen).
    { unfold p0. destruct seen as [|s0 seen0].
      - rewrite HI. unfold new_pending, matches; cbn [fr_count fr_total fr_meta pe_frags pe_rcount pe_rbytes pe_expected pe_total pe_first_seen pe_meta].
        rewrite Nat2N.id. repeat split; auto.
        + rewrite <- (slots_empty cs). reflexivity.
        + symmetry; apply wsum_none.
        + symmetry; apply wsum_none.
      - destruct HI as (p & -> & Hm). auto. }
    assert (Hc2 : (negb (mem pair_eqb key st) && (MAX_PENDING_MESSAGES <=? length st)%nat)%bool = false).
    { unfold mem. destruct (lookup pair_eqb key st) eqn:E; auto. cbn [negb andb]. apply Nat.leb_gt.
      unfold MAX_PENDING_MESSAGES. destruct Hcap as [|[? ?]]; [auto|discriminate]. }
    rewrite Hc2. clearbody p0. destruct Hp0 as (Hfr & Hrc & Hrb & Hex & Hto & Hme & Hfs).
    rewrite Hfr, slots_length. rewrite (proj2 (Nat.leb_gt n i)) by auto.
    rewrite slots_nth by auto. cbn [Nat.add].
    assert (Hseen' : forall j, seenb (i :: seen) j = ((j =? i)%nat || seenb seen j)%bool) by reflexivity.
    destruct (seenb seen i) eqn:Es.
    - (* duplicate *)
      assert (Hsame : forall j, seenb (i :: seen) j = seenb seen j).
      { intros j. rewrite Hseen'. destruct (Nat.eqb_spec j i); subst; simpl; auto. }
      assert (Hall : all_seen n (i :: seen) = false).
      { rewrite <- Hns. unfold all_seen. clear -Hsame. induction (seq 0 n); cbn [forallb]; auto.
        rewrite IHl. f_equal. apply Hsame. }
      rewrite Hall.
      assert (Hne : pe_rcount p0 =? pe_expected p0 = false).
      { apply N.eqb_neq. rewrite Hrc, Hex. intros E. apply wsum_count_all in E.
        unfold all_seen in Hns. unfold seenb in E. rewrite E in Hns; discriminate. }
      rewrite Hne. eexists; split; [reflexivity|]. split; auto.
      exists p0. split; [apply (lookup_insert_eq pair_eqb pair_eqb_spec)|].
      unfold matches. rewrite Hfr, Hrc, Hrb. repeat split; auto.
      + unfold slots. apply map_ext. intros j. rewrite Hsame. reflexivity.
      + apply wsum_ext. intros; rewrite Hsame; auto.
      + apply wsum_ext. intros; rewrite Hsame; auto.
    - (* new fragment *)
      assert (Hnb : pe_rbytes p0 + N.of_nat (length (nth i cs []))
                  = wsum (fun i => N.of_nat (length (nth i cs []))) (seenb (i :: seen)) 0 n).
      { rewrite Hrb. pose proof (wsum_add (fun i => N.of_nat (length (nth i cs []))) (seenb seen) 0 n i) as W. cbv beta in W. rewrite <- W by (auto; lia). apply wsum_ext; intros; auto. }
      assert (Hle : pe_rbytes p0 + N.of_nat (length (nth i cs [])) <= len).
      { rewrite Hnb. etransitivity; [apply wsum_le|]. unfold n. rewrite sum_lengths_concat.
        unfold cs. rewrite chunks_concat by (unfold MAX_FRAGMENT_PAYLOAD; lia). unfold len; lia. }
      rewrite Hto. rewrite (proj2 (N.ltb_ge len _)) by exact Hle.
      cbn [pe_rcount pe_expected pe_meta pe_frags].
      assert (Hcnt : pe_rcount p0 + 1 = wsum (fun _ => 1) (seenb (i :: seen)) 0 n).
      { rewrite Hrc. pose proof (wsum_add (fun _ => 1) (seenb seen) 0 n i) as W. cbv beta in W. rewrite <- W by (auto; lia). apply wsum_ext; intros; auto. }
      rewrite Hcnt, Hex, set_nth_slots by auto.
      destruct (all_seen n (i :: seen)) eqn:Ea.
      + rewrite (proj2 (N.eqb_eq _ _)) by (apply wsum_count_all; exact Ea).
        rewrite slots_full; [|exact Ea|reflexivity]. cbn [skipn].
        unfold cs at 1. rewrite chunks_concat by (unfold MAX_FRAGMENT_PAYLOAD; lia). rewrite Hme.
        eexists; split; [reflexivity|]. split.
        * apply lookup_remove_eq.
        * unfold all_seen. destruct n; [lia|]. reflexivity.
      + rewrite (proj2 (N.eqb_neq _ _)).
        2:{ intros E. apply wsum_count_all in E. unfold all_seen in Ea. unfold seenb in E. rewrite E in Ea; discriminate. }
        eexists; split; [reflexivity|]. split; auto.
        eexists; split; [apply (lookup_insert_eq pair_eqb pair_eqb_spec)|].
        unfold matches; cbn [pe_frags pe_rcount pe_rbytes pe_expected pe_total pe_first_seen pe_meta].
        repeat split; auto.
  Qed.

  Lemma reassembly_run l : forall seen st,
    Inv seen st ->
    (forall o, In o l -> arrives key o = true -> exists t f, o = RFeed t f /\ In f (snd (fragment id m))) ->
    (forall o, In o l -> t0 <= event_time o < t0 + 100) ->
    (forall l1 o l2, l = l1 ++ o :: l2 -> arrives key o = true ->
       (length (fst (rrun st l1)) < 256)%nat \/ (exists p, lookup pair_eqb key (fst (rrun st l1)) = Some p)) ->
    map snd (filter (fun p => arrives key (fst p)) (snd (rrun st l))) =
    map (fun b : bool => if b then Some (mkRe (meta_of m) (om_payload m)) else None)
        (deliveries n seen (map arrival_index (filter (arrives key) l))).
  Proof.
    induction l as [|o l IH]; intros seen st HI Hsrc Htime Hcap; [reflexivity|].
    cbn [rrun filter].
    destruct (rstep st o) as [st1 out] eqn:Es. destruct (rrun st1 l) as [st2 outs] eqn:Er.
    cbn [snd fst filter].
    assert (Hrun : outs = snd (rrun st1 l)) by (rewrite Er; auto).
    assert (Hsrc' : forall o, In o l -> arrives key o = true -> exists t f, o = RFeed t f /\ In f (snd (fragment id m)))
      by (intros; apply Hsrc; simpl; auto).
    assert (Htime' : forall o, In o l -> t0 <= event_time o < t0 + 100) by (intros; apply Htime; simpl; auto).
    assert (Hcap' : forall l1 o l2, l = l1 ++ o :: l2 -> arrives key o = true ->
       (length (fst (rrun st1 l1)) < 256)%nat \/ (exists p, lookup pair_eqb key (fst (rrun st1 l1)) = Some p)).
    { intros l1 o' l2 Hl Ha. specialize (Hcap (o :: l1) o' l2).
      cbn [rrun] in Hcap. rewrite Es in Hcap. destruct (rrun st1 l1) as [st3 outs3]. cbn [fst] in *.
      apply Hcap; auto. rewrite Hl; reflexivity. }
    destruct (arrives key o) eqn:Ha.
    - destruct (Hsrc o (or_introl eq_refl) Ha) as (t & f & -> & Hin).
      rewrite fragment_eq in Hin. cbn [snd] in Hin. apply build_fragments_In in Hin.
      destruct Hin as (i & Hi & Hf). fold n in Hi.
      rewrite N.add_0_l, N.mod_small in Hf by (pose proof n_bounds; change (2 ^ 16) with 65536; lia).
      rewrite (N.mod_small (N.of_nat (length (om_payload m)))) in Hf
        by (fold len; change (2 ^ 32) with 4294967296; lia).
      fold len in Hf.
      destruct (feed_key st seen t f i HI) as (st' & Hfeed & HI'); auto.
      { apply (Htime (RFeed t f)). simpl; auto. }
      { apply (Hcap [] (RFeed t f) l); auto. }
      cbn [rstep] in Es. rewrite Es in Hfeed. inversion Hfeed; subst st1 out. clear Hfeed.
      cbn [map deliveries arrival_index snd].
      replace (N.to_nat (fr_index f)) with i by (rewrite Hf; cbn [fr_index]; lia).
      destruct (all_seen n (i :: seen)); cbn [map]; f_equal; rewrite Hrun; apply IH; auto.
    - assert (HI' : Inv seen st1).
      { assert (Hl : lookup pair_eqb key st1 = lookup pair_eqb key st).
        { destruct o as [t f|t]; cbn [rstep] in Es.
          - replace st1 with (fst (feed t st f)) by (rewrite Es; auto). apply feed_other; auto.
          - inversion Es; subst. apply lookup_gc.
            destruct HI as [HI _]. destruct seen; [rewrite HI; auto|].
            destruct HI as (p & -> & Hm). destruct Hm as (_ & _ & _ & _ & _ & _ & Hfs).
            destruct (Htime (RGc t) (or_introl eq_refl)). cbn [event_time] in *. unfold FRAGMENT_TIMEOUT. lia. }
        unfold Inv in *. rewrite Hl. auto. }
      rewrite Hrun. apply IH; auto.
  Qed.
End Reassembly.

Lemma C17_main m id t0 st l :
  let key := (om_topic m, id) in
  let n := length (snd (fragment id m)) in
  1400 < N.of_nat (length (om_payload m)) <= 1048576 ->
  lookup pair_eqb key st = None ->
  (forall o, In o l -> arrives key o = true -> exists t f, o = RFeed t f /\ In f (snd (fragment id m))) ->
  (forall o, In o l -> t0 <= event_time o < t0 + 100) ->
  (forall l1 o l2, l = l1 ++ o :: l2 -> arrives key o = true ->
     (length (fst (rrun st l1)) < 256)%nat \/ (exists p, lookup pair_eqb key (fst (rrun st l1)) = Some p)) ->
  map snd (filter (fun p => arrives key (fst p)) (snd (rrun st l))) =
  map (fun b : bool => if b then Some (mkRe (meta_of m) (om_payload m)) else None)
      (deliveries n [] (map arrival_index (filter (arrives key) l))).
Proof.
  intros key n [Hlo Hhi] Hst Hsrc Htime Hcap. unfold n. rewrite fragment_eq by auto. cbn [snd].
  rewrite build_fragments_length.
  eapply (reassembly_run m id t0); eauto. split; auto.
  unfold all_seen. pose proof (n_bounds m Hlo Hhi). destruct (length (chunks MAX_FRAGMENT_PAYLOAD (om_payload m))); [lia|]. reflexivity.
Qed.

(** deliveries: nothing before the set is complete, and the message at the arrival that completes it. *)
Lemma deliveries_incomplete n seen l :
  all_seen n (rev l ++ seen) = false -> Forall (fun b => b = false) (deliveries n seen l).
Proof.
  revert seen; induction l as [|i l IH]; intros seen H; cbn [deliveries]; [constructor|].
  cbn [rev] in H. rewrite <- app_assoc in H. simpl in H.
  destruct (all_seen n (i :: seen)) eqn:E.
  - exfalso. assert (all_seen n (rev l ++ i :: seen) = true); [|congruence].
    unfold all_seen in *. rewrite forallb_forall in *. intros x Hx. specialize (E x Hx).
    rewrite existsb_exists in *. destruct E as (y & Hy & He). exists y; split; auto. apply in_or_app; auto.
  - constructor; auto.
Qed.
Lemma deliveries_complete n l i :
  all_seen n l = false -> all_seen n (i :: l) = true ->
  deliveries n [] (l ++ [i]) = repeat false (length l) ++ [true].
Proof.
  intros H1 H2.
  assert (G : forall l2 seen, all_seen n (l2 ++ seen) = false -> all_seen n (i :: l2 ++ seen) = true ->
     deliveries n seen (l2 ++ [i]) = repeat false (length l2) ++ [true]).
  { assert (Pext : forall a b, (forall x, In x a <-> In x b) -> all_seen n a = all_seen n b).
    { intros a b Hab. unfold all_seen. induction (seq 0 n); cbn [forallb]; auto. rewrite IHl0. f_equal.
      apply Bool.eq_iff_eq_true. rewrite !existsb_exists. split; intros (y & Hy & He); exists y; split; auto; apply Hab; auto. }
    induction l2 as [|j l2 IH]; intros seen Ha Hb; cbn [app deliveries length repeat] in *.
    - rewrite Hb. reflexivity.
    - destruct (all_seen n (j :: seen)) eqn:E.
      + exfalso. assert (all_seen n (j :: l2 ++ seen) = true); [|congruence].
        unfold all_seen in *. rewrite forallb_forall in *. intros x Hx. specialize (E x Hx).
        rewrite existsb_exists in *. destruct E as (y & Hy & He). exists y; split; auto.
        simpl in *. rewrite in_app_iff. tauto.
      + f_equal. apply IH.
        * rewrite <- Ha. apply Pext. intros x. simpl. rewrite !in_app_iff. simpl. tauto.
        * rewrite <- Hb. apply Pext. intros x. simpl. rewrite !in_app_iff. simpl. tauto. }
  specialize (G l []). rewrite app_nil_r in G. auto.
Qed.

Lemma fragment_shape m id :
  1400 < N.of_nat (length (om_payload m)) <= 1048576 ->
  let frs := snd (fragment id m) in
  (length (om_payload m) <= 1400 * length frs /\ 1400 * length frs < length (om_payload m) + 1400)%nat /\
  (forall i d, (i < length frs)%nat ->
     nth i frs d = mkFrag (meta_of m) id (N.of_nat i) (N.of_nat (length frs))
                     (N.of_nat (length (om_payload m))) (slice (1400 * i) 1400 (om_payload m)))
  /\ concat (map fr_payload frs) = om_payload m.
Proof.
  intros [Hlo Hhi]. pose proof (n_bounds m Hlo Hhi) as Hn. cbv zeta. rewrite fragment_eq by auto. cbn [snd].
  rewrite build_fragments_length. split.
  { apply chunks_count. unfold MAX_FRAGMENT_PAYLOAD; lia. }
  split.
  - intros i d Hi. rewrite build_fragments_nth by auto.
    rewrite chunks_nth by (unfold MAX_FRAGMENT_PAYLOAD; lia). fold MAX_FRAGMENT_PAYLOAD.
    rewrite N.add_0_l. rewrite !N.mod_small; auto.
    + change (2 ^ 32) with 4294967296; lia.
    + change (2 ^ 16) with 65536; lia.
  - assert (G : forall cs c i, map fr_payload (build_fragments m id c i cs) = cs).
    { induction cs; intros; simpl; f_equal; auto. }
    rewrite G. apply chunks_concat. unfold MAX_FRAGMENT_PAYLOAD; lia.
Qed.

(** ** C18 *)
Definition pending_ok (p : Pending) : Prop :=
  (length (pe_frags p) <= 749)%nat /\ held p = pe_rbytes p /\ held p <= pe_total p /\ pe_total p <= 1048576.
Definition rinv (st : Reassembler) : Prop :=
  (length st <= 256)%nat /\ NoDup (keys st) /\ Forall (fun e => pending_ok (snd e)) st.

Lemma held_set_nth (l : list (option bytes)) i (d : bytes) :
  (i < length l)%nat -> nth i l None = None ->
  fold_right (fun o acc => match o with Some d => N.of_nat (length d) | None => 0 end + acc) 0 (set_nth i (Some d) l)
  = fold_right (fun o acc => match o with Some d => N.of_nat (length d) | None => 0 end + acc) 0 l + N.of_nat (length d).
Proof.
  revert i; induction l as [|x l IH]; intros i Hi Hn; cbn [length] in Hi; [lia|].
  destruct i; cbn [set_nth fold_right nth] in *.
  - subst x. lia.
  - rewrite IH by (auto; lia). lia.
Qed.

Lemma Forall_remove {K V} eqb (P : K * V -> Prop) k (m : list (K * V)) :
  Forall P m -> Forall P (remove eqb k m).
Proof. intros H. rewrite Forall_forall in *. intros x Hx. apply H. unfold remove in Hx. apply filter_In in Hx; tauto. Qed.
Lemma Forall_insert {K V} eqb (P : K * V -> Prop) k v (m : list (K * V)) :
  Forall P m -> P (k, v) -> Forall P (insert eqb k v m).
Proof. intros. constructor; auto. apply Forall_remove; auto. Qed.

Lemma feed_rinv t st f : rinv st -> rinv (fst (feed t st f)).
Proof.
  intros (Hlen & Hnd & Hall). unfold feed.
  destruct (MAX_REASSEMBLY_SIZE <? fr_total f) eqn:Et; [repeat split; auto|].
  destruct ((fr_count f =? 0) || (MAX_FRAGMENTS_PER_MESSAGE <? fr_count f)) eqn:Ec; [repeat split; auto|].
  destruct (fr_count f =? 1); [repeat split; auto|].
  destruct (negb (mem pair_eqb (frag_key f) st) && (MAX_PENDING_MESSAGES <=? length st)%nat)%bool eqn:Ecap; [repeat split; auto|].
  apply orb_false_elim in Ec. destruct Ec as [Ec0 Ec]. apply N.ltb_ge in Ec, Et.
  change MAX_FRAGMENTS_PER_MESSAGE with 749 in Ec. unfold MAX_REASSEMBLY_SIZE in Et.
  set (p := match lookup pair_eqb (frag_key f) st with Some p => p | None => _ end).
  assert (Hp : pending_ok p).
  { unfold p. destruct (lookup pair_eqb (frag_key f) st) eqn:El.
    - apply (lookup_In pair_eqb pair_eqb_spec) in El. rewrite Forall_forall in Hall. apply (Hall _ El).
    - unfold new_pending, pending_ok, held; cbn [pe_frags pe_rbytes pe_total].
      rewrite repeat_length.
      assert (Hz : forall k, fold_right (fun (o : option bytes) acc => match o with Some d => N.of_nat (length d) | None => 0 end + acc) 0 (repeat None k) = 0).
      { induction k; cbn [repeat fold_right]; auto. }
      rewrite Hz. lia. }
  assert (Hlr : forall k, (length (remove pair_eqb k st) <= 256)%nat).
  { intros k. pose proof (remove_length pair_eqb k st). lia. }
  assert (Hli : forall v, (length (insert pair_eqb (frag_key f) v st) <= 256)%nat).
  { intros v. unfold mem in Ecap. destruct (lookup pair_eqb (frag_key f) st) eqn:El.
    - rewrite (insert_length_present pair_eqb pair_eqb_spec _ _ p0); auto.
    - rewrite (insert_length_absent pair_eqb); auto. cbn [negb andb] in Ecap. apply Nat.leb_gt in Ecap. unfold MAX_PENDING_MESSAGES in Ecap. lia. }
  clearbody p.
  assert (Hins : forall v, pending_ok v -> rinv (insert pair_eqb (frag_key f) v st)).
  { intros v Hv. repeat split; auto.
    - apply (NoDup_insert_keys pair_eqb pair_eqb_spec); auto.
    - apply Forall_insert; auto. }
  assert (Hrem : rinv (remove pair_eqb (frag_key f) st)).
  { repeat split; auto.
    - apply (NoDup_remove_keys pair_eqb); auto.
    - apply Forall_remove; auto. }
  destruct (length (pe_frags p) <=? N.to_nat (fr_index f))%nat eqn:Ei; cbn [fst]; auto.
  apply Nat.leb_gt in Ei.
  destruct (nth _ (pe_frags p) None) eqn:En.
  - destruct (pe_rcount p =? pe_expected p); cbn [fst]; auto.
  - destruct (pe_total p <? _) eqn:Eo; cbn [fst]; auto.
    cbn [pe_rcount pe_expected]. destruct (pe_rcount p + 1 =? pe_expected p); cbn [fst]; auto.
    apply Hins. destruct Hp as (Hp1 & Hp2 & Hp3 & Hp4). unfold pending_ok, held in *.
    cbn [pe_frags pe_rbytes pe_total]. rewrite set_nth_length, held_set_nth by auto.
    apply N.ltb_ge in Eo. repeat split; auto; lia.
Qed.

Lemma gc_rinv t st : rinv st -> rinv (gc_stale t st).
Proof.
  intros (Hlen & Hnd & Hall). unfold gc_stale. repeat split.
  - etransitivity; [|exact Hlen]. clear. induction st; simpl; auto. destruct (_ <? _); simpl; lia.
  - clear -Hnd. unfold keys in *. induction st as [|[k v] st IH]; cbn [map filter] in *; auto. inv Hnd.
    destruct (_ <? _); cbn [map]; auto. constructor; auto.
    intros Hin. apply H1. apply in_map_iff in Hin. destruct Hin as (x & Hfx & Hx). apply filter_In in Hx. simpl in Hfx. simpl. rewrite <- Hfx. apply in_map; tauto.
  - rewrite Forall_forall in *. intros x Hx. apply filter_In in Hx. apply Hall; tauto.
Qed.

Lemma rrun_rinv l st : rinv st -> rinv (fst (rrun st l)).
Proof.
  revert st; induction l as [|o l IH]; intros st H; cbn [rrun]; auto.
  destruct (rstep st o) as [st1 out] eqn:E. specialize (IH st1).
  destruct (rrun st1 l). cbn [fst] in *. apply IH.
  destruct o; cbn [rstep] in E; [|inv E; apply gc_rinv; auto].
  replace st1 with (fst (feed now st f)) by (rewrite E; auto). apply feed_rinv; auto.
Qed.

Lemma C18_main l :
  let st := fst (rrun reassembler_new l) in
  (length st <= 256)%nat /\ NoDup (map fst st) /\
  Forall (fun e => (length (pe_frags (snd e)) <= 749)%nat
                   /\ held (snd e) <= pe_total (snd e) /\ pe_total (snd e) <= 1048576) st
  /\ fold_right (fun e acc => held (snd e) + acc) 0 st <= 256 * 1048576.
Proof.
  intros st. assert (H : rinv st). { apply rrun_rinv. repeat split; simpl; try constructor. lia. }
  destruct H as (H1 & H2 & H3). split; [|split; [|split]]; auto.
  - eapply Forall_impl; [|exact H3]. unfold pending_ok. intros a; tauto.
  - assert (Hs : fold_right (fun e acc => held (snd e) + acc) 0 st <= N.of_nat (length st) * 1048576); [|lia].
    clear -H3. induction H3; cbn [fold_right length]; [lia|]. destruct H as (_ & _ & Ha & Hb). lia.
Qed.

Lemma gc_fresh now st : Forall (fun e => now - pe_first_seen (snd e) < 100) (gc_stale now st).
Proof. apply Forall_forall. intros x Hx. apply filter_In in Hx. destruct Hx. bool_prop. auto. Qed.

Lemma feed_length t st f : (length (fst (feed t st f)) <= S (length st))%nat.
Proof.
  unfold feed. repeat case_match; cbn [fst]; try lia;
    first [ etransitivity; [apply remove_length|lia] | apply insert_length_le ].
Qed.
Lemma rrun_length l : forall st, (length (fst (rrun st l)) <= length st + length l)%nat.
Proof.
  induction l as [|o l IH]; intros st; cbn [rrun length]; [cbn [fst]; lia|].
  destruct (rstep st o) as [st1 out] eqn:E. specialize (IH st1).
  destruct (rrun st1 l). cbn [fst] in *.
  assert (length st1 <= S (length st))%nat; [|lia].
  destruct o; cbn [rstep] in E.
  - replace st1 with (fst (feed now st f)) by (rewrite E; auto). apply feed_length.
  - inv E. unfold gc_stale. clear. induction st; cbn [filter length]; auto. destruct (_ <? _); cbn [length]; lia.
Qed.

Lemma feed_new_slot t st f key p :
  key = frag_key f ->
  fr_total f <= 1048576 -> 1 < fr_count f <= 749 ->
  p = match lookup pair_eqb key st with Some p => p | None => new_pending t f end ->
  (length st < 256)%nat ->
  (N.to_nat (fr_index f) < length (pe_frags p))%nat -> nth (N.to_nat (fr_index f)) (pe_frags p) None = None ->
  pe_rbytes p + N.of_nat (length (fr_payload f)) <= pe_total p ->
  feed t st f =
    let fr := set_nth (N.to_nat (fr_index f)) (Some (fr_payload f)) (pe_frags p) in
    if pe_rcount p + 1 =? pe_expected p
    then (remove pair_eqb key st, Some (mkRe (pe_meta p) (flatten_frags fr)))
    else (insert pair_eqb key (mkPend fr (pe_rcount p + 1) (pe_rbytes p + N.of_nat (length (fr_payload f)))
                                (pe_expected p) (pe_total p) (pe_first_seen p) (pe_meta p)) st, None).
Proof.
  intros -> Ht Hc Hp Hst Hi Hn Hb. unfold feed.
  rewrite (proj2 (N.ltb_ge MAX_REASSEMBLY_SIZE _)) by (unfold MAX_REASSEMBLY_SIZE; lia).
  rewrite (proj2 (N.eqb_neq (fr_count f) 0)) by lia.
  rewrite (proj2 (N.ltb_ge MAX_FRAGMENTS_PER_MESSAGE _)) by (change MAX_FRAGMENTS_PER_MESSAGE with 749; lia).
  rewrite (proj2 (N.eqb_neq (fr_count f) 1)) by lia. cbn [orb].
  rewrite (proj2 (Nat.leb_gt MAX_PENDING_MESSAGES (length st))) by (unfold MAX_PENDING_MESSAGES; lia).
  rewrite andb_false_r. rewrite <- Hp.
  rewrite (proj2 (Nat.leb_gt _ _)) by auto. rewrite Hn.
  rewrite (proj2 (N.ltb_ge _ _)) by auto. reflexivity.
Qed.

Lemma cross_sender m1 m2 :
  om_topic m1 = om_topic m2 -> length (om_payload m1) = length (om_payload m2) ->
  1400 < N.of_nat (length (om_payload m1)) <= 2800 ->
  firstn 1400 (om_payload m1) <> firstn 1400 (om_payload m2) ->
  skipn 1400 (om_payload m1) <> skipn 1400 (om_payload m2) ->
  exists f1 f2 r,
    In f1 (snd (fragment 0 m1)) /\ In f2 (snd (fragment 0 m2)) /\
    map snd (snd (rrun reassembler_new [RFeed 0 f1; RFeed 1 f2])) = [None; Some r] /\
    re_payload r <> om_payload m1 /\ re_payload r <> om_payload m2.
Proof.
  intros Ht Hl Hlen Hne1 Hne2.
  destruct (fragment_shape m1 0) as (Hc1 & Hn1 & _); [lia|].
  destruct (fragment_shape m2 0) as (Hc2 & Hn2 & _); [lia|].
  set (F1 := snd (fragment 0 m1)) in *. set (F2 := snd (fragment 0 m2)) in *.
  assert (L1 : length F1 = 2%nat) by lia. assert (L2 : length F2 = 2%nat) by lia.
  rewrite L1 in Hn1. rewrite L2 in Hn2. clear Hc1 Hc2.
  set (d := mkFrag (meta_of m1) 0 0 0 0 []).
  specialize (Hn1 0%nat d ltac:(lia)). specialize (Hn2 1%nat d ltac:(lia)).
  exists (nth 0 F1 d), (nth 1 F2 d).
  rewrite Nat.mul_0_r in Hn1. rewrite Nat.mul_1_r in Hn2.
  set (a := slice 0 1400 (om_payload m1)) in *. set (b := slice 1400 1400 (om_payload m2)) in *.
  assert (Ha : length a = 1400%nat) by (apply slice_length; lia).
  assert (Hb : length b = (length (om_payload m1) - 1400)%nat).
  { unfold b, slice. rewrite firstn_length, skipn_length. lia. }
  exists (mkRe (meta_of m1) (a ++ b)). cbn [re_payload].
  split; [apply nth_In; lia|]. split; [apply nth_In; lia|].
  set (f1 := nth 0 F1 d) in *. set (f2 := nth 1 F2 d) in *. clearbody f1 f2.
  change (2%nat) with (S 1) in *.
  assert (E1 : feed 0 [] f1 = (insert pair_eqb (om_topic m1, 0) (mkPend [Some a; None] 1 1400 2 (N.of_nat (length (om_payload m1))) 0 (meta_of m1)) [], None)).
  { subst f1. rewrite (feed_new_slot 0 [] _ (om_topic m1, 0) (mkPend [None; None] 0 0 2 (N.of_nat (length (om_payload m1))) 0 (meta_of m1)));
      cbn [fr_total fr_count fr_index fr_payload fr_meta fr_id lookup length pe_frags pe_rbytes pe_total]; auto; try lia.
    cbn [pe_rcount pe_expected pe_first_seen pe_meta pe_rbytes pe_frags]. rewrite Ha. reflexivity. }
  assert (E2 : feed 1 (insert pair_eqb (om_topic m1, 0) (mkPend [Some a; None] 1 1400 2 (N.of_nat (length (om_payload m1))) 0 (meta_of m1)) []) f2
     = (remove pair_eqb (om_topic m1, 0) (insert pair_eqb (om_topic m1, 0) (mkPend [Some a; None] 1 1400 2 (N.of_nat (length (om_payload m1))) 0 (meta_of m1)) []), Some (mkRe (meta_of m1) (a ++ b)))).
  { subst f2. rewrite (feed_new_slot 1 _ _ (om_topic m1, 0) (mkPend [Some a; None] 1 1400 2 (N.of_nat (length (om_payload m1))) 0 (meta_of m1)));
      cbn [fr_total fr_count fr_index fr_payload fr_meta fr_id length pe_frags pe_rbytes pe_total]; auto; try lia.
    - cbn [pe_rcount pe_expected pe_first_seen pe_meta pe_rbytes pe_frags].
      unfold flatten_frags. change (N.to_nat (N.of_nat 1)) with 1%nat. cbn [set_nth flat_map]. rewrite app_nil_r. reflexivity.
    - unfold frag_key; cbn [fr_meta fr_id meta_of me_topic]. rewrite Ht; reflexivity.
    - rewrite (lookup_insert_eq pair_eqb pair_eqb_spec). reflexivity.
    - unfold insert; cbn [remove filter length]. lia. }
  split.
  { cbn [rrun rstep]. unfold reassembler_new. rewrite E1, E2. reflexivity. }
  assert (Hb' : b = skipn 1400 (om_payload m2)).
  { unfold b, slice. apply firstn_all2. rewrite skipn_length. lia. }
  split; intros E.
  - apply Hne2. rewrite <- Hb', <- E. rewrite skipn_app, (skipn_all2 a) by lia. rewrite Ha. reflexivity.
  - apply Hne1. rewrite <- E. rewrite firstn_app, (firstn_all2 a) by lia. rewrite Ha, Nat.sub_diag, firstn_O, app_nil_r. reflexivity.
Qed.
