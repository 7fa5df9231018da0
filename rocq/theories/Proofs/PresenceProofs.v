From Coq Require Import String.
From Verif.Base Require Import Prelude Bytes Str AMap Decimal.
From Verif.Model Require Import Grid ShmFiles Presence.
From Verif.Spec Require Import PresenceSpec.
From Verif.Proofs Require Import GridProofs ShmFilesProofs.
Open Scope N_scope.
Open Scope list_scope.

(** * Names *)

Lemma starts_spec : forall p s, starts p s = true <-> exists r, s = p ++ r.
Proof.
  intros p s. unfold starts. rewrite beqb_spec. split.
  - intro E. exists (skipn (length p) s). rewrite <- E at 1. symmetry. apply firstn_skipn.
  - intros [r ->]. rewrite firstn_app, Nat.sub_diag, firstn_all, firstn_O, app_nil_r. reflexivity.
Qed.
Lemma ends_app : forall p s, ends p (s ++ p) = true.
Proof.
  intros p s. unfold ends. rewrite app_length. apply andb_true_iff. split; [apply Nat.leb_le; lia|].
  apply beqb_spec. replace (length s + length p - length p)%nat with (length s) by lia.
  rewrite skipn_app, skipn_all, Nat.sub_diag. reflexivity.
Qed.
Lemma file_inj : forall a b, presence_file a = presence_file b -> a = b.
Proof. intros a b E. unfold presence_file in E. apply app_inv_tail in E. exact E. Qed.
Lemma file_json : forall n, node_name_ok n = true -> is_json (presence_file n) = true.
Proof.
  intros n H. unfold is_json, presence_file. rewrite ends_app. apply Nat.ltb_lt. rewrite app_length.
  unfold node_name_ok in H. destruct n; [discriminate|]. cbn. lia.
Qed.
Lemma prefix_file : forall p n, (exists r, presence_file n = p ++ r) -> (forall b, In b p -> b <> 46) ->
  exists r, n = p ++ r.
Proof.
  induction p as [|c p IH]; intros n [r E] D; [exists n; reflexivity|].
  destruct n as [|d n].
  - exfalso. injection E as E1 _. apply (D c); [left; reflexivity|]. symmetry. exact E1.
  - injection E as -> E. destruct (IH n) as [q ->]; [exists r; exact E|intros b B; apply D; right; exact B|].
    exists q. reflexivity.
Qed.
Lemma plain_file : forall n, plain_name n -> host_record (presence_file n) = false.
Proof.
  intros n (_ & A & B). apply not_true_iff_false. intro H. unfold host_record in H. apply orb_true_iff in H as [H|H];
  apply starts_spec in H; [apply A|apply B]; apply prefix_file in H; auto;
  intros b I; cbn in I; repeat (destruct I as [<-|I]; [discriminate|]); destruct I.
Qed.

(** * Local listing *)

Lemma in_insert : forall {V} k (v : V) m k' v', In (k', v') (insert beqb k v m) <->
  (k' = k /\ v' = v) \/ (k' <> k /\ In (k', v') m).
Proof.
  intros V k v m k' v'. unfold insert, remove. cbn [In]. rewrite filter_In. cbn [fst]. rewrite negb_true_iff, ShmFilesProofs.beqb_false.
  split.
  - intros [E|[I N]]; [injection E as -> ->; auto|right; split; [congruence|exact I]].
  - intros [[-> ->]|[N I]]; [auto|right; split; [exact I|congruence]].
Qed.
Lemma in_remove : forall {V} k (m : list (bytes * V)) k' v', In (k', v') (remove beqb k m) <-> k' <> k /\ In (k', v') m.
Proof.
  intros V k m k' v'. unfold remove. rewrite filter_In. cbn [fst]. rewrite negb_true_iff, ShmFilesProofs.beqb_false.
  split; intros [A B]; split; auto; congruence.
Qed.
Lemma in_listed : forall w f r, In (f, r) (fst (read_all w)) <->
  In (f, Valid r) (w_dir w) /\ host_record f = false /\ is_json f = true /\ is_alive (w_procs w) r = true.
Proof.
  intros w f r. unfold read_all. cbn [fst]. rewrite in_flat_map. split.
  - intros ([f' c] & I & L). unfold listed_here in L. destruct (host_record f') eqn:H; [destruct L|].
    destruct (is_json f') eqn:J; [|destruct L]. destruct c as [r'|]; [|destruct L].
    destruct (is_alive (w_procs w) r') eqn:A; [|destruct L]. destruct L as [E|[]]. injection E as -> ->. auto.
  - intros (I & H & J & A). exists (f, Valid r). split; [exact I|]. unfold listed_here. rewrite H, J, A. left. reflexivity.
Qed.
Lemma procs_run : forall h pid, lookup N.eqb pid (w_procs (p_run h)) = running h pid.
Proof.
  intros h pid. induction h as [|e h IH] using rev_ind; [reflexivity|].
  unfold p_run, running in *. rewrite !fold_left_app. cbn [fold_left].
  destruct e as [p s|p|n r|n|]; cbn [p_step w_procs read_all snd]; auto.
  - destruct (N.eqb_spec p pid) as [->|N].
    + rewrite lookup_insert_eq; [reflexivity|apply N.eqb_eq].
    + rewrite lookup_insert_neq; [exact IH|apply N.eqb_eq|congruence].
  - destruct (N.eqb_spec p pid) as [->|N].
    + rewrite lookup_remove_eq. reflexivity.
    + rewrite lookup_remove_neq; [exact IH|apply N.eqb_eq|congruence].
Qed.

Lemma proper_app : forall a b, proper (a ++ b) -> proper a.
Proof. intros a b H pre e post E. apply (H pre e (post ++ b)). rewrite E, <- app_assoc. reflexivity. Qed.
Lemma proper_last : forall h e, proper (h ++ [e]) ->
  match e with
  | Run p s => s <> 0 /\ ~ In (Run p s) h
  | Announce n r => node_name_ok n = true /\ running h (pr_pid r) = Some (pr_start r)
  | _ => True
  end.
Proof. intros h e H. apply (H h e []). reflexivity. Qed.
Lemma running_in : forall h p s, running h p = Some s -> In (Run p s) h.
Proof.
  intros h p s. induction h as [|e h IH] using rev_ind; [discriminate|].
  unfold running in *. rewrite fold_left_app. cbn [fold_left]. rewrite in_app_iff.
  destruct e as [p' s'|p'|n r|n|]; auto.
  - destruct (N.eqb_spec p' p) as [->|]; [intros [= ->]; right; left; reflexivity|auto].
  - destruct (N.eqb_spec p' p); [discriminate|auto].
Qed.
Lemma running_nonzero : forall h p s, proper h -> running h p = Some s -> s <> 0.
Proof.
  intros h p s P R. apply running_in in R. apply in_split in R as (a & b & ->). apply (P a (Run p s) b eq_refl).
Qed.
Lemma announced_in : forall h, proper h -> forall n r, announced h n = Some r -> pr_start r <> 0 /\ In (Run (pr_pid r) (pr_start r)) h.
Proof.
  induction h as [|e h IH] using rev_ind; [discriminate|]. intros P n r. pose proof (proper_app _ _ P) as P'.
  pose proof (proper_last _ _ P) as L. specialize (IH P' n r). unfold announced in *. rewrite fold_left_app. cbn [fold_left].
  rewrite in_app_iff. destruct e as [p' s'|p'|n' r'|n'|]; try (intro A; destruct (IH A); auto; fail).
  - destruct (beqb n' n); [|intro A; destruct (IH A); auto]. intros [= ->]. destruct L as [_ L].
    split; [eapply running_nonzero; eauto|]. left. apply running_in. exact L.
  - destruct (beqb n' n); [discriminate|]. intro A; destruct (IH A); auto.
Qed.

Definition seen_inv (h : list pevent) : Prop :=
  (forall n r, node_name_ok n = true -> announced h n = Some r -> running h (pr_pid r) = Some (pr_start r) ->
     plain_name n -> In (presence_file n, Valid r) (w_dir (p_run h)))
  /\ (forall n c, In (presence_file n, c) (w_dir (p_run h)) -> exists r, c = Valid r /\ announced h n = Some r).
Lemma alive_running : forall h r, proper h -> pr_start r <> 0 ->
  (is_alive (w_procs (p_run h)) r = true <-> running h (pr_pid r) = Some (pr_start r)).
Proof.
  intros h r P NZ. unfold is_alive. rewrite procs_run. destruct (running h (pr_pid r)) as [s|] eqn:R; [|split; discriminate].
  pose proof (running_nonzero _ _ _ P R). rewrite !orb_true_iff, !N.eqb_eq. split; [intros [[A|A]|A]; congruence|].
  intros [= ->]. auto.
Qed.
Lemma seen_run : forall h, proper h -> seen_inv h.
Proof.
  induction h as [|e h IH] using rev_ind; intro P.
  - split; [discriminate|]. intros n c [].
  - pose proof (proper_app _ _ P) as P'. pose proof (proper_last _ _ P) as L. specialize (IH P') as [I1 I2].
    assert (ST : p_run (h ++ [e]) = p_step (p_run h) e) by (unfold p_run; rewrite fold_left_app; reflexivity).
    assert (AN : forall n, announced (h ++ [e]) n = match e with
      | Announce n' r => if beqb n' n then Some r else announced h n
      | Withdraw n' => if beqb n' n then None else announced h n | _ => announced h n end)
      by (intro n; unfold announced; rewrite fold_left_app; reflexivity).
    assert (RN : forall p, running (h ++ [e]) p = match e with
      | Run p' s => if p' =? p then Some s else running h p
      | Exit p' => if p' =? p then None else running h p | _ => running h p end)
      by (intro p; unfold running; rewrite fold_left_app; reflexivity).
    split.
    + intros n r OK A R PL. rewrite ST. rewrite AN in A. rewrite RN in R.
      destruct e as [p s|p|n' r'|n'|]; cbn [p_step w_dir].
      * destruct (N.eqb_spec p (pr_pid r)) as [->|]; [|apply I1; auto]. injection R as ->. exfalso. apply L.
        apply (announced_in h P' n r A).
      * destruct (N.eqb_spec p (pr_pid r)); [discriminate|apply I1; auto].
      * rewrite in_insert. destruct (beqb n' n) eqn:E.
        -- apply beqb_spec in E as ->. injection A as ->. auto.
        -- apply ShmFilesProofs.beqb_false in E. right. split; [intro X; apply file_inj in X; congruence|apply I1; auto].
      * rewrite in_remove. destruct (beqb n' n) eqn:E; [discriminate|]. apply ShmFilesProofs.beqb_false in E.
        split; [intro X; apply file_inj in X; congruence|apply I1; auto].
      * cbn [read_all snd w_dir]. rewrite filter_In. split; [apply I1; auto|]. unfold kept_here.
        rewrite plain_file, file_json by auto. apply alive_running; auto. apply (announced_in h P' n r A).
    + intros n c. rewrite ST, AN. destruct e as [p s|p|n' r'|n'|]; cbn [p_step w_dir]; auto.
      * rewrite in_insert. intros [[E ->]|[N I]].
        -- apply file_inj in E as ->. exists r'. rewrite (proj2 (beqb_spec n' n')) by reflexivity. auto.
        -- destruct (beqb n' n) eqn:E; [apply beqb_spec in E; subst; congruence|]. auto.
      * rewrite in_remove. intros [N I]. destruct (beqb n' n) eqn:E; [apply beqb_spec in E; subst; congruence|]. auto.
      * cbn [read_all snd w_dir]. rewrite filter_In. intros [I _]. auto.
Qed.
Lemma listing : forall h n r, proper h -> plain_name n ->
  (In (presence_file n, r) (fst (read_all (p_run h))) <-> announced h n = Some r /\ running h (pr_pid r) = Some (pr_start r)).
Proof.
  intros h n r P PL. destruct (seen_run h P) as [I1 I2]. rewrite in_listed. split.
  - intros (I & _ & _ & A). destruct (I2 n _ I) as (r' & [= <-] & AN). split; [exact AN|].
    apply alive_running; auto. apply (announced_in h P n r AN).
  - intros [A R]. pose proof PL as (OK & _). split; [apply I1; auto|]. split; [apply plain_file; auto|].
    split; [apply file_json; auto|]. apply alive_running; auto. apply (announced_in h P n r A).
Qed.
Lemma hidden : forall h n r x, n = bs "remote_" ++ x \/ n = bs "bridged_" ++ x ->
  ~ In (presence_file n, r) (fst (read_all (p_run h))).
Proof.
  intros h n r x N I. apply in_listed in I as (_ & H & _). apply not_true_iff_false in H. apply H. unfold host_record.
  apply orb_true_iff. destruct N as [->| ->]; [left|right]; apply starts_spec; exists (x ++ bs ".json");
  unfold presence_file; rewrite <- app_assoc; reflexivity.
Qed.

(** * Replacing a file *)

Open Scope nat_scope.
Definition solo (w : nat) (s : preplace) : Prop :=
  (forall i, t_tmp s = Some i -> i < length (t_data s) /\ t_dest s <> Some i)
  /\ (forall i, t_dest s = Some i -> exists r, nth_error (t_data s) i = Some (Whole r))
  /\ match t_ws s w with
     | WIdle => True
     | WOpen i => t_tmp s = Some i /\ nth_error (t_data s) i = Some Empty
     | WFull i => t_tmp s = Some i /\ exists r, nth_error (t_data s) i = Some (Whole r)
     end.
Lemma set_same : forall f w x, set_w f w x w = x.
Proof. intros. unfold set_w. rewrite Nat.eqb_refl. reflexivity. Qed.
Lemma solo_step : forall w c s, by_one w c -> solo w s -> solo w (w_step s c).
Proof.
  intros w c [tmp dest data ws] B S. pose proof S as (S1 & S2 & S3). cbn [t_tmp t_dest t_data t_ws] in *.
  destruct c as [k|k r|k|k]; cbn [by_one] in B; subst k; cbn [w_step t_tmp t_dest t_data t_ws].
  - destruct (ws w) eqn:W; try exact S. destruct tmp as [i|].
    + destruct (S1 i eq_refl) as [LT ND]. repeat split; cbn [t_tmp t_dest t_data t_ws].
      * injection H as <-. rewrite store_length. exact LT.
      * injection H as <-. exact ND.
      * intros j J. rewrite store_nth. destruct (Nat.eqb_spec j i); [congruence|]. apply S2. exact J.
      * rewrite set_same. split; [reflexivity|]. rewrite store_nth, Nat.eqb_refl.
        apply Nat.ltb_lt in LT. rewrite LT. reflexivity.
    + repeat split; cbn [t_tmp t_dest t_data t_ws].
      * injection H as <-. rewrite app_length. cbn. lia.
      * injection H as <-. intros ->. destruct (S2 _ eq_refl) as [r R].
        assert (length data < length data) by (apply nth_error_Some; congruence). lia.
      * intros j J. destruct (S2 j J) as [r R]. exists r. rewrite nth_error_app1; [exact R|]. apply nth_error_Some. congruence.
      * rewrite set_same. split; [reflexivity|]. rewrite nth_error_app2, Nat.sub_diag by lia. reflexivity.
  - destruct (ws w) as [|i|i] eqn:W; try exact S. destruct S3 as [-> E]. rewrite E.
    destruct (S1 i eq_refl) as [LT ND]. repeat split; cbn [t_tmp t_dest t_data t_ws].
    + injection H as <-. rewrite store_length. exact LT.
    + injection H as <-. exact ND.
    + intros j J. rewrite store_nth. destruct (Nat.eqb_spec j i); [congruence|]. apply S2. exact J.
    + rewrite set_same. split; [reflexivity|]. exists r. rewrite store_nth, Nat.eqb_refl.
      apply Nat.ltb_lt in LT. rewrite LT. reflexivity.
  - destruct (ws w) as [|i|i] eqn:W; try exact S. destruct S3 as [-> E].
    repeat split; cbn [t_tmp t_dest t_data t_ws]; try discriminate.
    + intros j [= <-]. exact E.
    + rewrite set_same. exact I.
  - repeat split; cbn [t_tmp t_dest t_data t_ws]; try apply S1; auto. rewrite set_same. exact I.
Qed.
Lemma solo_run : forall w cs s, Forall (by_one w) cs -> solo w s -> solo w (fold_left w_step cs s).
Proof.
  intros w. induction cs as [|c cs IH]; intros s F S; cbn [fold_left]; [exact S|]. inversion F; subst. apply IH; auto using solo_step.
Qed.
Lemma solo_none : forall w, solo w no_presence.
Proof. intro w. split; [discriminate|]. split; [discriminate|exact I]. Qed.
Lemma solo_read : forall w s, solo w s -> p_read s = None \/ exists r, p_read s = Some (Whole r).
Proof. intros w s (_ & S2 & _). unfold p_read. destruct (t_dest s) as [i|]; [right; apply S2; reflexivity|auto]. Qed.
Lemma solo_same : forall w s c, solo w s -> by_one w c -> c <> WRename w -> p_read (w_step s c) = p_read s.
Proof.
  intros w [tmp dest data ws] c S B N. pose proof S as (S1 & S2 & S3). unfold p_read. cbn [t_tmp t_dest t_data t_ws] in *.
  destruct c as [k|k r|k|k]; cbn [by_one] in B; subst k; cbn [w_step t_tmp t_dest t_data t_ws]; [| |congruence|reflexivity].
  - destruct (ws w) eqn:W; try reflexivity. destruct tmp as [i|]; cbn [t_dest t_data].
    + destruct (S1 i eq_refl) as [LT ND]. destruct dest as [j|]; [|reflexivity]. rewrite store_nth.
      destruct (Nat.eqb_spec j i); [congruence|reflexivity].
    + destruct dest as [j|]; [|reflexivity]. destruct (S2 j eq_refl) as [r R]. apply nth_error_app1. apply nth_error_Some. congruence.
  - destruct (ws w) as [|i|i] eqn:W; try reflexivity. destruct S3 as [-> E]. destruct (S1 i eq_refl) as [LT ND].
    cbn [t_dest t_data]. destruct dest as [j|]; [|reflexivity]. rewrite store_nth. destruct (Nat.eqb_spec j i); [congruence|reflexivity].
Qed.
Lemma solo_write : forall w s r, solo w s ->
  p_read (fold_left w_step [WDie w; WOpenTmp w; WWrite w r; WRename w] s) = Some (Whole r).
Proof.
  intros w s r S. cbn [fold_left]. assert (SD : solo w (w_step s (WDie w))) by (apply solo_step; [reflexivity|exact S]).
  assert (ID : t_ws (w_step s (WDie w)) w = WIdle) by (cbn [w_step t_ws]; apply set_same).
  set (s1 := w_step s (WDie w)) in *. clearbody s1. clear S s.
  assert (SO : solo w (w_step s1 (WOpenTmp w))) by (apply solo_step; [reflexivity|exact SD]).
  assert (OP : exists i, t_ws (w_step s1 (WOpenTmp w)) w = WOpen i).
  { cbn [w_step]. rewrite ID. destruct (t_tmp s1) as [i|]; cbn [t_ws]; rewrite set_same; eauto. }
  set (s2 := w_step s1 (WOpenTmp w)) in *. clearbody s2. destruct OP as [i OP]. destruct SO as (A & B & C).
  rewrite OP in C. destruct C as [C1 C2]. destruct (A i C1) as [LT _]. cbn [w_step]. rewrite OP, C2. cbn [t_ws].
  rewrite set_same. cbn [t_tmp]. rewrite C1. unfold p_read. cbn [t_dest t_data]. rewrite store_nth, Nat.eqb_refl.
  apply Nat.ltb_lt in LT. rewrite LT. reflexivity.
Qed.

(** * Other machines *)

Open Scope N_scope.
Lemma take_app : forall a b, take (length a) (a ++ b) = Some (a, b).
Proof.
  intros a b. unfold take. rewrite app_length. replace (length a + length b <? length a)%nat with false by (symmetry; apply Nat.ltb_ge; lia).
  rewrite firstn_app, Nat.sub_diag, firstn_all, firstn_O, app_nil_r, skipn_app, skipn_all, Nat.sub_diag. reflexivity.
Qed.
Lemma take_le : forall k n b, take k (le_enc k n ++ b) = Some (le_enc k n, b).
Proof. intros k n b. rewrite <- (le_enc_length k n) at 1. apply take_app. Qed.
Lemma get_put_str : forall s b, N.of_nat (length s) < 65536 -> get_str (put_str s ++ b) = Some (s, b).
Proof.
  intros s b L. unfold get_str, put_str. rewrite <- app_assoc, take_le, le_dec_enc.
  - rewrite N.mod_small by lia. rewrite Nat2N.id. apply take_app.
  - apply N.mod_lt. lia.
Qed.
Lemma get_put_nodes : forall ns b, Forall (fun n => N.of_nat (length (fst n)) < 65536 /\ snd n < 2 ^ 64) ns ->
  get_nodes (length ns) (flat_map (fun n => put_str (fst n) ++ le_enc 8 (snd n)) ns ++ b) = ns.
Proof.
  induction ns as [|[n r] ns IH]; intros b F; [reflexivity|]. inversion F as [|? ? [F1 F2] F']; subst. cbn [fst snd] in *.
  cbn [length get_nodes flat_map]. cbn [fst snd]. rewrite <- !app_assoc. rewrite get_put_str by exact F1. rewrite take_le.
  rewrite IH by exact F'. rewrite le_dec_enc by exact F2. reflexivity.
Qed.
Lemma cast_round : forall c b, safe_component (c_host c) = true -> N.of_nat (length (c_ns c)) < 65536 -> c_time c < 2 ^ 64 ->
  N.of_nat (length (c_nodes c)) < 65536 -> Forall (fun n => N.of_nat (length (fst n)) < 65536 /\ snd n < 2 ^ 64) (c_nodes c) ->
  get_cast (c_ns c) (put_cast c ++ b) = Some c.
Proof.
  intros [ns host time nodes] b. cbn [c_ns c_host c_time c_nodes]. intros SAFE LN LT LC F.
  assert (LH : N.of_nat (length host) < 65536).
  { unfold safe_component in SAFE. rewrite !andb_true_iff in SAFE. destruct SAFE as [[[[_ L] _] _] _]. apply Nat.leb_le in L. lia. }
  unfold get_cast, put_cast. cbn [c_ns c_host c_time c_nodes].
  replace (length _ <? 6)%nat with false.
  2: { symmetry. apply Nat.ltb_ge. rewrite !app_length. unfold put_str. rewrite !app_length, !le_enc_length. lia. }
  rewrite <- !app_assoc. rewrite get_put_str by exact LN. rewrite (proj2 (beqb_spec ns ns) eq_refl). cbn [negb].
  rewrite get_put_str by exact LH. rewrite SAFE. cbn [negb]. rewrite take_le, take_le.
  rewrite !le_dec_enc; [|apply N.mod_lt; lia|exact LT]. rewrite N.mod_small by lia. rewrite Nat2N.id, get_put_nodes by exact F.
  reflexivity.
Qed.

Lemma safe_no_slash : forall s, safe_component s = true -> Forall (fun b => b <> 47) s.
Proof.
  intros s H. unfold safe_component in H. rewrite !andb_true_iff in H. destruct H as [[[_ H] _] _].
  apply negb_true_iff in H. apply Forall_forall. intros b B ->. apply not_true_iff_false in H. apply H.
  apply existsb_exists. exists 47. split; [exact B|reflexivity].
Qed.
Lemma remote_inj : forall a b, remote_file a = remote_file b -> a = b.
Proof. intros a b E. unfold remote_file in E. apply app_inv_head in E. apply app_inv_tail in E. exact E. Qed.

(** The receiver. *)
Lemma heard_le : forall ns h host t c, ordered h -> heard ns h host = Some (t, c) -> t <= last_time h /\ c_host c = host.
Proof.
  intros ns h. induction h as [|e h IH] using rev_ind; [discriminate|]. intros host t c O.
  assert (O' : ordered h) by (intros pre e' post E; apply (O pre e' (post ++ [e])); rewrite E, <- app_assoc; reflexivity).
  pose proof (O h e [] eq_refl) as LE. unfold heard, last_time in *. rewrite !fold_left_app. cbn [fold_left].
  destruct e as [n d|n].
  - destruct (get_cast ns d) as [c'|]; [|intro H; destruct (IH host t c O' H); split; [lia|auto]].
    destruct (beqb (c_host c') host) eqn:E; [|intro H; destruct (IH host t c O' H); split; [lia|auto]].
    intros [= -> ->]. apply beqb_spec in E. split; [lia|exact E].
  - intro H. destruct (IH host t c O' H). split; [lia|auto].
Qed.
Definition hosts_inv (ns : bytes) (h : list revent) : Prop :=
  (forall host t, In (host, t) (v_hosts (r_run ns h)) ->
     exists c, heard ns h host = Some (t, c) /\ In (remote_file host, c) (v_files (r_run ns h)))
  /\ (forall f c, In (f, c) (v_files (r_run ns h)) ->
        exists host t, f = remote_file host /\ heard ns h host = Some (t, c) /\ In (host, t) (v_hosts (r_run ns h)))
  /\ (forall host t c, heard ns h host = Some (t, c) -> last_time h <= t + 30000000000 ->
        In (host, t) (v_hosts (r_run ns h))).
Definition dead_hosts (now : N) (hosts : list (bytes * N)) : list bytes :=
  map fst (filter (fun p => 30000000000 <? now - snd p) hosts).
Lemma dead_iff : forall now hosts h, In h (dead_hosts now hosts) <-> exists t, In (h, t) hosts /\ t + 30000000000 < now.
Proof.
  intros now hosts h. unfold dead_hosts. rewrite in_map_iff. split.
  - intros ([h' t] & <- & I). apply filter_In in I as [I E]. cbn [fst snd] in *. apply N.ltb_lt in E. exists t. split; [exact I|lia].
  - intros (t & I & L). exists (h, t). split; [reflexivity|]. apply filter_In. split; [exact I|]. cbn [snd]. apply N.ltb_lt. lia.
Qed.
Lemma not_ex : forall {A} (f : A -> bool) l, negb (existsb f l) = true <-> forall x, In x l -> f x = false.
Proof.
  intros A f l. rewrite negb_true_iff, <- not_true_iff_false, existsb_exists. split.
  - intros N x I. destruct (f x) eqn:E; [|reflexivity]. exfalso. apply N. eauto.
  - intros H (x & I & E). rewrite (H x I) in E. discriminate.
Qed.
Lemma hosts_run : forall ns h, ordered h -> hosts_inv ns h.
Proof.
  intros ns. induction h as [|e h IH] using rev_ind; intro O.
  - split; [intros host t []|]. split; [intros f c []|]. discriminate.
  - assert (O' : ordered h) by (intros pre e' post E; apply (O pre e' (post ++ [e])); rewrite E, <- app_assoc; reflexivity).
    pose proof (O h e [] eq_refl) as LE. specialize (IH O') as (I1 & I2 & I3).
    assert (ST : r_run ns (h ++ [e]) = r_step ns (r_run ns h) e) by (unfold r_run; rewrite fold_left_app; reflexivity).
    assert (LT : last_time (h ++ [e]) = match e with Cast n _ | CleanHosts n => n end)
      by (unfold last_time; rewrite fold_left_app; reflexivity).
    assert (HE : forall host, heard ns (h ++ [e]) host = match e with
      | Cast n d => match get_cast ns d with Some c => if beqb (c_host c) host then Some (n, c) else heard ns h host | None => heard ns h host end
      | CleanHosts _ => heard ns h host end) by (intro host; unfold heard; rewrite fold_left_app; reflexivity).
    unfold hosts_inv. rewrite ST, LT. destruct e as [n d|n].
    + cbn [r_step]. destruct (get_cast ns d) as [c'|] eqn:G.
      * cbn [v_hosts v_files]. split; [|split].
        -- intros host t I. rewrite HE. apply in_insert in I as [[-> ->]|[N I]].
           ++ exists c'. rewrite (proj2 (beqb_spec _ _) eq_refl). split; [reflexivity|]. apply in_insert. auto.
           ++ destruct (beqb (c_host c') host) eqn:E; [apply beqb_spec in E; congruence|].
              destruct (I1 host t I) as (c & H & F). exists c. split; [exact H|]. apply in_insert. right.
              split; [intro X; apply remote_inj in X; congruence|exact F].
        -- intros f c I. apply in_insert in I as [[-> ->]|[N I]].
           ++ exists (c_host c'), n. rewrite HE, (proj2 (beqb_spec _ _) eq_refl). split; [reflexivity|]. split; [reflexivity|].
              apply in_insert. auto.
           ++ destruct (I2 f c I) as (host & t & -> & H & HI). exists host, t. rewrite HE.
              destruct (beqb (c_host c') host) eqn:E; [apply beqb_spec in E; congruence|].
              split; [reflexivity|]. split; [exact H|]. apply in_insert. right. split; [|exact HI].
              intros ->. rewrite (proj2 (beqb_spec _ _) eq_refl) in E. discriminate.
        -- intros host t c H L. rewrite HE in H. apply in_insert. destruct (beqb (c_host c') host) eqn:E.
           ++ apply beqb_spec in E. injection H as <- <-. auto.
           ++ apply ShmFilesProofs.beqb_false in E. right. split; [congruence|]. apply (I3 host t c H). lia.
      * split; [|split].
        -- intros host t I. rewrite HE. auto.
        -- intros f c I. destruct (I2 f c I) as (host & t & A & B & C). exists host, t. rewrite HE. auto.
        -- intros host t c H L. rewrite HE in H. apply (I3 host t c H). lia.
    + cbn [r_step v_hosts v_files]. fold (dead_hosts n (v_hosts (r_run ns h))). set (dead := dead_hosts _ _).
      assert (UNI : forall host t t', In (host, t) (v_hosts (r_run ns h)) -> In (host, t') (v_hosts (r_run ns h)) -> t = t').
      { intros host t t' A B. destruct (I1 _ _ A) as (c & X & _). destruct (I1 _ _ B) as (c2 & Y & _). congruence. }
      split; [|split].
      * intros host t I. apply filter_In in I as [I D]. rewrite not_ex in D. cbn [fst] in D. rewrite HE.
        destruct (I1 host t I) as (c & H & F). exists c. split; [exact H|]. apply filter_In. split; [exact F|].
        apply not_ex. intros x X. cbn [fst]. apply ShmFilesProofs.beqb_false. intro Q. apply remote_inj in Q as <-.
        specialize (D host X). rewrite (proj2 (beqb_spec _ _) eq_refl) in D. discriminate.
      * intros f c I. apply filter_In in I as [I D]. rewrite not_ex in D. cbn [fst] in D.
        destruct (I2 f c I) as (host & t & -> & H & HI). exists host, t. rewrite HE. split; [reflexivity|]. split; [exact H|].
        apply filter_In. split; [exact HI|]. apply not_ex. intros x X. cbn [fst]. apply ShmFilesProofs.beqb_false. intros <-.
        specialize (D host X). rewrite (proj2 (beqb_spec _ _) eq_refl) in D. discriminate.
      * intros host t c H L. rewrite HE in H. apply filter_In. assert (HI : In (host, t) (v_hosts (r_run ns h))) by (apply (I3 host t c H); lia).
        split; [exact HI|]. apply not_ex. intros x X. cbn [fst]. apply ShmFilesProofs.beqb_false. intros <-.
        apply dead_iff in X as (t' & I' & L'). rewrite (UNI host t' t I' HI) in L'. lia.
Qed.
Lemma cleaned : forall ns h now host c, ordered (h ++ [CleanHosts now]) ->
  (In (remote_file host, c) (v_files (r_run ns (h ++ [CleanHosts now])))
   <-> exists t, heard ns h host = Some (t, c) /\ now <= t + 30000000000).
Proof.
  intros ns h now host c O.
  assert (O' : ordered h) by (intros pre e' post E; apply (O pre e' (post ++ [CleanHosts now])); rewrite E, <- app_assoc; reflexivity).
  pose proof (O h _ [] eq_refl) as LE. cbn in LE. destruct (hosts_run ns h O') as (I1 & I2 & I3).
  assert (ST : r_run ns (h ++ [CleanHosts now]) = r_step ns (r_run ns h) (CleanHosts now)) by (unfold r_run; rewrite fold_left_app; reflexivity).
  rewrite ST. cbn [r_step v_files]. fold (dead_hosts now (v_hosts (r_run ns h))). rewrite filter_In, not_ex. cbn [fst]. split.
  - intros [F D]. destruct (I2 _ _ F) as (host' & t & E & H & HI). apply remote_inj in E as <-. exists t. split; [exact H|].
    destruct (N.le_gt_cases now (t + 30000000000)) as [A|A]; [exact A|]. exfalso.
    assert (X : In host (dead_hosts now (v_hosts (r_run ns h)))) by (apply dead_iff; eauto).
    specialize (D host X). rewrite (proj2 (beqb_spec _ _) eq_refl) in D. discriminate.
  - intros (t & H & L). assert (HI : In (host, t) (v_hosts (r_run ns h))) by (apply (I3 host t c H); lia).
    destruct (I1 _ _ HI) as (c' & H' & F). rewrite H in H'. injection H' as <-. split; [exact F|].
    intros x X. apply ShmFilesProofs.beqb_false. intro Q. apply remote_inj in Q as <-. apply dead_iff in X as (t' & I' & L').
    destruct (I1 _ _ I') as (c2 & H2 & _). rewrite H in H2. injection H2 as <- <-. lia.
Qed.
Lemma files_heard : forall ns h f c, ordered h -> In (f, c) (v_files (r_run ns h)) ->
  exists host t, f = remote_file host /\ heard ns h host = Some (t, c).
Proof. intros ns h f c O I. destruct (hosts_run ns h O) as (_ & I2 & _). destruct (I2 f c I) as (host & t & A & B & _). eauto. Qed.
Lemma heard_safe : forall ns h host t c, heard ns h host = Some (t, c) -> safe_component host = true /\ c_ns c = ns /\ c_host c = host.
Proof.
  intros ns h host t c. induction h as [|e h IH] using rev_ind; [discriminate|]. unfold heard in *. rewrite fold_left_app. cbn [fold_left].
  destruct e as [n d|n]; [|exact IH]. destruct (get_cast ns d) as [c'|] eqn:G; [|exact IH].
  destruct (beqb (c_host c') host) eqn:E; [|exact IH]. intros [= -> ->]. apply beqb_spec in E. subst host.
  unfold get_cast in G. repeat match type of G with
    | (if ?b then _ else _) = Some _ => destruct b eqn:?; [discriminate|]
    | match ?x with Some _ => _ | None => _ end = Some _ => destruct x as [[? ?]|] eqn:?; [|discriminate]
    end. injection G as <-. cbn [c_host c_ns]. rewrite negb_false_iff in *. split; [assumption|]. split; [|reflexivity].
  apply beqb_spec. assumption.
Qed.
