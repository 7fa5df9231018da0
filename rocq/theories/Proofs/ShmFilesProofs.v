From Coq Require Import String.
From Verif.Base Require Import Prelude Bytes Str.
From Verif.Model Require Import Grid ShmFiles.
From Verif.Spec Require Import ShmFilesSpec.
From Verif.Proofs Require Import GridProofs.
Open Scope N_scope.
Open Scope list_scope.

(** * Names *)

Lemma beqb_false : forall a b, beqb a b = false <-> a <> b.
Proof. intros. rewrite <- not_true_iff_false, beqb_spec. tauto. Qed.

Lemma split_nonempty : forall f s, split_at f s <> [].
Proof. intros f [|c r]; cbn; [discriminate|]. destruct (f c); [discriminate|]. destruct (split_at f r); discriminate. Qed.

Lemma split_same : forall f g s, Forall (fun c => f c = g c) s -> split_at f s = split_at g s.
Proof. intros f g. induction 1 as [|c r E H IH]; [reflexivity|]. cbn [split_at]. rewrite E, IH. reflexivity. Qed.

(** What a valid name is made of. *)
Lemma topic_chars : forall s, topic_name_ok s = true ->
  Forall (fun b => alnum b = true \/ b = 95 \/ b = 47 \/ b = 45 \/ b = 46) s.
Proof.
  intros s H. unfold topic_name_ok in H. apply andb_true_iff in H as [_ H].
  rewrite forallb_forall in H. apply Forall_forall. intros b B. specialize (H b B).
  rewrite !orb_true_iff, !N.eqb_eq in H. tauto.
Qed.
Lemma alnum_not : forall b, alnum b = true -> b <> 92 /\ b <> 47 /\ b <> 0 /\ b <> 58 /\ b <> 46.
Proof. intros b. unfold alnum. rewrite !orb_true_iff, !andb_true_iff, !N.leb_le. lia. Qed.
Lemma topic_split : forall s, topic_name_ok s = true -> split_at either_slash s = split_at slash s.
Proof.
  intros s H. apply split_same. apply topic_chars in H. eapply Forall_impl; [|exact H].
  cbn beta. intros b B. unfold either_slash, slash. destruct (N.eqb_spec b 92) as [->|]; [|apply orb_false_r].
  exfalso. destruct B as [B|B]; [apply alnum_not in B; lia|lia].
Qed.

(** Both checks. *)
Definition name_ok (s : bytes) : bool := topic_name_ok s && region_name_ok s.
Definition good (c : bytes) : Prop := c <> bs "." /\ c <> bs "..".
Lemma name_parts : forall s, name_ok s = true ->
  Forall good (split_at slash s) /\ exists c r, s = c :: r /\ c <> 47.
Proof.
  intros s H. unfold name_ok in H. apply andb_true_iff in H as [T R].
  pose proof (topic_split s T) as E. unfold region_name_ok in R. rewrite E in R.
  rewrite !andb_true_iff in R. destruct R as [[[[[R1 _] _] R4] _] R6]. split.
  - rewrite forallb_forall in R6. apply Forall_forall. intros c C. specialize (R6 c C).
    rewrite !andb_true_iff, !negb_true_iff, !beqb_false in R6. unfold good. tauto.
  - destruct s as [|c r]; [discriminate R1|]. exists c, r. split; [reflexivity|].
    intros ->. discriminate R4.
Qed.
Lemma topic_path_ok : forall dir s, name_ok s = true -> topic_path dir s = dir ++ split_at slash s.
Proof.
  intros dir s H. destruct (name_parts s H) as [_ (c & r & -> & N)].
  unfold topic_path. destruct (N.eq_dec c 47) as [->|]; [congruence|].
  destruct c as [|p]; [reflexivity|]. do 6 (destruct p as [p|p|]; try reflexivity). congruence.
Qed.

Definition nonempty (c : bytes) : bool := negb (beqb c []).
Lemma walk_good : forall cs at_, Forall good cs -> fold_left walk cs at_ = at_ ++ filter nonempty cs.
Proof.
  induction cs as [|c cs IH]; intros at_ H; cbn [fold_left filter]; [rewrite app_nil_r; reflexivity|].
  inversion H as [|? ? [G1 G2] H']; subst. rewrite IH by assumption.
  unfold walk, nonempty. apply beqb_false in G1, G2. rewrite G1, G2.
  destruct (beqb c []); cbn [orb negb]; [reflexivity|]. rewrite <- app_assoc. reflexivity.
Qed.
Lemma ordinary_filter : forall dir, ordinary dir -> Forall good dir /\ filter nonempty dir = dir.
Proof.
  induction 1 as [|c cs (A & B & C) H [IH1 IH2]]; cbn [filter]; [split; auto|]. split; [constructor; [split|]; auto|].
  unfold nonempty at 1. apply beqb_false in A. rewrite A. cbn [negb]. rewrite IH2. reflexivity.
Qed.
Lemma topic_resolve : forall dir s, ordinary dir -> name_ok s = true ->
  resolve (topic_path dir s) = dir ++ filter nonempty (split_at slash s).
Proof.
  intros dir s D H. rewrite topic_path_ok by assumption. unfold resolve.
  destruct (ordinary_filter dir D) as [D1 D2]. destruct (name_parts s H) as [P _].
  rewrite walk_good by (apply Forall_app; auto). cbn [app]. rewrite filter_app, D2. reflexivity.
Qed.
Lemma first_part : forall s, name_ok s = true -> exists c w ws, split_at slash s = (c :: w) :: ws.
Proof.
  intros s H. destruct (name_parts s H) as [_ (c & r & -> & N)]. cbn [split_at].
  replace (slash c) with false by (unfold slash; destruct (N.eqb_spec c 47); congruence).
  pose proof (split_nonempty slash r). destruct (split_at slash r) as [|w ws]; [congruence|]. eauto.
Qed.
Lemma filter_ordinary : forall cs, Forall good cs -> ordinary (filter nonempty cs).
Proof.
  intros cs H. apply Forall_forall. intros c C. apply filter_In in C as [C N].
  rewrite Forall_forall in H. destruct (H c C). unfold nonempty in N. apply negb_true_iff, beqb_false in N. auto.
Qed.

Fixpoint join_slash (cs : list bytes) : bytes :=
  match cs with [] => [] | [c] => c | c :: r => c ++ 47 :: join_slash r end.
Lemma join_split : forall s, join_slash (split_at slash s) = s.
Proof.
  induction s as [|c r IH]; [reflexivity|]. cbn [split_at]. pose proof (split_nonempty slash r) as N.
  destruct (slash c) eqn:E.
  - unfold slash in E. apply N.eqb_eq in E. subst. destruct (split_at slash r) as [|w ws]; [congruence|].
    cbn [join_slash app] in *. rewrite IH. reflexivity.
  - destruct (split_at slash r) as [|w ws]; [congruence|]. destruct ws; cbn [join_slash app] in *; rewrite IH; reflexivity.
Qed.
Lemma split_inj : forall a b, split_at slash a = split_at slash b -> a = b.
Proof. intros a b H. rewrite <- (join_split a), <- (join_split b), H. reflexivity. Qed.
Lemma tidy_filter : forall s, tidy s -> filter nonempty (split_at slash s) = split_at slash s.
Proof.
  intros s. unfold tidy. induction 1 as [|c cs A H IH]; [reflexivity|]. cbn [filter]. unfold nonempty at 1.
  apply beqb_false in A. rewrite A, IH. reflexivity.
Qed.
Lemma split_slash_app : forall a b, split_at slash (a ++ 47 :: b) = split_at slash a ++ split_at slash b.
Proof.
  induction a as [|c a IH]; intro b; [reflexivity|]. cbn [app split_at]. rewrite IH.
  destruct (slash c); [reflexivity|]. pose proof (split_nonempty slash a).
  destruct (split_at slash a) as [|w ws]; [congruence|]. reflexivity.
Qed.
Lemma split_plain_ : forall s, Forall (fun b => b <> 47) s -> split_at slash s = [s].
Proof.
  induction 1 as [|c r A H IH]; [reflexivity|]. cbn [split_at]. rewrite IH.
  replace (slash c) with false; [reflexivity|]. symmetry. unfold slash. apply N.eqb_neq. exact A.
Qed.

Lemma names_confined : forall dir s, ordinary dir -> name_ok s = true ->
  exists cs, cs <> [] /\ ordinary cs /\ resolve (topic_path dir s) = dir ++ cs.
Proof.
  intros dir s D H. exists (filter nonempty (split_at slash s)). split; [|split].
  - destruct (first_part s H) as (c & w & ws & ->). discriminate.
  - apply filter_ordinary. apply name_parts. exact H.
  - apply topic_resolve; auto.
Qed.
Lemma names_apart : forall dir a b, ordinary dir -> name_ok a = true -> name_ok b = true -> tidy a -> tidy b ->
  resolve (topic_path dir a) = resolve (topic_path dir b) -> a = b.
Proof.
  intros dir a b D A B TA TB. rewrite !topic_resolve by assumption. rewrite !tidy_filter by assumption.
  intro E. apply app_inv_head in E. apply split_inj. exact E.
Qed.
Lemma names_doubled : forall dir a b, ordinary dir ->
  name_ok (a ++ bs "/" ++ b) = true -> name_ok (a ++ bs "//" ++ b) = true ->
  resolve (topic_path dir (a ++ bs "//" ++ b)) = resolve (topic_path dir (a ++ bs "/" ++ b)).
Proof.
  intros dir a b D A B. rewrite !topic_resolve by assumption. f_equal.
  change (bs "//" ++ b) with (47 :: (47 :: b)). change (bs "/" ++ b) with (47 :: b).
  rewrite !split_slash_app. change (split_at slash (47 :: b)) with ([] :: split_at slash b).
  rewrite !filter_app. reflexivity.
Qed.
Lemma names_nested : forall dir a b, ordinary dir -> name_ok a = true -> name_ok (a ++ bs "/" ++ b) = true ->
  Forall (fun c => c <> []) (split_at slash b) ->
  exists cs, cs <> [] /\ resolve (topic_path dir (a ++ bs "/" ++ b)) = resolve (topic_path dir a) ++ cs.
Proof.
  intros dir a b D A B T. exists (split_at slash b). split; [apply split_nonempty|].
  rewrite !topic_resolve by assumption. change (bs "/" ++ b) with (47 :: b).
  rewrite split_slash_app, filter_app, <- app_assoc. do 2 f_equal. apply tidy_filter. exact T.
Qed.
Definition word (s : bytes) : Prop := s <> [] /\ Forall (fun b => alnum b = true \/ b = 95) s.
Lemma sanitize_word : forall s, word s -> sanitize_ns s = s.
Proof.
  intros s [_ H]. unfold sanitize_ns. induction H as [|c r A H IH]; [reflexivity|]. cbn [map]. rewrite IH.
  destruct A as [-> | ->]; reflexivity.
Qed.
Lemma word_ok : forall s x, word s -> Forall (fun b => alnum b = true \/ b = 95 \/ b = 45 \/ b = 46) x ->
  (length (s ++ x) <= 255)%nat -> name_ok (s ++ x) = true /\ split_at slash (s ++ x) = [s ++ x].
Proof.
  intros s x [NE W] X L.
  assert (C : Forall (fun b => alnum b = true \/ b = 95 \/ b = 45 \/ b = 46) (s ++ x)).
  { apply Forall_app. split; [|exact X]. eapply Forall_impl; [|exact W]. cbn beta. tauto. }
  assert (S1 : split_at slash (s ++ x) = [s ++ x]).
  { apply split_plain_. eapply Forall_impl; [|exact C]. cbn beta. intros b [A|A]; [apply alnum_not in A; lia|lia]. }
  split; [|exact S1]. unfold name_ok. apply andb_true_iff.
  assert (T : topic_name_ok (s ++ x) = true).
  { unfold topic_name_ok. rewrite !andb_true_iff, negb_true_iff, beqb_false, Nat.leb_le. repeat split; auto.
    - destruct s; [congruence|discriminate].
    - apply forallb_forall. intros b B. rewrite Forall_forall in C. rewrite !orb_true_iff, !N.eqb_eq.
      specialize (C b B). cbn beta in C. tauto. }
  split; [exact T|]. unfold region_name_ok. rewrite topic_split, S1 by exact T.
  rewrite !andb_true_iff, !negb_true_iff, beqb_false, Nat.leb_le. cbn [forallb].
  rewrite !andb_true_iff, !negb_true_iff, !beqb_false, Nat.leb_le.
  destruct s as [|c s]; [congruence|]. inversion W as [|? ? WC WS]; subst.
  assert (NC : c <> 92 /\ c <> 47 /\ c <> 0 /\ c <> 58 /\ c <> 46).
  { destruct WC as [WC| ->]; [apply alnum_not; exact WC|lia]. }
  cbn [app] in *. repeat split.
  - discriminate.
  - lia.
  - apply not_true_iff_false. intro E. apply existsb_exists in E as (b & B & E0). apply N.eqb_eq in E0. subst b.
    rewrite Forall_forall in C. specialize (C 0 B). cbn beta in C. destruct C as [C|C]; [discriminate C|lia].
  - unfold either_slash. apply orb_false_iff. rewrite !N.eqb_neq. lia.
  - destruct (s ++ x) as [|d r] eqn:E; [reflexivity|]. apply N.eqb_neq. intros ->.
    inversion C as [|? ? _ C']; subst. inversion C' as [|? ? C'' _]; subst. destruct C'' as [C''|C'']; [discriminate C''|lia].
  - intro E. inversion E. lia.
  - intro E. inversion E. lia.
  - exact L.
Qed.
Lemma names_meta : forall dir s, ordinary dir -> word s -> (length s <= 250)%nat ->
  name_ok (s ++ bs ".meta") = true /\ resolve (topic_path dir (s ++ bs ".meta")) = resolve (meta_path dir s).
Proof.
  intros dir s D W L. destruct (word_ok s (bs ".meta") W) as [O S1].
  - repeat (apply Forall_cons; [vm_compute; auto 6|]). apply Forall_nil.
  - rewrite app_length. cbn. lia.
  - split; [exact O|]. rewrite topic_path_ok by exact O. unfold meta_path. rewrite sanitize_word, S1 by exact W. reflexivity.
Qed.

(** * Creation and removal *)

Open Scope nat_scope.

(** Between complete operations. *)
Definition settled (s : files) : Prop :=
  f_clean s = false
  /\ (forall h p, nth_error (f_hs s) h = Some p -> p = Gone \/ exists i, p = Live i /\ f_path s = Some i)
  /\ (forall i, f_path s = Some i -> i < f_next s).

Lemma nth_last {A} : forall (l : list A) a h, nth_error (l ++ [a]) h = if h =? length l then Some a else nth_error l h.
Proof.
  induction l as [|b l IH]; intros a [|h]; cbn [app nth_error length Nat.eqb]; auto. destruct h; reflexivity.
Qed.
Lemma ex_store : forall (f : phase -> bool) hs h p, existsb f (store hs h p) = true ->
  (f p = true /\ h < length hs) \/ exists k q, k <> h /\ nth_error hs k = Some q /\ f q = true.
Proof.
  intros f hs h p H. apply existsb_exists in H as (q & I & F). apply In_nth_error in I as (k & K).
  rewrite store_nth in K. destruct (Nat.eqb_spec k h) as [EQ|N]; [subst h|].
  - destruct (Nat.ltb_spec k (length hs)); [|discriminate]. injection K as <-. auto.
  - right. eauto.
Qed.
Lemma ex_nth : forall (f : phase -> bool) hs k q, nth_error hs k = Some q -> f q = true -> existsb f hs = true.
Proof. intros. apply existsb_exists. exists q. split; [eapply nth_error_In; eauto|auto]. Qed.
Lemma ex_none : forall (f : phase -> bool) hs, existsb f hs = false -> forall k q, nth_error hs k = Some q -> f q = false.
Proof. intros f hs H k q K. destruct (f q) eqn:E; [|reflexivity]. rewrite <- H. symmetry. eapply ex_nth; eauto. Qed.
Lemma settled_ex : forall s i, settled s -> existsb (holds_ex i) (f_hs s) = false.
Proof.
  intros s i (_ & H & _). apply not_true_iff_false. intro E. apply existsb_exists in E as (q & I & F).
  apply In_nth_error in I as (k & K). destruct (H k q K) as [->|(j & -> & _)]; discriminate.
Qed.

(** What complete operations do. *)
Definition after (s : files) (o : file_op) : files :=
  match o with
  | New => match f_path s with
           | Some i => Files (Some i) (f_next s) (f_hs s ++ [Live i]) false
           | None => Files (Some (f_next s)) (S (f_next s)) (f_hs s ++ [Live (f_next s)]) false
           end
  | Drop h => match nth_error (f_hs s) h with
              | Some (Live i) => Files (if other_holder i h (f_hs s) then f_path s else None) (f_next s) (store (f_hs s) h Gone) false
              | _ => s
              end
  | DropAndCrash h | Kill h => Files (f_path s) (f_next s) (store (f_hs s) h Gone) false
  | Clean => match f_path s with
             | Some i => if existsb (holds i) (f_hs s) then s else Files None (f_next s) (f_hs s) false
             | None => s
             end
  end.
Lemma store_last {A} : forall (l : list A) a b, store (l ++ [a]) (length l) b = l ++ [b].
Proof. induction l as [|c l IH]; intros; cbn [app length store]; [reflexivity|]. rewrite IH. reflexivity. Qed.
Lemma store_store {A} : forall (l : list A) i a b, store (store l i a) i b = store l i b.
Proof. induction l as [|c l IH]; intros [|i] a b; cbn [store]; auto. rewrite IH. reflexivity. Qed.
Lemma store_at {A} : forall (l : list A) i a p, nth_error l i = Some p -> nth_error (store l i a) i = Some a.
Proof.
  intros. rewrite store_nth, Nat.eqb_refl. replace (i <? length l) with true; [reflexivity|].
  symmetry. apply Nat.ltb_lt. apply nth_error_Some. congruence.
Qed.
Lemma op_after : forall s o, settled s -> op_step s o = after s o.
Proof.
  intros [p n hs c] o S. pose proof (fun i => settled_ex _ i S) as EX. destruct S as (C & H & B).
  cbn [f_clean f_path f_next f_hs] in *. subst c. unfold op_step. destruct o as [|h|h|h|]; cbn [calls_of fold_left].
  - cbn [call_step f_path f_next f_hs f_clean after]. destruct p as [i|]; cbn [f_path f_next f_hs f_clean].
    + rewrite nth_last, Nat.eqb_refl. rewrite existsb_app, EX. cbn [existsb holds_ex orb]. rewrite store_last. reflexivity.
    + rewrite nth_last, Nat.eqb_refl. rewrite existsb_app, EX. cbn [existsb holds_ex orb]. rewrite store_last. reflexivity.
  - cbn [call_step f_path f_next f_hs f_clean after]. destruct (nth_error hs h) as [q|] eqn:E.
    2: { cbn [f_hs]. rewrite E. reflexivity. }
    destruct (H h q E) as [->|(i & -> & P)].
    + cbn [f_hs]. rewrite E. reflexivity.
    + cbn [f_hs f_path f_next f_clean]. rewrite (store_at _ _ _ _ E).
      destruct (other_holder i h hs); [reflexivity|]. rewrite store_store. reflexivity.
  - cbn [call_step f_path f_next f_hs f_clean after]. destruct (nth_error hs h) as [q|] eqn:E; [|reflexivity].
    destruct (H h q E) as [->|(i & -> & P)]; [reflexivity|]. cbn [f_hs f_path f_next f_clean]. rewrite store_store. reflexivity.
  - reflexivity.
  - cbn [call_step f_path f_next f_hs f_clean after]. destruct p as [i|]; [|reflexivity].
    destruct (existsb (holds i) hs); reflexivity.
Qed.
Lemma settled_after : forall s o, settled s -> settled (after s o).
Proof.
  intros [p n hs c] o S. pose proof S as (C & H & B). cbn [f_clean f_path f_next f_hs] in *. subst c.
  destruct o as [|h|h|h|]; cbn [after f_path f_next f_hs].
  - destruct p as [i|].
    + split; [reflexivity|]. cbn [f_path f_next f_hs]. split; [|exact B].
      intros k q. rewrite nth_last. destruct (k =? length hs); [|apply H]. intros [= <-]. right. exists i. auto.
    + split; [reflexivity|]. cbn [f_path f_next f_hs]. split.
      * intros k q. rewrite nth_last. destruct (k =? length hs); [intros [= <-]; right; exists n; auto|].
        intro K. destruct (H k q K) as [->|(i & _ & X)]; [auto|discriminate].
      * intros i [= <-]. lia.
  - destruct (nth_error hs h) as [q|] eqn:E; [|exact S]. destruct q as [i|i|i|]; try exact S.
    destruct (H h _ E) as [X|(j & [= <-] & P)]; [discriminate|].
    split; [reflexivity|]. cbn [f_path f_next f_hs]. destruct (other_holder i h hs) eqn:O.
    + split; [|exact B]. intros k q. rewrite store_nth. destruct (k =? h); [|apply H].
      destruct (_ <? _); [intros [= <-]; auto|discriminate].
    + split; [|discriminate]. intros k q K. left. pose proof (ex_none _ _ O k q K) as N.
      rewrite store_nth in K. destruct (k =? h); [destruct (_ <? _); [congruence|discriminate]|].
      destruct (H k q K) as [->|(j & -> & P')]; [reflexivity|]. rewrite P in P'. injection P' as <-.
      cbn [holds] in N. rewrite Nat.eqb_refl in N. discriminate.
  - split; [reflexivity|]. cbn [f_path f_next f_hs]. split; [|exact B]. intros k q. rewrite store_nth.
    destruct (k =? h); [|apply H]. destruct (_ <? _); [intros [= <-]; auto|discriminate].
  - split; [reflexivity|]. cbn [f_path f_next f_hs]. split; [|exact B]. intros k q. rewrite store_nth.
    destruct (k =? h); [|apply H]. destruct (_ <? _); [intros [= <-]; auto|discriminate].
  - destruct p as [i|]; [|exact S]. destruct (existsb (holds i) hs) eqn:E; [exact S|].
    split; [reflexivity|]. cbn [f_path f_next f_hs]. split; [|discriminate]. intros k q K. left.
    destruct (H k q K) as [->|(j & -> & [= <-])]; [reflexivity|].
    pose proof (ex_none _ _ E k _ K) as N. cbn [holds] in N. rewrite Nat.eqb_refl in N. discriminate.
Qed.
Lemma settled_none : settled no_files.
Proof. split; [reflexivity|]. split; [intros [|h] p; discriminate|discriminate]. Qed.
Lemma settled_run : forall ops s, settled s -> settled (fold_left op_step ops s).
Proof.
  induction ops as [|o ops IH]; intros s S; cbn [fold_left]; [exact S|]. apply IH. rewrite op_after by exact S.
  apply settled_after. exact S.
Qed.

Lemma settled_one : forall s, settled s -> one_memory s.
Proof. intros s (_ & H & _) h i U. destruct (H h _ U) as [E|(j & E & P)]; [discriminate|]. injection E as <-. exact P. Qed.

(** One operation, in words. *)
Lemma op_new : forall s, settled s -> exists i,
  uses (op_step s New) (length (f_hs s)) i /\ f_path (op_step s New) = Some i
  /\ (f_path s = Some i \/ (f_path s = None /\ forall h j, uses s h j -> j <> i))
  /\ forall h j, uses s h j -> uses (op_step s New) h j.
Proof.
  intros s S. rewrite op_after by exact S. pose proof S as (C & H & B). unfold uses, after.
  destruct (f_path s) as [i|] eqn:P.
  - exists i. cbn [f_hs f_path]. rewrite nth_last, Nat.eqb_refl. split; [reflexivity|]. split; [reflexivity|]. split; [auto|].
    intros h j U. rewrite nth_last. replace (h =? length (f_hs s)) with false; [exact U|]. symmetry. apply Nat.eqb_neq.
    intros ->. assert (length (f_hs s) < length (f_hs s)) by (apply nth_error_Some; congruence). lia.
  - exists (f_next s). cbn [f_hs f_path]. rewrite nth_last, Nat.eqb_refl. split; [reflexivity|]. split; [reflexivity|].
    assert (NO : forall h j, nth_error (f_hs s) h <> Some (Live j)).
    { intros h j U. destruct (H h _ U) as [X|(k & X & Y)]; congruence. }
    split; [right; split; [reflexivity|]; intros h j U; destruct (NO h j U)|]. intros h j U. destruct (NO h j U).
Qed.
Lemma other_iff : forall s h i, settled s -> uses s h i ->
  (other_holder i h (f_hs s) = true <-> exists k j, k <> h /\ uses s k j).
Proof.
  intros s h i S U. pose proof S as (C & H & B). unfold other_holder. split.
  - intro E. apply ex_store in E as [[X _]|(k & q & N & K & F)]; [discriminate X|].
    exists k. destruct (H k q K) as [->|(j & -> & _)]; [discriminate F|]. exists j. split; [exact N|exact K].
  - intros (k & j & N & K). destruct (H k _ K) as [X|(j' & X & P)]; [discriminate|]. injection X as <-.
    assert (j = i). { pose proof (settled_one s S h i U). congruence. } subst j.
    apply (ex_nth (holds i) _ k (Live i)); [|cbn; apply Nat.eqb_refl].
    rewrite store_nth. replace (k =? h) with false; [exact K|]. symmetry. apply Nat.eqb_neq. exact N.
Qed.
Lemma op_drop : forall s h i, settled s -> uses s h i ->
  (forall j, ~ uses (op_step s (Drop h)) h j)
  /\ (forall k j, k <> h -> (uses (op_step s (Drop h)) k j <-> uses s k j))
  /\ ((exists k j, k <> h /\ uses s k j) -> f_path (op_step s (Drop h)) = f_path s)
  /\ (~ (exists k j, k <> h /\ uses s k j) -> f_path (op_step s (Drop h)) = None).
Proof.
  intros s h i S U. rewrite op_after by exact S. pose proof (other_iff s h i S U) as O.
  cbn [after]. unfold uses in U. rewrite U. unfold uses. cbn [f_hs f_path]. split; [|split; [|split]].
  - intros j. rewrite (store_at _ _ _ _ U). discriminate.
  - intros k j N. rewrite store_nth. replace (k =? h) with false; [reflexivity|]. symmetry. apply Nat.eqb_neq. exact N.
  - intro E. apply O in E. rewrite E. reflexivity.
  - intro E. destruct (other_holder i h (f_hs s)); [|reflexivity]. exfalso. apply E, O. reflexivity.
Qed.
Lemma op_clean : forall s, settled s ->
  f_hs (op_step s Clean) = f_hs s
  /\ ((exists k j, uses s k j) -> f_path (op_step s Clean) = f_path s)
  /\ (~ (exists k j, uses s k j) -> f_path (op_step s Clean) = None).
Proof.
  intros s S. rewrite op_after by exact S. pose proof S as (C & H & B). cbn [after]. destruct (f_path s) as [i|] eqn:P.
  2: { split; [reflexivity|]. split; intros _; exact P. }
  destruct (existsb (holds i) (f_hs s)) eqn:E.
  - split; [reflexivity|]. split; [intros _; exact P|]. intro N. exfalso. apply N.
    apply existsb_exists in E as (q & I & F). apply In_nth_error in I as (k & K).
    destruct (H k q K) as [->|(j & -> & _)]; [discriminate F|]. exists k, j. exact K.
  - split; [reflexivity|]. split; [|reflexivity]. intros (k & j & K).
    destruct (H k _ K) as [X|(j' & X & P')]; [discriminate|]. injection X as <-.
    assert (j = i) by congruence. subst j. pose proof (ex_none _ _ E k _ K) as N. cbn in N. rewrite Nat.eqb_refl in N. discriminate.
Qed.

(** One handle stays. *)
Definition staying (k : nat) (c : call) : Prop := c <> TryExclusive k /\ c <> Crash k.
Definition kept (k i : nat) (s : files) : Prop :=
  f_clean s = false /\ f_path s = Some i /\ nth_error (f_hs s) k = Some (Live i)
  /\ forall h p, nth_error (f_hs s) h = Some p -> p = Gone \/ p = Live i \/ p = Opened i.
Lemma kept_ex : forall k i s j, kept k i s -> existsb (holds_ex j) (f_hs s) = false.
Proof.
  intros k i s j (_ & _ & _ & H). apply not_true_iff_false. intro E. apply existsb_exists in E as (q & I & F).
  apply In_nth_error in I as (h & K). destruct (H h q K) as [->|[->| ->]]; discriminate.
Qed.
Lemma kept_step : forall k i c s, staying k c -> kept k i s -> kept k i (call_step s c).
Proof.
  intros k i c s [N1 N2] K. pose proof (fun j => kept_ex k i s j K) as EX. pose proof K as (C & P & U & H).
  assert (LT : k < length (f_hs s)) by (apply nth_error_Some; congruence).
  assert (ST : forall h p, h <> k -> (p = Gone \/ p = Live i \/ p = Opened i) ->
    kept k i (Files (f_path s) (f_next s) (store (f_hs s) h p) (f_clean s))).
  { intros h p NE PP. split; [exact C|]. split; [exact P|]. cbn [f_hs]. split.
    - rewrite store_nth. replace (k =? h) with false; [exact U|]. symmetry. apply Nat.eqb_neq. auto.
    - intros h' p'. rewrite store_nth. destruct (h' =? h); [|apply H]. destruct (_ <? _); [intros [= <-]; exact PP|discriminate]. }
  destruct c as [|h|h|h|h| |]; cbn [call_step].
  - rewrite P. split; [exact C|]. split; [reflexivity|]. cbn [f_hs]. split.
    + rewrite nth_last. replace (k =? length (f_hs s)) with false; [exact U|]. symmetry. apply Nat.eqb_neq. lia.
    + intros h p. rewrite nth_last. destruct (h =? length (f_hs s)); [intros [= <-]; auto|apply H].
  - destruct (nth_error (f_hs s) h) as [q|] eqn:E; [|exact K]. destruct q as [j|j|j|]; try exact K.
    rewrite EX. destruct (H h _ E) as [X|[X|[= ->]]]; [discriminate|discriminate|]. apply ST; [congruence|auto].
  - destruct (nth_error (f_hs s) h) as [q|] eqn:E; [|exact K]. destruct q as [j|j|j|]; try exact K.
    destruct (H h _ E) as [X|[[= ->]|X]]; [discriminate| |discriminate].
    assert (NE : h <> k) by congruence.
    replace (other_holder i h (f_hs s)) with true; [apply ST; auto|]. symmetry. unfold other_holder.
    apply (ex_nth _ _ k (Live i)); [|cbn; apply Nat.eqb_refl]. rewrite store_nth.
    replace (k =? h) with false; [exact U|]. symmetry. apply Nat.eqb_neq. auto.
  - destruct (nth_error (f_hs s) h) as [q|] eqn:E; [|exact K]. destruct q as [j|j|j|]; try exact K.
    destruct (H h _ E) as [X|[X|X]]; discriminate.
  - apply ST; [congruence|auto].
  - rewrite P. replace (existsb (holds i) (f_hs s)) with true; [exact K|]. symmetry.
    apply (ex_nth _ _ k (Live i)); [exact U|cbn; apply Nat.eqb_refl].
  - rewrite C. exact K.
Qed.
Lemma kept_run : forall k i cs s, Forall (staying k) cs -> kept k i s -> kept k i (fold_left call_step cs s).
Proof.
  intros k i. induction cs as [|c cs IH]; intros s F K; cbn [fold_left]; [exact K|]. inversion F; subst. apply IH; auto using kept_step.
Qed.
Lemma kept_start : forall s k i, settled s -> uses s k i -> kept k i s.
Proof.
  intros s k i S U. pose proof S as (C & H & B). pose proof (settled_one s S k i U) as P.
  split; [exact C|]. split; [exact P|]. split; [exact U|]. intros h p E. destruct (H h p E) as [->|(j & -> & Q)]; [auto|].
  right. left. congruence.
Qed.

(** Races. *)
Definition join_race (h n : nat) : list call :=
  [CreateOrOpen; TryExclusive h; Unlink h; LockShared n; CreateOrOpen; LockShared (S n)].
Lemma ex_app_gone : forall (f : phase -> bool) hs h, (forall k q, k <> h -> nth_error hs k = Some q -> f q = false) ->
  f Gone = false -> existsb f (store hs h Gone) = false.
Proof.
  intros f hs h H G. apply not_true_iff_false. intro E. apply ex_store in E as [[X _]|(k & q & N & K & F)]; [congruence|].
  rewrite (H k q N K) in F. discriminate.
Qed.
Lemma store_app {A} : forall (l r : list A) i a, i < length l -> store (l ++ r) i a = store l i a ++ r.
Proof. induction l as [|b l IH]; intros r i a L; cbn [length] in L; [lia|]. destruct i; cbn [app store]; [reflexivity|]. rewrite IH by lia. reflexivity. Qed.
Lemma sole_gone : forall s h i, settled s -> uses s h i -> (forall k j, uses s k j -> k = h) ->
  Forall (fun p => p = Gone) (store (f_hs s) h Gone).
Proof.
  intros s h i S U SO. pose proof S as (_ & H & _). apply Forall_forall. intros q I. apply In_nth_error in I as (k & K).
  rewrite store_nth in K. destruct (Nat.eqb_spec k h) as [EQ|NE]; [subst h|].
  - destruct (_ <? _); [congruence|discriminate].
  - destruct (H k q K) as [->|(j & -> & _)]; [reflexivity|]. destruct (NE (SO k j K)).
Qed.
Lemma gone_ex : forall (f : phase -> bool) hs, Forall (fun p => p = Gone) hs -> f Gone = false -> existsb f hs = false.
Proof. intros f hs H G. induction H as [|p hs -> H IH]; [reflexivity|]. cbn [existsb]. rewrite G, IH. reflexivity. Qed.
Lemma race_join : forall s h i, settled s -> uses s h i -> (forall k j, uses s k j -> k = h) ->
  let n := length (f_hs s) in
  let t := fold_left call_step (join_race h n) s in
  (uses t n i /\ exists j, uses t (S n) j /\ i <> j /\ f_path t = Some j)
  /\ (let u := fold_left call_step [TryExclusive n; Unlink n] t in
      f_path u = None /\ exists j, uses u (S n) j).
Proof.
  intros s h i S U SO n. pose proof (sole_gone s h i S U SO) as G. pose proof (settled_one s S h i U) as P.
  pose proof S as (C & _ & B). specialize (B i P). destruct s as [p nx hs c]. cbn [f_path f_next f_hs f_clean] in *. subst p c.
  unfold uses in U. cbn [f_hs] in U.
  assert (LT : h < length hs) by (apply nth_error_Some; congruence).
  assert (NH : (h =? length hs) = false) by (apply Nat.eqb_neq; lia).
  unfold join_race. cbn [fold_left]. set (gs := store hs h Gone) in *.
  assert (LG : length gs = n) by (unfold gs, n; cbn [f_hs]; apply store_length).
  set (s1 := call_step (Files (Some i) nx hs false) CreateOrOpen).
  assert (E1 : s1 = Files (Some i) nx (hs ++ [Opened i]) false) by reflexivity. rewrite E1. clear E1 s1.
  set (s2 := call_step (Files (Some i) nx (hs ++ [Opened i]) false) (TryExclusive h)).
  assert (E2 : s2 = Files (Some i) nx (store hs h (Closing i) ++ [Opened i]) false).
  { unfold s2. cbn [call_step f_hs f_path f_next f_clean]. rewrite nth_last, NH, U.
    unfold other_holder. rewrite !store_app by exact LT. fold gs. rewrite existsb_app, (gone_ex _ _ G) by reflexivity.
    reflexivity. }
  rewrite E2. clear E2 s2.
  set (s3 := call_step _ (Unlink h)).
  assert (E3 : s3 = Files None nx (gs ++ [Opened i]) false).
  { unfold s3. cbn [call_step f_hs f_path f_next f_clean]. rewrite nth_last, store_length, NH, (store_at _ _ _ _ U).
    rewrite store_app by (rewrite store_length; exact LT). rewrite store_store. reflexivity. }
  rewrite E3. clear E3 s3.
  set (s4 := call_step _ (LockShared n)).
  assert (E4 : s4 = Files None nx (gs ++ [Live i]) false).
  { unfold s4. cbn [call_step f_hs f_path f_next f_clean]. rewrite nth_last, LG, Nat.eqb_refl.
    rewrite existsb_app, (gone_ex _ _ G) by reflexivity. cbn [existsb holds_ex orb].
    rewrite <- LG, store_last. reflexivity. }
  rewrite E4. clear E4 s4.
  set (s5 := call_step _ CreateOrOpen).
  assert (E5 : s5 = Files (Some nx) (Datatypes.S nx) ((gs ++ [Live i]) ++ [Opened nx]) false) by reflexivity. rewrite E5. clear E5 s5.
  set (s6 := call_step _ (LockShared _)).
  assert (L6 : length (gs ++ [Live i]) = Datatypes.S n) by (rewrite app_length; cbn; lia).
  assert (E6 : s6 = Files (Some nx) (Datatypes.S nx) ((gs ++ [Live i]) ++ [Live nx]) false).
  { unfold s6. cbn [call_step f_hs f_path f_next f_clean]. rewrite nth_last, L6, Nat.eqb_refl.
    rewrite !existsb_app, (gone_ex _ _ G) by reflexivity. cbn [existsb holds_ex orb].
    rewrite <- L6, store_last. reflexivity. }
  rewrite E6. clear E6 s6. cbv zeta.
  assert (NN : (n =? Datatypes.S n) = false) by (apply Nat.eqb_neq; lia).
  split.
  - unfold uses. cbn [f_hs f_path]. split.
    + rewrite nth_last, L6, NN, nth_last, LG, Nat.eqb_refl. reflexivity.
    + exists nx. rewrite nth_last, L6, Nat.eqb_refl. split; [reflexivity|]. split; [lia|reflexivity].
  - set (s7 := call_step _ (TryExclusive n)).
    assert (E7 : s7 = Files (Some nx) (Datatypes.S nx) ((gs ++ [Closing i]) ++ [Live nx]) false).
    { unfold s7. cbn [call_step f_hs f_path f_next f_clean]. rewrite nth_last, L6, NN, nth_last, LG, Nat.eqb_refl.
      unfold other_holder. rewrite !(store_app (gs ++ [Live i])) by lia.
      rewrite <- LG, !store_last. rewrite !existsb_app, (gone_ex _ _ G) by reflexivity. cbn [existsb holds orb].
      replace (i =? nx) with false by (symmetry; apply Nat.eqb_neq; lia). reflexivity. }
    rewrite E7. clear E7 s7.
    assert (L8 : length (gs ++ [Closing i]) = Datatypes.S n) by (rewrite app_length; cbn; lia).
    cbn [call_step f_hs f_path f_next f_clean]. rewrite nth_last, L8, NN, nth_last, LG, Nat.eqb_refl. cbn [f_path].
    split; [reflexivity|]. exists nx. unfold uses. cbn [f_hs]. rewrite store_nth, nth_last, L8, Nat.eqb_refl.
    replace (Datatypes.S n =? n) with false by (symmetry; apply Nat.eqb_neq; lia). reflexivity.
Qed.

Definition clean_race (n : nat) : list call :=
  [CheckStale; CreateOrOpen; LockShared n; RemoveStale; CreateOrOpen; LockShared (S n)].
Lemma race_clean : forall s i, settled s -> f_path s = Some i -> (forall k j, ~ uses s k j) ->
  let n := length (f_hs s) in
  let t := fold_left call_step (clean_race n) s in
  uses t n i /\ exists j, uses t (S n) j /\ i <> j /\ f_path t = Some j.
Proof.
  intros s i S P NO n. pose proof S as (C & H & B). specialize (B i P).
  destruct s as [p nx hs c]. cbn [f_path f_next f_hs f_clean] in *. subst p c.
  assert (G : Forall (fun p => p = Gone) hs).
  { apply Forall_forall. intros q I. apply In_nth_error in I as (k & K). destruct (H k q K) as [->|(j & -> & _)]; [reflexivity|].
    destruct (NO k j K). }
  unfold clean_race. cbn [fold_left].
  set (s1 := call_step (Files (Some i) nx hs false) CheckStale).
  assert (E1 : s1 = Files (Some i) nx hs true).
  { unfold s1. cbn [call_step f_path f_hs f_next f_clean]. rewrite (gone_ex _ _ G) by reflexivity. reflexivity. }
  rewrite E1. clear E1 s1.
  set (s2 := call_step (Files (Some i) nx hs true) CreateOrOpen).
  assert (E2 : s2 = Files (Some i) nx (hs ++ [Opened i]) true) by reflexivity. rewrite E2. clear E2 s2.
  set (s3 := call_step (Files (Some i) nx (hs ++ [Opened i]) true) (LockShared n)).
  assert (E3 : s3 = Files (Some i) nx (hs ++ [Live i]) true).
  { unfold s3, n. cbn [call_step f_hs f_path f_next f_clean]. rewrite nth_last, Nat.eqb_refl.
    rewrite existsb_app, (gone_ex _ _ G) by reflexivity. cbn [existsb holds_ex orb]. rewrite store_last. reflexivity. }
  rewrite E3. clear E3 s3.
  set (s4 := call_step (Files (Some i) nx (hs ++ [Live i]) true) RemoveStale).
  assert (E4 : s4 = Files None nx (hs ++ [Live i]) false) by reflexivity. rewrite E4. clear E4 s4.
  set (s5 := call_step (Files None nx (hs ++ [Live i]) false) CreateOrOpen).
  assert (E5 : s5 = Files (Some nx) (Datatypes.S nx) ((hs ++ [Live i]) ++ [Opened nx]) false) by reflexivity.
  rewrite E5. clear E5 s5.
  assert (L6 : length (hs ++ [Live i]) = Datatypes.S n) by (rewrite app_length; unfold n; cbn; lia).
  set (s6 := call_step _ (LockShared _)).
  assert (E6 : s6 = Files (Some nx) (Datatypes.S nx) ((hs ++ [Live i]) ++ [Live nx]) false).
  { unfold s6. cbn [call_step f_hs f_path f_next f_clean]. rewrite nth_last, L6, Nat.eqb_refl.
    rewrite !existsb_app, (gone_ex _ _ G) by reflexivity. cbn [existsb holds_ex orb]. rewrite <- L6, store_last. reflexivity. }
  rewrite E6. clear E6 s6. cbv zeta. unfold uses. cbn [f_hs f_path]. split.
  - rewrite nth_last, L6. replace (n =? Datatypes.S n) with false by (symmetry; apply Nat.eqb_neq; lia).
    rewrite nth_last. unfold n. cbn [f_hs]. rewrite Nat.eqb_refl. reflexivity.
  - exists nx. rewrite nth_last, L6, Nat.eqb_refl. split; [reflexivity|]. split; [lia|reflexivity].
Qed.

(** * Sizes *)

(** Same size for all, any interleaving. *)
Definition fitting (n : nat) (s : sized) : Prop :=
  (z_len s = None -> z_hs s = []) /\
  (forall l, z_len s = Some l -> l = 0 \/ l = n) /\
  forall h p, nth_error (z_hs s) h = Some p ->
    match p with
    | SCreated m | SJoining m => m = n
    | SClearing m | SMapped m => m = n /\ z_len s = Some n
    | SSeen m seen => m = n /\ (seen = 0 \/ (seen = n /\ z_len s = Some n))
    end.
Lemma fitting_step : forall n c s, same_size n c -> fitting n s -> fitting n (scall_step s c).
Proof.
  intros n c [len d hs] SZ F. pose proof F as (F1 & F2 & F3). cbn [z_len z_hs z_data] in *.
  assert (SET : forall len' d' h p, (len' = len \/ len' = Some n) -> len <> None ->
    match p with
    | SCreated m | SJoining m => m = n
    | SClearing m | SMapped m => m = n /\ len' = Some n
    | SSeen m seen => m = n /\ (seen = 0 \/ (seen = n /\ len' = Some n))
    end -> fitting n (Sized len' d' (store hs h p))).
  { intros len' d' h p L NN P. split; [|split]; cbn [z_len z_hs].
    - intros ->. destruct L as [L|L]; [symmetry in L; contradiction|discriminate].
    - intros l ->. destruct L as [L|L]; [apply F2; congruence|]. injection L as ->. auto.
    - intros k q. rewrite store_nth. destruct (k =? h).
      + destruct (_ <? _); [intros [= <-]; exact P|discriminate].
      + intro K. specialize (F3 k q K). destruct L as [->| ->]; [exact F3|]. destruct q; try exact F3; tauto. }
  assert (NN : forall h p, nth_error hs h = Some p -> len <> None).
  { intros h p K ->. rewrite F1 in K by reflexivity. destruct h; discriminate. }
  destruct c as [m|h|h|h|h|h v|h m]; cbn [scall_step z_len z_hs z_data]; cbn [same_size] in SZ.
  - subst m. destruct len as [l|].
    + split; [discriminate|]. split; [exact F2|]. cbn [z_len z_hs]. intros k q. rewrite nth_last.
      destruct (k =? length hs); [intros [= <-]; reflexivity|apply F3].
    + rewrite (F1 eq_refl). split; [discriminate|]. split; [intros l [= <-]; auto|]. cbn [z_len z_hs app].
      intros [|k] q; [intros [= <-]; reflexivity|destruct k; discriminate].
  - destruct (nth_error hs h) as [q|] eqn:E; [|exact F]. destruct q as [m|m|m|m x|m]; try exact F.
    pose proof (F3 h _ E) as ->. apply SET; eauto.
  - destruct (nth_error hs h) as [q|] eqn:E; [|exact F]. destruct q as [m|m|m|m x|m]; try exact F.
    pose proof (F3 h _ E) as [-> ->]. apply SET; eauto.
  - destruct (nth_error hs h) as [q|] eqn:E; [|exact F]. destruct q as [m|m|m|m x|m]; try exact F.
    pose proof (F3 h _ E) as ->. destruct len as [l|]; [|exact F]. apply SET; [auto|discriminate|].
    split; [reflexivity|]. destruct (F2 l eq_refl) as [->| ->]; auto.
  - destruct (nth_error hs h) as [q|] eqn:E; [|exact F]. destruct q as [m|m|m|m x|m]; try exact F.
    pose proof (F3 h _ E) as [-> X]. pose proof (NN h _ E) as NL. destruct (Nat.ltb_spec x n) as [LT|GE].
    + apply SET; auto.
    + destruct X as [->|[-> ->]]; [|apply SET; auto]. assert (n = 0) as -> by lia. apply SET; auto.
      split; [reflexivity|]. destruct len as [l|]; [|congruence]. destruct (F2 l eq_refl) as [->| ->]; reflexivity.
  - destruct (nth_error hs h) as [q|] eqn:E; [|exact F]. destruct q as [m|m|m|m x|m]; exact F.
  - destruct SZ.
Qed.
Lemma fitting_run : forall n cs s, Forall (same_size n) cs -> fitting n s -> fitting n (fold_left scall_step cs s).
Proof.
  intros n. induction cs as [|c cs IH]; intros s F K; cbn [fold_left]; [exact K|]. inversion F; subst. apply IH; auto using fitting_step.
Qed.
Lemma fitting_none : forall n, fitting n no_sized.
Proof. intro n. split; [reflexivity|]. split; [discriminate|]. intros [|h] p; discriminate. Qed.
Lemma fitting_end : forall n s, fitting n s -> ~ past_end s.
Proof. intros n s (_ & _ & F) (h & m & l & K & L & LT). destruct (F h _ K) as [-> L']. rewrite L in L'. injection L' as ->. lia. Qed.

(** One at a time. *)
Definition resting (s : sized) : Prop :=
  (z_len s = None -> z_hs s = [] /\ z_data s = None) /\
  forall h p, nth_error (z_hs s) h = Some p -> exists m l, p = SMapped m /\ z_len s = Some l /\ m <= l.
Lemma new_result : forall s n, resting s -> sop_step s (ONew n) =
  match z_len s with
  | None => Sized (Some n) None [SMapped n]
  | Some l => Sized (Some (Nat.max l n)) (z_data s) (z_hs s ++ [SMapped (Nat.max l n)])
  end.
Proof.
  intros [len d hs] n (R1 & R2). cbn [z_len z_hs z_data] in *. unfold sop_step. cbn [scalls_of fold_left z_hs].
  destruct len as [l|].
  - set (s1 := scall_step _ (SOpen n)).
    assert (E1 : s1 = Sized (Some l) d (hs ++ [SJoining n])) by reflexivity. rewrite E1. clear E1 s1.
    cbn [scall_step z_len z_hs z_data]. rewrite nth_last, Nat.eqb_refl. cbn [z_len z_hs z_data].
    rewrite nth_last, Nat.eqb_refl. cbn [z_len z_hs z_data]. rewrite nth_last, Nat.eqb_refl. cbn [z_len z_hs z_data].
    rewrite store_last, nth_last, Nat.eqb_refl. rewrite !store_last.
    destruct (Nat.ltb_spec l n); [rewrite Nat.max_r by lia|rewrite Nat.max_l by lia]; reflexivity.
  - destruct (R1 eq_refl) as [-> ->]. cbn [length]. reflexivity.
Qed.
Lemma resting_step : forall s o, resting s ->
  (forall h new l, o = OGrow h new -> z_len s = Some l -> l <= new) -> resting (sop_step s o).
Proof.
  intros s o R OK. destruct o as [n|h v|h new].
  - rewrite new_result by exact R. destruct R as [R1 R2]. destruct (z_len s) as [l|].
    + split; [discriminate|]. cbn [z_len z_hs]. intros k q. rewrite nth_last. destruct (k =? length (z_hs s)).
      * intros [= <-]. eauto.
      * intro K. destruct (R2 k q K) as (m & l' & -> & [= <-] & LE). exists m, (Nat.max l n). repeat split. lia.
    + split; [discriminate|]. cbn [z_len z_hs]. intros [|k] q; [intros [= <-]; eauto|destruct k; discriminate].
  - unfold sop_step. cbn [scalls_of fold_left scall_step]. destruct (nth_error (z_hs s) h) as [q|] eqn:E; [|exact R].
    destruct q; try exact R. destruct R as [R1 R2]. split; [|exact R2]. cbn [z_len z_hs z_data]. intro N. exfalso.
    destruct (R2 h _ E) as (m & l & _ & L & _). congruence.
  - unfold sop_step. cbn [scalls_of fold_left scall_step]. destruct (nth_error (z_hs s) h) as [q|] eqn:E; [|exact R].
    destruct q as [m|m|m|m x|m]; try exact R. destruct (Nat.ltb_spec m new) as [LT|]; [|exact R].
    destruct R as [R1 R2]. destruct (R2 h _ E) as (m' & l & _ & L & _). pose proof (OK h new l eq_refl L).
    split; [discriminate|]. cbn [z_len z_hs]. intros k q. rewrite store_nth. destruct (k =? h).
    + destruct (_ <? _); [intros [= <-]; eauto|discriminate].
    + intro K. destruct (R2 k q K) as (m2 & l2 & -> & L2 & LE). rewrite L in L2. injection L2 as <-.
      exists m2, new. repeat split. lia.
Qed.
Lemma resting_run : forall os s, resting s -> careful s os -> resting (fold_left sop_step os s).
Proof.
  induction os as [|o os IH]; intros s R C; cbn [fold_left]; [exact R|]. destruct C as [C1 C2]. apply IH; [|exact C2].
  apply resting_step; auto.
Qed.
Lemma resting_none : resting no_sized.
Proof. split; [auto|]. intros [|h] p; discriminate. Qed.
Lemma resting_end : forall s, resting s -> ~ past_end s.
Proof. intros s (_ & R) (h & n & l & K & L & LT). destruct (R h _ K) as (m & l' & [= <-] & L' & LE). rewrite L in L'. injection L' as <-. lia. Qed.
Lemma new_keeps : forall s n, resting s -> z_data (sop_step s (ONew n)) = z_data s.
Proof.
  intros s n R. rewrite new_result by exact R. destruct R as [R1 _]. destruct (z_len s); [reflexivity|].
  destruct (R1 eq_refl) as [_ ->]. reflexivity.
Qed.
