(** Properties of images sent over topics: C121 and C122. *)
From Verif.Base Require Import Prelude.
From Coq Require Import Permutation.
From Verif.Model Require Import TensorPool ImageTopic.
From Verif.Spec Require Import TensorPoolSpec ImageTopicSpec.
From Verif.Proofs Require Import TensorPoolProofs ImageTopicProofs.
Local Open Scope N_scope.

Lemma references_perm d l m : Permutation l m -> references d l = references d m.
Proof. intros P. unfold references. f_equal. induction P as [|x l m P IH|x y l|l m n P1 IH1 P2 IH2]; cbn [filter]; [reflexivity|destruct (desc_eqb d x); cbn [length]; congruence|destruct (desc_eqb d x), (desc_eqb d y); reflexivity|congruence]. Qed.
(** At every moment of every history in which no process is killed, an image a program holds is valid memory of the pool; its count is the number of those who
    have it, programs and topics; and two different images share no byte. *)
Theorem C121_counted_partial :
  forall (max_slots : nat) (pool_size alignment : N) (threads topics : nat) (l : list iact),
    1 <= alignment -> pool_size + alignment <= U64 -> proper max_slots pool_size alignment [] (images_init max_slots threads topics) l ->
    let s := irun max_slots pool_size alignment (images_init max_slots threads topics) l in
    (forall d, In d (i_held s) -> data_slice_ok max_slots pool_size (i_pool s) d = true /\ validate_descriptor max_slots pool_size (i_pool s) d = true /\
       d_off d + d_size d <= pool_size /\ sl_ref (p_slots (i_pool s) (d_slot d)) = references d (holders s)) /\
    (forall a b, In a (i_held s) -> In b (i_held s) -> ~ same_tensor a b -> ~ overlap a b).
Proof.
  intros ms ps al k n l Ha Hp Pr s. destruct (J_run ms ps al k Ha Hp l [] _ [] (J_init ms ps al k n) Pr) as (made & acts & H & _). fold s in H. pose proof H as (C & E & _ & Q & _).
  assert (Hh : forall d, In d (i_held s) -> In d (p_handles (i_pool s))) by (intros d I; eapply in_holders; [exact H|unfold holders; apply in_or_app; left; exact I]).
  destruct (C12_main ms ps al Ha Hp k acts C) as [M1 M2]. rewrite <- E in M1, M2. split.
  - intros d I. destruct (M1 d (Hh d I)) as (A & B & D). split; [exact D|]. split; [|split; [exact A|rewrite <- B; apply references_perm; exact Q]].
    pose proof (live_valid ms ps al k acts d Ha Hp C) as V. cbv zeta in V. rewrite <- E in V. apply V, Hh, I.
  - intros a b Ia Ib. apply M2; auto.
Qed.
Print Assumptions C121_counted_partial.
(** When the programs have dropped their images and topics, and no call is under way, every slot of the pool is free. *)
Theorem C121_freed_partial :
  forall (max_slots : nat) (pool_size alignment : N) (threads topics : nat) (l : list iact),
    1 <= alignment -> pool_size + alignment <= U64 -> proper max_slots pool_size alignment [] (images_init max_slots threads topics) l ->
    let s := irun max_slots pool_size alignment (images_init max_slots threads topics) l in
    holders s = [] -> (forall t pc, nth_error (p_pcs (i_pool s)) t = Some pc -> pc = PIdle) -> Permutation (p_free (i_pool s)) (all_slots max_slots).
Proof.
  intros ms ps al k n l Ha Hp Pr s Z T. destruct (J_run ms ps al k Ha Hp l [] _ [] (J_init ms ps al k n) Pr) as (made & acts & H & _). fold s in H. destruct H as (C & E & _ & Q & _).
  rewrite Z in Q. apply Permutation_sym, Permutation_nil in Q. pose proof (no_leak ms ps al Ha Hp k acts C) as N. cbv zeta in N. rewrite <- E in N. apply N; assumption.
Qed.
Print Assumptions C121_freed_partial.
(** One program receives while another still has the image, and keeps it when the sender drops it. *)
Definition ex_images : list iact := [INew 0 [4] 4; IStep 0; ISend 0 0 (Desc 1 1 0 16); IRecv 1 (Desc 1 1 0 16); IRecv 2 (Desc 1 1 0 16); IDrop 0 (Desc 1 1 0 16); IStep 0; IClose 0; IRelease 0 (Desc 1 1 0 16); IDrop 1 (Desc 1 1 0 16)].
Example C121_ex : proper 2 4096 64 [] (images_init 2 3 1) ex_images /\ holders (irun 2 4096 64 (images_init 2 3 1) ex_images) = [Desc 1 1 0 16] /\
  holders (irun 2 4096 64 (images_init 2 3 1) (ex_images ++ [IDrop 2 (Desc 1 1 0 16); IStep 2])) = [].
Proof. split; [vm_compute; tauto|split; vm_compute; reflexivity]. Qed.

Lemma run_prefix ms ps al k : 1 <= al -> ps + al <= U64 -> forall l made s acts l2, J ms ps al k made s acts -> proper ms ps al made s (l ++ l2) ->
  exists made' acts', J ms ps al k made' (irun ms ps al s l) acts' /\ proper ms ps al made' (irun ms ps al s l) l2.
Proof.
  intros Ha Hp. induction l as [|a l IH]; intros made s acts l2 H Pr; cbn [app irun fold_left proper] in *; [eauto|]. destruct Pr as [F Pr]. destruct (J_step ms ps al k Ha Hp made s acts a H F) as [acts1 H1]. exact (IH _ _ _ _ H1 Pr).
Qed.
Lemma proper_incl ms ps al q : forall m m' s, incl m m' -> proper ms ps al m s q -> proper ms ps al m' s q.
Proof.
  induction q as [|a q IH]; intros m m' s S Pr; cbn [proper] in *; [exact I|]. destruct Pr as [A B]. split; [destruct a; auto|]. eapply IH; [|exact B]. apply incl_app; [apply incl_appl, incl_refl|apply incl_appr, S].
Qed.
(** A topic keeps what was last sent on it: whoever receives it gets it, whatever else happened, as long as the handle sends nothing more. *)
Theorem C122_latest :
  forall (max_slots : nat) (pool_size alignment : N) (threads topics : nat) (l : list iact) (h t : nat) (d : desc),
    1 <= alignment -> pool_size + alignment <= U64 -> proper max_slots pool_size alignment [] (images_init max_slots threads topics) l ->
    let s := irun max_slots pool_size alignment (images_init max_slots threads topics) l in
    nth_error (i_keep s) h = Some (Some d) -> idle (i_pool s) t = true -> i_held (istep max_slots pool_size alignment s (IRecv t d)) = d :: i_held s.
Proof.
  intros ms ps al k n l h t d Ha Hp Pr s K T. destruct (J_run ms ps al k Ha Hp l [] _ [] (J_init ms ps al k n) Pr) as (made & acts & H & _). fold s in H. pose proof H as (C & E & _).
  assert (I : In d (p_handles (i_pool s))). { eapply in_holders; [exact H|]. unfold holders. apply in_or_app. right. apply in_or_app. left. unfold kept. apply in_flat_map. exists (Some d). split; [eapply nth_error_In; exact K|left; reflexivity]. }
  destruct (live_ref ms ps al k Ha Hp acts d C) as [r R]; [rewrite <- E; exact I|]. rewrite <- E in R. destruct (retain_live ms (i_pool s) t d r R) as [_ R2]. cbn [istep]. rewrite T, R2. reflexivity.
Qed.
Print Assumptions C122_latest.
(** An image that nobody has any more is not received: no program gets memory that may belong to another image by now. *)
Theorem C122_gone :
  forall (max_slots : nat) (pool_size alignment : N) (threads topics : nat) (l l2 : list iact) (t : nat) (d : desc),
    1 <= alignment -> pool_size + alignment <= U64 -> proper max_slots pool_size alignment [] (images_init max_slots threads topics) (l ++ l2) ->
    In d (i_held (irun max_slots pool_size alignment (images_init max_slots threads topics) l)) ->
    let s := irun max_slots pool_size alignment (images_init max_slots threads topics) (l ++ l2) in
    ~ In d (holders s) -> istep max_slots pool_size alignment s (IRecv t d) = s.
Proof.
  intros ms ps al k n l l2 t d Ha Hp Pr I s G. destruct (run_prefix ms ps al k Ha Hp l [] _ [] l2 (J_init ms ps al k n) Pr) as (made & acts & H & Pr2). set (s1 := irun ms ps al (images_init ms k n) l) in *.
  assert (Hi : In d (issues (snd (run ms ps al (pool_init ms k) acts)))). { pose proof H as (_ & _ & _ & _ & X). apply X. eapply in_holders; [exact H|]. unfold holders. apply in_or_app. left. exact I. }
  assert (H' : J ms ps al k (d :: made) s1 acts) by (eapply J_more; [exact H|]; intros x [<-|Hx]; [exact Hi|]; destruct H as (_ & _ & M & _); apply M, Hx).
  assert (Pr3 : proper ms ps al (d :: made) s1 l2) by (eapply proper_incl; [|exact Pr2]; apply incl_tl, incl_refl).
  destruct (J_run ms ps al k Ha Hp l2 _ _ _ H' Pr3) as (made' & acts' & F & Sub). assert (Es : irun ms ps al s1 l2 = s) by (unfold s, s1, irun; rewrite fold_left_app; reflexivity). rewrite Es in F. destruct F as (C & E & M & Q & _).
  pose proof (stale_inert ms ps al k acts' d t Ha Hp C) as St. destruct (run ms ps al (pool_init ms k) acts') as [st o]. cbn [fst snd] in *. subst st. destruct St as [St _]; [apply M, Sub; left; reflexivity|intros X; apply G; eapply Permutation_in; [exact Q|exact X]|].
  cbn [istep]. rewrite St. destruct (idle (i_pool s) t); [destruct s; reflexivity|reflexivity].
Qed.
Print Assumptions C122_gone.
Lemma last_app (ds : list desc) z : last (map Some (ds ++ [z])) None = Some z.
Proof. rewrite map_app. cbn [map]. apply last_last. Qed.
(** Found: a topic keeps only the last image sent.  Of several images that a program sends and gives away before anyone reads, every one but the last is gone: receiving it
    gives nothing. *)
Theorem C122_backlog_refuted :
  forall (max_slots : nat) (pool_size alignment : N) (threads topics : nat) (l : list iact) (t h : nat) (ds : list desc) (z : desc) (rest : list desc),
    1 <= alignment -> pool_size + alignment <= U64 -> proper max_slots pool_size alignment [] (images_init max_slots threads topics) l ->
    let s := irun max_slots pool_size alignment (images_init max_slots threads topics) l in
    idle (i_pool s) t = true -> nth_error (i_keep s) h = Some None -> Permutation (i_held s) (ds ++ z :: rest) -> NoDup (ds ++ [z]) ->
    (forall d, In d ds -> ~ In d (rest ++ kept (i_keep s) ++ i_due s)) ->
    let s' := irun max_slots pool_size alignment s (send_all t h None (ds ++ [z])) in
    (forall d u, In d ds -> istep max_slots pool_size alignment s' (IRecv u d) = s') /\
    (forall u, idle (i_pool s') u = true -> i_held (istep max_slots pool_size alignment s' (IRecv u z)) = z :: i_held s').
Proof.
  intros ms ps al k n l t h ds z rest Ha Hp Pr s T K Q Nd Fr s'. assert (L : (h < length (i_keep s))%nat) by (apply nth_error_Some; congruence).
  assert (Kb : kept_by (i_keep s) h = None) by (unfold kept_by; rewrite K; reflexivity). assert (Q' : Permutation (i_held s) ((ds ++ [z]) ++ rest)) by (rewrite <- app_assoc; exact Q).
  assert (Pr' : proper ms ps al [] (images_init ms k n) (l ++ send_all t h None (ds ++ [z]))).
  { assert (X : forall l made s0, proper ms ps al made s0 l -> irun ms ps al s0 l = s -> proper ms ps al made s0 (l ++ send_all t h None (ds ++ [z]))).
    { induction l0 as [|a l0 IH]; intros made s0 P0 E; cbn [app proper irun fold_left] in *; [subst s0; apply (fun m => proj1 (sends_book ms ps al t h (ds ++ [z]) None s m rest T L Kb Q'))|]. destruct P0 as [A B]. split; [exact A|]. apply IH; assumption. }
    apply X; [exact Pr|reflexivity]. }
  destruct (sends_book ms ps al t h (ds ++ [z]) None s [] rest T L Kb Q') as [_ (B1 & B2 & B3 & B4)]. fold s' in B1, B2, B3, B4. rewrite last_app in B3.
  assert (Es : irun ms ps al (images_init ms k n) (l ++ send_all t h None (ds ++ [z])) = s') by (unfold s', s, irun; rewrite fold_left_app; reflexivity).
  assert (Kp : Permutation (kept (i_keep s')) (z :: kept (i_keep s))). { pose proof (kept_put h (Some z) (i_keep s) L) as P. rewrite Kb in P. cbn [opt app] in P. rewrite B3. exact P. }
  split.
  - intros d u I. pose proof (C122_gone ms ps al k n l (send_all t h None (ds ++ [z])) u d Ha Hp Pr') as G. cbv zeta in G. rewrite Es in G. apply G.
    + change (In d (i_held s)). eapply Permutation_in; [symmetry; exact Q|apply in_or_app; left; exact I].
    + unfold holders. intros X. assert (Y : In d (rest ++ z :: kept (i_keep s) ++ i_due s)). { apply in_app_iff in X as [X|X]; [apply in_or_app; left; eapply Permutation_in; [exact B1|exact X]|]. apply in_or_app. right. rewrite B2 in X. apply in_app_iff in X as [X|X]; [|right; apply in_or_app; right; exact X]. eapply Permutation_in in X; [|exact Kp]. destruct X as [X|X]; [left; exact X|right; apply in_or_app; left; exact X]. }
      assert (Dz : d <> z) by (intros ->; apply NoDup_remove_2 in Nd; rewrite app_nil_r in Nd; exact (Nd I)). apply (Fr d I). apply in_app_iff in Y as [Y|[Y|Y]]; [apply in_or_app; left; exact Y|congruence|apply in_or_app; right; exact Y].
  - intros u U. pose proof (C122_latest ms ps al k n (l ++ send_all t h None (ds ++ [z])) h u z Ha Hp Pr') as G. cbv zeta in G. rewrite Es in G. apply G; [|exact U]. rewrite B3. apply put_eq with (y := None). exact K.
Qed.
Print Assumptions C122_backlog_refuted.
Lemma firstn_in_app {A} (c : nat) (a b : list A) x : (c <= length a)%nat -> In x (firstn c (a ++ b)) -> In x a.
Proof. intros H I. rewrite firstn_app in I. replace (c - length a)%nat with 0%nat in I by lia. cbn [firstn] in I. rewrite app_nil_r in I. rewrite <- (firstn_skipn c a). apply in_or_app. left. exact I. Qed.
(** Found: so a subscriber that once lets the ring of its topic fill up gets none of the images: those in the ring are gone, and the one that is kept found no room.  (On a broadcast topic the
    last one is in the ring, behind those that are gone.) *)
Theorem C122_starved_refuted :
  forall (max_slots : nat) (pool_size alignment : N) (threads topics : nat) (l : list iact) (t h : nat) (ds : list desc) (z : desc) (rest : list desc) (cap : nat),
    1 <= alignment -> pool_size + alignment <= U64 -> proper max_slots pool_size alignment [] (images_init max_slots threads topics) l ->
    let s := irun max_slots pool_size alignment (images_init max_slots threads topics) l in
    idle (i_pool s) t = true -> nth_error (i_keep s) h = Some None -> Permutation (i_held s) (ds ++ z :: rest) -> NoDup (ds ++ [z]) ->
    (forall d, In d ds -> ~ In d (rest ++ kept (i_keep s) ++ i_due s)) -> (cap <= length ds)%nat ->
    let s' := irun max_slots pool_size alignment s (send_all t h None (ds ++ [z])) in
    (forall u, irun max_slots pool_size alignment s' (map (IRecv u) (ring_after false cap (ds ++ [z]))) = s') /\
    (forall u, (2 <= cap)%nat -> exists d r, ring_after true cap (ds ++ [z]) = d :: r /\ In z r /\ istep max_slots pool_size alignment s' (IRecv u d) = s').
Proof.
  intros ms ps al k n l t h ds z rest cap Ha Hp Pr s T K Q Nd Fr Lc s'. destruct (C122_backlog_refuted ms ps al k n l t h ds z rest Ha Hp Pr T K Q Nd Fr) as [G _]. fold s in G. fold s' in G. split; intros u.
  - cbn [ring_after]. assert (X : forall d, In d (firstn cap (ds ++ [z])) -> In d ds) by (intros d; apply firstn_in_app; exact Lc). induction (firstn cap (ds ++ [z])) as [|d r IH]; cbn [map]; [reflexivity|]. unfold irun in *. cbn [fold_left]. rewrite G by (apply X; left; reflexivity). apply IH. intros e I. apply X. right. exact I.
  - intros C2. unfold ring_after. rewrite app_length. cbn [length]. replace (length ds + 1 - cap)%nat with (length ds - (cap - 1))%nat by lia. rewrite skipn_app. replace (length ds - (cap - 1) - length ds)%nat with 0%nat by lia. cbn [skipn].
    destruct (skipn (length ds - (cap - 1)) ds) as [|d r] eqn:E; [apply (f_equal (@length desc)) in E; rewrite skipn_length in E; cbn [length] in E; lia|]. exists d, (r ++ [z]). split; [reflexivity|]. split; [apply in_or_app; right; left; reflexivity|].
    apply G. rewrite <- (firstn_skipn (length ds - (cap - 1)) ds), E. apply in_or_app. right. left. reflexivity.
Qed.
Print Assumptions C122_starved_refuted.
(** Three images made by one thread. *)
Definition ex_three : list iact := [INew 0 [4] 4; IStep 0; INew 0 [4] 4; IStep 0; INew 0 [4] 4; IStep 0].
(** They and a topic meet the hypotheses of the theorems above. *)
Example C122_ex : proper 4 4096 64 [] (images_init 4 2 1) ex_three /\ let s := irun 4 4096 64 (images_init 4 2 1) ex_three in
  idle (i_pool s) 0 = true /\ nth_error (i_keep s) 0 = Some None /\ Permutation (i_held s) ([Desc 3 1 0 16; Desc 2 1 64 16] ++ [Desc 1 1 128 16]) /\ NoDup [Desc 3 1 0 16; Desc 2 1 64 16; Desc 1 1 128 16] /\
  (forall d, In d [Desc 3 1 0 16; Desc 2 1 64 16] -> ~ In d (kept (i_keep s) ++ i_due s)).
Proof.
  split; [vm_compute; tauto|]. cbv zeta. split; [reflexivity|]. split; [reflexivity|]. split; [change (i_held _) with [Desc 1 1 128 16; Desc 2 1 64 16; Desc 3 1 0 16]; apply Permutation_sym, Permutation_rev|].
  split; [repeat constructor; cbn; intuition congruence|]. intros d _. vm_compute. tauto.
Qed.
