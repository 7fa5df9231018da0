From Verif.Base Require Import Prelude.
From Verif.Model Require Import TensorView.
From Verif.Spec Require Import TensorViewSpec.
Open Scope N_scope.

Notation pos := (Forall (fun d => 0 < d)).

Lemma U64_pos : 0 < U64. Proof. reflexivity. Qed.
Lemma U64_one : 1 < U64. Proof. reflexivity. Qed.
Lemma U64_spec : U64 = 18446744073709551616. Proof. reflexivity. Qed.
Opaque U64.

Lemma volume_pos : forall l, pos l -> 0 < volume l.
Proof. induction 1; cbn; nia. Qed.

Lemma product_volume : forall l, product l = volume l mod U64.
Proof.
  unfold product. pose proof U64_one as P.
  assert (G : forall l a, a < U64 -> fold_left (fun a d => (a * d) mod U64) l a = (a * volume l) mod U64).
  { induction l as [|d l IH]; intros a A; cbn [fold_left volume].
    - rewrite N.mul_1_r, N.mod_small; auto.
    - rewrite IH by (apply N.mod_lt; lia). rewrite N.mul_mod_idemp_l by lia. f_equal. lia. }
  intro l. rewrite G by auto. f_equal. lia.
Qed.

Lemma checked_some : forall l a n, checked_product a l = Some n -> n = a * volume l.
Proof.
  induction l as [|d l IH]; intros a n H; cbn [checked_product volume] in *.
  - injection H as <-. lia.
  - destruct (_ <? _); [|discriminate]. apply IH in H. nia.
Qed.

Lemma checked_none : forall l a, a * volume l < U64 -> pos l -> checked_product a l = Some (a * volume l).
Proof.
  induction l as [|d l IH]; intros a H P; cbn [checked_product volume] in *.
  - f_equal. lia.
  - inversion P; subst. pose proof (volume_pos _ H3). 
    destruct (a * d <? U64) eqn:E; bool_prop.
    + rewrite IH; auto; [f_equal; lia|]. replace (a * d * volume l) with (a * (d * volume l)) by lia. auto.
    + exfalso. assert (a * d * 1 <= a * d * volume l) by (apply N.mul_le_mono_l; lia).
      replace (a * (d * volume l)) with (a * d * volume l) in H by lia. lia.
Qed.

Lemma row_major_cons : forall e r d, pos r -> e * volume r < U64 ->
  row_major e (d :: r) = (e * volume r) :: row_major e r.
Proof.
  intros e. induction r as [|d' r IH]; intros d P H.
  - cbn. f_equal. lia.
  - inversion P; subst. cbn [volume] in H.
    assert (H' : e * volume r < U64). { assert (e * volume r * 1 <= e * volume r * d') by (apply N.mul_le_mono_l; lia). nia. }
    change (row_major e (d :: d' :: r)) with
      (match row_major e (d' :: r) with s :: ss => (s * d') mod U64 :: s :: ss | [] => [e] end).
    rewrite (IH d' H3 H'). cbn [volume]. f_equal. rewrite N.mod_small; [lia|]. replace (e * volume r * d') with (e * (d' * volume r)) by lia. auto.
Qed.

Lemma row_major_length : forall e s, length (row_major e s) = length s.
Proof.
  intros e. induction s as [|d s IH]; auto. cbn [row_major]. destruct s as [|d' s]; [reflexivity|].
  destruct (row_major e (d' :: s)) eqn:E; [cbn in IH; lia|]. cbn [length] in *. lia.
Qed.

Lemma dot_rank : forall e s idx, pos s -> e * volume s < U64 -> length idx = length s ->
  dot idx (row_major e s) = rank s idx * e.
Proof.
  intros e. induction s as [|d s IH]; intros [|i idx] P H L; try discriminate; auto.
  inversion P; subst. cbn [volume] in H.
  assert (H' : e * volume s < U64). { assert (e * volume s * 1 <= e * volume s * d) by (apply N.mul_le_mono_l; lia). nia. }
  rewrite row_major_cons by auto. cbn [dot rank]. rewrite IH by auto. lia.
Qed.

Lemma inside_length : forall s idx, inside s idx -> length idx = length s.
Proof. intros s idx H. induction H; cbn; auto. Qed.

Lemma inside_pos : forall s idx, inside s idx -> pos s.
Proof. intros s idx H. induction H; constructor; auto; lia. Qed.

Lemma rank_lt : forall s idx, inside s idx -> rank s idx < volume s.
Proof. intros s idx H. induction H; cbn [rank volume]; nia. Qed.

(** * Extent *)

Lemma extent_dot : forall sh st acc e, length st = length sh -> pos sh ->
  extent_loop acc (combine sh st) = Some e ->
  e = acc + dot (map (fun d => d - 1) sh) st.
Proof.
  induction sh as [|d sh IH]; intros [|s st] acc e L P H; try discriminate; cbn [combine extent_loop map dot] in *.
  - injection H as <-. lia.
  - inversion P; subst. destruct (d =? 0) eqn:D; [bool_prop; lia|].
    destruct (_ <? U64); [|discriminate]. destruct (_ <? U64); [|discriminate].
    apply IH in H; auto. lia.
Qed.

Lemma extent_none : forall sh st acc, length st = length sh -> pos sh ->
  extent_loop acc (combine sh st) = None -> U64 <= acc + dot (map (fun d => d - 1) sh) st.
Proof.
  induction sh as [|d sh IH]; intros [|s st] acc L P H; try discriminate; cbn [combine extent_loop map dot] in *.
  inversion P; subst. destruct (d =? 0) eqn:D; [bool_prop; lia|].
  destruct ((d - 1) * s <? U64) eqn:E1; [|bool_prop; lia]. destruct (acc + (d - 1) * s <? U64) eqn:E2; [|bool_prop; lia].
  apply IH in H; auto. lia.
Qed.

Lemma dot_mono : forall sh idx st, inside sh idx -> dot idx st <= dot (map (fun d => d - 1) sh) st.
Proof.
  intros sh idx st H. revert st. induction H as [|i d idx sh L F IH]; intros [|s st]; cbn [map dot]; try lia.
  specialize (IH st). assert (i * s <= (d - 1) * s) by (apply N.mul_le_mono_r; lia). lia.
Qed.

Lemma last_inside : forall sh, pos sh -> inside sh (map (fun d => d - 1) sh).
Proof. induction 1; cbn [map]; constructor; auto. lia. Qed.

Lemma within_sound : forall t idx, length (t_strides t) = length (t_shape t) ->
  within_allocation t = true -> inside (t_shape t) idx -> address t idx + t_elem t <= t_off t + t_size t.
Proof.
  intros t idx L W I. unfold within_allocation, addressed_extent in W. destruct (extent_loop _ _) as [e|] eqn:E; [|discriminate].
  apply extent_dot in E; auto; [|eapply inside_pos; eauto]. bool_prop. unfold address.
  pose proof (dot_mono _ _ (t_strides t) I). lia.
Qed.

Lemma within_complete : forall t, length (t_strides t) = length (t_shape t) -> pos (t_shape t) -> t_size t < U64 ->
  within_allocation t = false -> exists idx, inside (t_shape t) idx /\ t_off t + t_size t < address t idx + t_elem t.
Proof.
  intros t L P S W. exists (map (fun d => d - 1) (t_shape t)). split; [apply last_inside; auto|].
  unfold within_allocation, addressed_extent in W. unfold address. destruct (extent_loop _ _) as [e|] eqn:E.
  - apply extent_dot in E; auto. bool_prop. lia.
  - apply extent_none in E; auto. lia.
Qed.

(** * Tensors of a pool *)

Lemma new_form : forall off sh e t, tensor_new off sh e = Some t -> (length sh <= 8)%nat ->
  t = Tensor off (volume sh * e) e sh (row_major e sh) /\ volume sh * e < U64.
Proof.
  intros off sh e t H L. unfold tensor_new in H. destruct (checked_product 1 sh) as [n|] eqn:E; [|discriminate].
  apply checked_some in E. rewrite N.mul_1_l in E. subst n. destruct (_ <? _) eqn:B; [|discriminate]. bool_prop.
  rewrite firstn_all2 in H by (unfold MAX_TENSOR_DIMS; lia). injection H as <-. auto.
Qed.

Lemma new_ok : forall off sh e, (length sh <= 8)%nat -> pos sh -> 0 < e -> volume sh * e < U64 ->
  tensor_new off sh e = Some (Tensor off (volume sh * e) e sh (row_major e sh)).
Proof.
  intros off sh e L P E B. unfold tensor_new. assert (volume sh < U64) by nia.
  rewrite checked_none by (auto; lia). rewrite N.mul_1_l. rewrite (proj2 (N.ltb_lt _ _) B).
  rewrite firstn_all2 by (unfold MAX_TENSOR_DIMS; lia). reflexivity.
Qed.

Lemma alloc_form : forall t sh, allocated t sh ->
  t = Tensor (t_off t) (volume sh * t_elem t) (t_elem t) sh (row_major (t_elem t) sh) /\ volume sh * t_elem t < U64.
Proof. intros t sh (H & L & _). apply new_form in H; auto. Qed.

Lemma alloc_intro : forall off sh e, (length sh <= 8)%nat -> pos sh -> 0 < e -> off + volume sh * e < U64 ->
  allocated (Tensor off (volume sh * e) e sh (row_major e sh)) sh.
Proof.
  intros off sh e L P E B. unfold allocated. cbn [t_off t_elem t_size]. rewrite new_ok by (auto; lia).
  rewrite U64_spec in B. auto.
Qed.

Lemma alloc_dense : forall t sh, allocated t sh -> dense t /\ t_shape t = sh /\ length (t_strides t) = length sh.
Proof.
  intros t sh A. destruct (alloc_form _ _ A) as [E B]. destruct A as (_ & L & P & Pe & _).
  rewrite E. cbn [t_shape t_strides]. split; [|split; [auto|apply row_major_length]].
  split; [reflexivity|]. cbn [t_shape t_elem t_off]. intros idx I. unfold address. cbn [t_off t_strides].
  rewrite dot_rank; auto; [lia|apply inside_length; auto].
Qed.

Lemma max_rank : forall s, pos s -> rank s (map (fun d => d - 1) s) + 1 = volume s.
Proof. induction 1 as [|d s P F IH]; cbn [map rank volume]; auto. pose proof (volume_pos _ F). nia. Qed.

Lemma alloc_within : forall t sh, allocated t sh -> within_allocation t = true.
Proof.
  intros t sh A. destruct (alloc_dense _ _ A) as ((D1 & D2) & S & L). pose proof A as (_ & _ & P & Pe & B).
  destruct (within_allocation t) eqn:W; auto. exfalso.
  destruct (within_complete t) as (idx & I & G); auto; try congruence; [rewrite U64_spec; lia|].
  rewrite D2 in G by auto. pose proof (rank_lt _ _ I). nia.
Qed.

Lemma contig_loop_app : forall a b e, contiguous_loop e (a ++ b) = true ->
  contiguous_loop e a = true.
Proof. induction a as [|[d s] a IH]; intros b e H; auto. cbn in *. destruct (_ =? _); auto. apply IH in H. auto. Qed.

Lemma contig_loop_snoc : forall a e d s, contiguous_loop e a = true ->
  s = fold_left (fun x p => (x * fst p) mod U64) a e -> contiguous_loop e (a ++ [(d, s)]) = true.
Proof.
  induction a as [|[d' s'] a IH]; intros e d s H E; cbn in *.
  - subst. rewrite N.eqb_refl. reflexivity.
  - destruct (s' =? e); [|discriminate]. apply IH; auto.
Qed.

Lemma fold_combine_volume : forall sh st e, length st = length sh -> e < U64 ->
  fold_left (fun x (p : N * N) => (x * fst p) mod U64) (rev (combine sh st)) e = (e * volume sh) mod U64.
Proof.
  induction sh as [|d sh IH]; intros [|s st] e L B; try discriminate; cbn [combine rev volume].
  - cbn. rewrite N.mul_1_r, N.mod_small; auto.
  - rewrite fold_left_app. cbn [fold_left fst]. rewrite IH by auto. pose proof U64_pos.
    rewrite N.mul_mod_idemp_l by lia. f_equal. lia.
Qed.

Lemma row_major_contig : forall e sh, pos sh -> 0 < e -> e * volume sh < U64 ->
  contiguous_loop e (rev (combine sh (row_major e sh))) = true.
Proof.
  intros e. induction sh as [|d sh IH]; intros P E B; auto. inversion P; subst. cbn [volume] in B.
  assert (H' : e * volume sh < U64). { assert (e * volume sh * 1 <= e * volume sh * d) by (apply N.mul_le_mono_l; lia). nia. }
  rewrite row_major_cons by auto. cbn [combine rev]. apply contig_loop_snoc; auto.
  pose proof (volume_pos _ H2). rewrite fold_combine_volume; [|apply row_major_length|nia].
  rewrite N.mod_small; auto.
Qed.

Lemma alloc_contig : forall t sh, allocated t sh -> is_contiguous t = true.
Proof.
  intros t sh A. destruct (alloc_form _ _ A) as [E B]. destruct A as (_ & L & P & Pe & _). rewrite E.
  unfold is_contiguous. cbn [t_elem t_shape t_strides]. apply row_major_contig; auto. lia.
Qed.

Lemma view_alloc : forall t sh new, allocated t sh -> (length new <= 8)%nat -> pos new -> volume new = volume sh ->
  exists t', view t new = VSome t' /\ allocated t' new /\ t_off t' = t_off t /\ t_size t' = t_size t /\ t_elem t' = t_elem t.
Proof.
  intros t sh new A L P V. pose proof (alloc_contig _ _ A) as C. destruct (alloc_form _ _ A) as [E B].
  pose proof A as (_ & _ & _ & Pe & Bd). destruct (alloc_dense _ _ A) as ((D1 & _) & S & _).
  unfold view. rewrite !product_volume, S, V, N.eqb_refl, C. cbn [negb].
  rewrite new_ok by (auto; rewrite V; auto). eexists. split; [reflexivity|].
  rewrite V at 1. rewrite <- V. rewrite D1, S, <- V in Bd. cbn [t_off t_size t_elem]. split.
  - apply alloc_intro; auto.
  - rewrite D1, S, V. auto.
Qed.

Lemma view_refused : forall t sh new, allocated t sh -> volume new < U64 -> volume new <> volume sh -> view t new = VNone.
Proof.
  intros t sh new A B D. destruct (alloc_form _ _ A) as [_ Bs]. destruct (alloc_dense _ _ A) as (_ & S & _).
  pose proof A as (_ & _ & _ & Pe & _). unfold view. rewrite !product_volume, S.
  rewrite !N.mod_small by nia. destruct (N.eqb_spec (volume sh) (volume new)); auto. congruence.
Qed.

Lemma view_panics : forall t sh new, allocated t sh -> U64 <= volume new -> volume new mod U64 = volume sh -> view t new = VPanic.
Proof.
  intros t sh new A B M. destruct (alloc_form _ _ A) as [_ Bs]. destruct (alloc_dense _ _ A) as (_ & S & _).
  pose proof (alloc_contig _ _ A) as C. pose proof A as (_ & _ & _ & Pe & _). unfold view. rewrite !product_volume, S, M.
  rewrite N.mod_small by nia. rewrite N.eqb_refl, C. cbn [negb]. unfold tensor_new.
  destruct (checked_product 1 new) as [n|] eqn:E; auto. pose proof (checked_some _ _ _ E) as ->.
  destruct (_ <? U64) eqn:X; auto. bool_prop. nia.
Qed.

Lemma volume_app : forall a b, volume (a ++ b) = volume a * volume b.
Proof. induction a as [|d a IH]; intro b; cbn; [destruct (volume b); auto|]. rewrite IH. lia. Qed.

Lemma view_many : forall t sh new, allocated t sh -> pos new -> volume new = volume sh ->
  exists t', view t new = VSome t' /\ t_shape t' = firstn 8 new
    /\ volume (t_shape t') * volume (skipn 8 new) = volume sh.
Proof.
  intros t sh new A P V. pose proof (alloc_contig _ _ A) as C. destruct (alloc_form _ _ A) as [E B].
  destruct (alloc_dense _ _ A) as (_ & S & _). pose proof A as (_ & _ & _ & Pe & _).
  unfold view. rewrite !product_volume, S, V, N.eqb_refl, C. cbn [negb]. unfold tensor_new.
  rewrite checked_none by (auto; nia). rewrite N.mul_1_l, V, (proj2 (N.ltb_lt _ _) B).
  eexists. split; [reflexivity|]. cbn [t_shape]. split; [reflexivity|].
  change MAX_TENSOR_DIMS with 8%nat. rewrite <- volume_app, firstn_skipn. auto.
Qed.

Lemma slice_none : forall t a b, length (t_strides t) = length (t_shape t) ->
  (slice_first_dim t a b = None <-> t_shape t = [] \/ b <= a \/ exists d r, t_shape t = d :: r /\ d < b).
Proof.
  intros t a b L. unfold slice_first_dim. destruct (t_shape t) as [|d r], (t_strides t) as [|s q]; try discriminate.
  - tauto.
  - destruct (b <=? a) eqn:E1; bool_prop; cbn [orb].
    + tauto.
    + destruct (d <? b) eqn:E2; bool_prop.
      * split; auto. intros _. right. right. eauto.
      * split; [discriminate|]. intros [X|[X|(d' & r' & X & Y)]]; [discriminate|lia|]. injection X as <- <-. lia.
Qed.

Lemma slice_address : forall t a b t' idx, length (t_strides t) = length (t_shape t) ->
  within_allocation t = true -> t_off t + t_size t < U64 -> 0 < t_elem t -> slice_first_dim t a b = Some t' ->
  inside (t_shape t') idx ->
  exists i r, idx = i :: r /\ i < b - a /\ inside (t_shape t) ((a + i) :: r) /\ address t' idx = address t ((a + i) :: r).
Proof.
  intros t a b t' idx L W O Pe H I. unfold slice_first_dim in H.
  destruct (t_shape t) as [|d r] eqn:S, (t_strides t) as [|s q] eqn:Q; try discriminate.
  destruct (b <=? a) eqn:E1; [discriminate|]. destruct (d <? b) eqn:E2; [discriminate|]. bool_prop. cbn [orb] in H.
  injection H as <-. cbn [t_shape] in I. inversion I as [|i d' r' sh Hi Hr]; subst. exists i, r'.
  split; [auto|]. split; [auto|].
  assert (I2 : inside (t_shape t) (a + i :: r')) by (rewrite S; constructor; auto; lia).
  split; [rewrite <- S; auto|].
  assert (I3 : inside (t_shape t) (a :: r')) by (rewrite S; constructor; auto; lia).
  pose proof (within_sound t _ ltac:(rewrite S, Q; auto) W I3) as B. unfold address in *. cbn [t_off t_strides].
  rewrite Q in *. cbn [dot] in *. rewrite N.mod_small by lia. lia.
Qed.

Lemma slice_alloc : forall t sh a b t', allocated t sh -> slice_first_dim t a b = Some t' ->
  exists d r, sh = d :: r /\ a < b /\ b <= d /\ allocated t' ((b - a) :: r)
    /\ t_off t <= t_off t' /\ t_off t' + t_size t' <= t_off t + t_size t /\ t_elem t' = t_elem t.
Proof.
  intros t sh a b t' A H. destruct (alloc_form _ _ A) as [E B]. pose proof A as (_ & L & P & Pe & Bd).
  destruct (alloc_dense _ _ A) as ((D1 & _) & S & _).
  unfold slice_first_dim in H. rewrite E in H. cbn [t_shape t_strides t_off t_elem] in H.
  destruct sh as [|d r]; [discriminate|]. inversion P; subst. cbn [volume] in B.
  assert (H' : t_elem t * volume r < U64).
  { assert (t_elem t * volume r * 1 <= t_elem t * volume r * d) by (apply N.mul_le_mono_l; lia). nia. }
  rewrite row_major_cons in H by auto.
  destruct (b <=? a) eqn:E1; [discriminate|]. destruct (d <? b) eqn:E2; [discriminate|]. bool_prop. cbn [orb] in H.
  injection H as <-. exists d, r. split; [auto|]. split; [auto|]. split; [auto|].
  rewrite D1, S in Bd. cbn [volume] in Bd. rewrite D1, S. cbn [volume].
  pose proof (volume_pos _ H3) as Pv. set (ve := volume r * t_elem t) in *.
  assert (X : (b - a) * volume r * t_elem t = (b - a) * ve) by (unfold ve; lia).
  assert (Y : d * volume r * t_elem t = d * ve) by (unfold ve; lia).
  assert (Z : (b - a) * ve + a * ve = b * ve) by (rewrite <- N.mul_add_distr_r; f_equal; lia).
  assert (Z' : b * ve <= d * ve) by (apply N.mul_le_mono_r; auto).
  rewrite <- U64_spec in Bd.
  assert (Mp : product (b - a :: r) = (b - a) * volume r).
  { rewrite product_volume. cbn [volume]. apply N.mod_small. nia. }
  rewrite Mp, X. rewrite !N.mod_small.
  2: { rewrite Y in Bd. lia. }
  2: { replace (a * (t_elem t * volume r)) with (a * ve) by (unfold ve; lia). rewrite Y in Bd. lia. }
  cbn [t_off t_size t_elem]. replace (a * (t_elem t * volume r)) with (a * ve) by (unfold ve; lia).
  split; [|rewrite Y; split; [lia|split; [lia|auto]]].
  replace (t_elem t * volume r :: row_major (t_elem t) r) with (row_major (t_elem t) ((b - a) :: r))
    by (apply row_major_cons; auto).
  rewrite <- X. change ((b - a) * volume r) with (volume (b - a :: r)). apply alloc_intro; auto.
  - constructor; auto. lia.
  - cbn [volume]. rewrite X. rewrite Y in Bd. lia.
Qed.

Lemma views_stay : forall ops t sh t', allocated t sh -> Forall modest ops ->
  fold_left apply_view ops (Some t) = Some t' ->
  (exists sh', allocated t' sh') /\ t_off t <= t_off t' /\ t_off t' + t_size t' <= t_off t + t_size t /\ t_elem t' = t_elem t.
Proof.
  induction ops as [|o ops IH]; intros t sh t' A F H; cbn [fold_left] in H.
  - injection H as <-. split; [eauto|]. split; [lia|split; [lia|auto]].
  - inversion F as [|? ? M F']; subst. destruct (apply_view (Some t) o) as [t1|] eqn:E.
    2: { exfalso. clear -H. induction ops as [|o' ops IH]; cbn in H; [discriminate|auto]. }
    assert (S : exists sh1, allocated t1 sh1 /\ t_off t <= t_off t1 /\ t_off t1 + t_size t1 <= t_off t + t_size t /\ t_elem t1 = t_elem t).
    { destruct o as [s|a b]; cbn [apply_view] in E.
      - destruct M as [M1 M2]. destruct (N.eq_dec (volume s) (volume sh)) as [V|V].
        + destruct (view_alloc t sh s A M1 M2 V) as (t2 & V2 & A2 & O2 & S2 & E2). rewrite V2 in E. injection E as <-.
          exists s. rewrite O2, S2, E2. split; [auto|]. split; [lia|split; [lia|auto]].
        + destruct (N.lt_ge_cases (volume s) U64) as [B|B].
          * rewrite (view_refused t sh s A B V) in E. discriminate.
          * unfold view in E. destruct (negb _); [discriminate|]. destruct (negb _); [discriminate|].
            unfold tensor_new in E. destruct (checked_product 1 s) as [n|] eqn:C; [|discriminate].
            apply checked_some in C. subst n. destruct (_ <? U64) eqn:X; [|discriminate]. bool_prop.
            destruct A as (_ & _ & _ & Pe & _). nia.
      - destruct (slice_alloc _ _ _ _ _ A E) as (d & r & _ & _ & _ & A1 & X1 & X2 & X3). eauto. }
    destruct S as (sh1 & A1 & X1 & X2 & X3). destruct (IH _ _ _ A1 F' H) as (Y0 & Y1 & Y2 & Y3).
    split; auto. split; [lia|]. split; [lia|]. congruence.
Qed.
