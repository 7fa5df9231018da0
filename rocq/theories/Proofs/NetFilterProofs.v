From Coq Require Import String.
From Verif.Base Require Import Prelude Bytes Str.
From Verif.Model Require Import Guard NetFilter.
From Verif.Spec Require Import NetFilterSpec.
Local Open Scope N_scope.

(** Masking keeps the network part. *)
Lemma land_mask len x : len <= 32 -> x < 2 ^ 32 ->
  N.land x (cidr_mask len) = (x / 2 ^ (32 - len)) * 2 ^ (32 - len).
Proof.
  intros Hl Hx. unfold cidr_mask. destruct (N.eqb_spec len 0) as [->|Hne].
  - rewrite N.land_0_r. change (32 - 0) with 32. rewrite N.div_small by auto. auto.
  - apply N.bits_inj. intros i. rewrite N.land_spec, <- N.shiftl_mul_pow2, <- N.shiftr_div_pow2.
    change (2 ^ 32 - 1) with (N.ones 32).
    rewrite <- (N.land_ones _ 32), N.land_spec.
    destruct (N.ltb_spec i (32 - len)).
    + rewrite !N.shiftl_spec_low by auto. cbn. rewrite andb_false_r. auto.
    + rewrite !N.shiftl_spec_high' by auto. rewrite N.shiftr_spec'.
      replace (i - (32 - len) + (32 - len)) with i by lia.
      destruct (N.ltb_spec i 32).
      * rewrite !N.ones_spec_low by lia. rewrite andb_true_r. cbn. auto.
      * assert (N.testbit x i = false).
        { destruct (N.eq_dec x 0) as [->|Hx0]; [apply N.bits_0|]. apply N.bits_above_log2.
          apply N.lt_le_trans with 32; auto. apply N.log2_lt_pow2; lia. }
        rewrite H1. auto.
Qed.

Lemma cidr_iff addr len c x : addr < 2 ^ 32 -> x < 2 ^ 32 -> cidr_new addr len = Some c ->
  cidr_contains c x = true <-> same_network addr len x.
Proof.
  intros Ha Hx Hc. unfold cidr_new in Hc. destruct (N.ltb_spec 32 len); [discriminate|]. injection Hc as <-.
  unfold cidr_contains, same_network; cbn [ci_len ci_base]. rewrite !land_mask by auto.
  rewrite N.eqb_eq. assert (2 ^ (32 - len) <> 0) by (apply N.pow_nonzero; lia).
  split; intros H1; [apply N.mul_cancel_r in H1; auto | rewrite H1; auto].
Qed.
Lemma cidr_new_none addr len : cidr_new addr len = None <-> 32 < len.
Proof. unfold cidr_new. destruct (N.ltb_spec 32 len); split; intros; try discriminate; auto; lia. Qed.

(** ** Text *)
Lemma show_dec_digits n : n < 1000 ->
  forallb is_digit (show_dec n) = true /\ (1 <= length (show_dec n) <= 3)%nat /\ dec_value (show_dec n) = n /\
  (exists c r, show_dec n = c :: r /\ (c = 48 -> r = [])).
Proof.
  intros Hn. unfold show_dec, is_digit.
  assert (Hq : n / 10 < 100) by (apply N.div_lt_upper_bound; lia).
  pose proof (N.mod_lt n 10 ltac:(lia)). pose proof (N.div_mod n 10 ltac:(lia)).
  destruct (N.ltb_spec n 10); [|destruct (N.ltb_spec n 100)]; cbn [forallb length dec_value fold_left];
    rewrite ?andb_true_iff, ?N.leb_le.
  - repeat split; try lia. exists (48 + n), []. auto.
  - assert (n / 10 < 10) by (apply N.div_lt_upper_bound; lia).
    repeat split; try lia. do 2 eexists. split; [reflexivity|]. intros. assert (1 <= n / 10) by (apply N.div_le_lower_bound; lia). lia.
  - pose proof (N.mod_lt (n / 10) 10 ltac:(lia)). pose proof (N.div_mod (n / 10) 10 ltac:(lia)) as Hd.
    rewrite N.div_div in Hd by lia. change (10 * 10) with 100 in Hd.
    assert (n / 100 < 10) by (apply N.div_lt_upper_bound; lia).
    repeat split; try lia. do 2 eexists. split; [reflexivity|]. intros. assert (1 <= n / 100) by (apply N.div_le_lower_bound; lia). lia.
Qed.

Lemma parse_octet_show n : n < 256 -> parse_octet (show_dec n) = Some n.
Proof.
  intros Hn. destruct (show_dec_digits n ltac:(lia)) as (H1 & H2 & H3 & c & r & E & Hz). unfold parse_octet.
  rewrite E in *. rewrite H1, (proj2 (Nat.leb_le _ _)) by lia. rewrite H3.
  rewrite (proj2 (N.leb_le n 255)) by lia. cbn [andb].
  destruct (N.eqb_spec c 48) as [->|]; cbn [negb orb]; auto. rewrite Hz by auto. auto.
Qed.
Lemma parse_u8_show n : n < 256 -> parse_u8 (show_dec n) = Some n.
Proof.
  intros Hn. destruct (show_dec_digits n ltac:(lia)) as (H1 & H2 & H3 & c & r & E & Hz). unfold parse_u8.
  rewrite E in *. assert (Hc : c =? 43 = false).
  { cbn [forallb] in H1. apply andb_prop in H1 as [H1 _]. unfold is_digit in H1. apply andb_prop in H1 as [H1 _].
    apply N.leb_le in H1. apply N.eqb_neq. lia. }
  rewrite Hc, H1, H3. rewrite (proj2 (N.leb_le n 255)) by lia. auto.
Qed.

Lemma split_on_sep c a b : forallb (fun x => negb (x =? c)) a = true ->
  split_on c (a ++ c :: b) = a :: split_on c b.
Proof.
  induction a as [|x a IH]; cbn [app forallb split_on].
  - rewrite N.eqb_refl. auto.
  - intros H. apply andb_prop in H as [H1 H2]. apply negb_true_iff in H1. rewrite H1, IH by auto. auto.
Qed.
Lemma split_on_none c a : forallb (fun x => negb (x =? c)) a = true -> split_on c a = [a].
Proof.
  induction a as [|x a IH]; cbn [forallb split_on]; auto.
  intros H. apply andb_prop in H as [H1 H2]. apply negb_true_iff in H1. rewrite H1, IH by auto. auto.
Qed.
Lemma digits_no c ds : c < 48 -> forallb is_digit ds = true -> forallb (fun x => negb (x =? c)) ds = true.
Proof.
  intros Hc H. rewrite forallb_forall in *. intros x Hx. specialize (H x Hx). unfold is_digit in H.
  apply andb_prop in H as [H _]. apply N.leb_le in H. apply negb_true_iff, N.eqb_neq. lia.
Qed.
Lemma parse_ipv4_show a b c d : octet a -> octet b -> octet c -> octet d ->
  parse_ipv4 (show_ip a b c d) = Some (ip a b c d).
Proof.
  unfold octet. intros Ha Hb Hc Hd. unfold parse_ipv4, show_ip. cbn [app].
  destruct (show_dec_digits a ltac:(lia)) as (Da & _). destruct (show_dec_digits b ltac:(lia)) as (Db & _).
  destruct (show_dec_digits c ltac:(lia)) as (Dc & _). destruct (show_dec_digits d ltac:(lia)) as (Dd & _).
  rewrite !split_on_sep by (apply digits_no; auto; lia). rewrite split_on_none by (apply digits_no; auto; lia).
  rewrite !parse_octet_show by auto. reflexivity.
Qed.

Lemma trim_start_id c s : is_space c = false -> trim_start (c :: s) = c :: s.
Proof. intros H; cbn [trim_start]; rewrite H; auto. Qed.
Lemma trim_id s : (forall c, In c s -> is_space c = false) -> trim s = s.
Proof.
  intros H. unfold trim. assert (E : trim_start s = s).
  { destruct s; auto. apply trim_start_id. apply H; left; auto. }
  rewrite E. assert (E2 : trim_start (rev s) = rev s).
  { destruct (rev s) as [|c r] eqn:Er; auto. apply trim_start_id. apply H. apply in_rev. rewrite Er. left; auto. }
  rewrite E2. apply rev_involutive.
Qed.
Lemma show_dec_chars n x : n < 1000 -> In x (show_dec n) -> 48 <= x <= 57.
Proof.
  intros Hn Hx. destruct (show_dec_digits n Hn) as (H & _). rewrite forallb_forall in H. specialize (H x Hx).
  unfold is_digit in H. apply andb_prop in H as [H1 H2]. apply N.leb_le in H1, H2. auto.
Qed.
Lemma show_ip_chars a b c d x : octet a -> octet b -> octet c -> octet d -> In x (show_ip a b c d) -> x = 46 \/ 48 <= x <= 57.
Proof.
  unfold octet, show_ip. intros Ha Hb Hc Hd H. cbn [app] in H.
  repeat (apply in_app_or in H as [H|H]; [right; eapply show_dec_chars; [|exact H]; lia|]; destruct H as [H|H]; [left; auto|]).
  right; eapply show_dec_chars; [|exact H]; lia.
Qed.
Lemma not_space x : x = 46 \/ x = 47 \/ 48 <= x <= 57 -> is_space x = false.
Proof.
  intros H. unfold is_space. apply orb_false_iff. split; [apply andb_false_iff; right; apply N.leb_gt; lia | apply N.eqb_neq; lia].
Qed.
Lemma split_once_none c s : forallb (fun x => negb (x =? c)) s = true -> split_once c s = None.
Proof.
  induction s as [|x s IH]; cbn [forallb split_once]; auto. intros H. apply andb_prop in H as [H1 H2].
  apply negb_true_iff in H1. rewrite H1, IH by auto. auto.
Qed.
Lemma split_once_sep c a b : forallb (fun x => negb (x =? c)) a = true -> split_once c (a ++ c :: b) = Some (a, b).
Proof.
  induction a as [|x a IH]; cbn [app forallb split_once].
  - rewrite N.eqb_refl. auto.
  - intros H. apply andb_prop in H as [H1 H2]. apply negb_true_iff in H1. rewrite H1, IH by auto. auto.
Qed.
Lemma show_ip_noslash a b c d : octet a -> octet b -> octet c -> octet d ->
  forallb (fun x => negb (x =? 47)) (show_ip a b c d) = true.
Proof.
  intros. apply forallb_forall. intros x Hx. apply negb_true_iff, N.eqb_neq.
  apply show_ip_chars in Hx; auto. lia.
Qed.

Lemma cidr_parse_show a b c d len : octet a -> octet b -> octet c -> octet d -> len < 256 ->
  cidr_parse (show_ip a b c d ++ [47] ++ show_dec len) = cidr_new (ip a b c d) len.
Proof.
  intros Ha Hb Hc Hd Hl. unfold cidr_parse. cbn [app].
  rewrite trim_id.
  - rewrite split_once_sep by (apply show_ip_noslash; auto).
    rewrite (trim_id (show_ip a b c d)), (trim_id (show_dec len)).
    + rewrite parse_ipv4_show, parse_u8_show by auto. auto.
    + intros x Hx. apply not_space. apply show_dec_chars in Hx; [auto|lia].
    + intros x Hx. apply not_space. apply show_ip_chars in Hx; auto. tauto.
  - intros x Hx. apply not_space. apply in_app_or in Hx as [Hx|[<-|Hx]]; auto.
    + apply show_ip_chars in Hx; auto. tauto.
    + apply show_dec_chars in Hx; [auto|lia].
Qed.
Lemma cidr_parse_show_host a b c d : octet a -> octet b -> octet c -> octet d ->
  cidr_parse (show_ip a b c d) = cidr_new (ip a b c d) 32.
Proof.
  intros Ha Hb Hc Hd. unfold cidr_parse.
  rewrite trim_id by (intros x Hx; apply not_space; apply show_ip_chars in Hx; auto; tauto).
  rewrite split_once_none by (apply show_ip_noslash; auto).
  rewrite trim_id by (intros x Hx; apply not_space; apply show_ip_chars in Hx; auto; tauto).
  rewrite parse_ipv4_show by auto. auto.
Qed.

Lemma dec_value_bound ds : forallb is_digit ds = true -> forall acc, acc <= fold_left (fun acc d => 10 * acc + (d - 48)) ds acc.
Proof. induction ds as [|d ds IH]; intros H acc; cbn [fold_left]; [lia|]. cbn [forallb] in H. apply andb_prop in H as [_ H]. specialize (IH H (10 * acc + (d - 48))). lia. Qed.

Lemma parse_octet_lt s v : parse_octet s = Some v -> v < 256.
Proof. unfold parse_octet. destruct s as [|c r]; [discriminate|]. intros H.
  match type of H with (if ?b then _ else _) = _ => destruct b eqn:E; [|discriminate] end.
  injection H as <-. apply andb_prop in E as [E _]. apply andb_prop in E as [_ E]. apply N.leb_le in E. lia.
Qed.
Lemma parse_ipv4_lt s v : parse_ipv4 s = Some v -> v < 2 ^ 32.
Proof.
  unfold parse_ipv4. destruct (split_on 46 s) as [|a [|b [|c [|d [|? ?]]]]]; try discriminate.
  destruct (parse_octet a) eqn:Ea; [|discriminate]. destruct (parse_octet b) eqn:Eb; [|discriminate].
  destruct (parse_octet c) eqn:Ec; [|discriminate]. destruct (parse_octet d) eqn:Ed; [|discriminate].
  apply parse_octet_lt in Ea, Eb, Ec, Ed. intros H; injection H as <-. change (2 ^ 32) with 4294967296. lia.
Qed.
(** Whatever text parses, the result is the network of some address and length at most 32. *)
Lemma cidr_parse_sound s c : cidr_parse s = Some c ->
  exists addr len, addr < 2 ^ 32 /\ len <= 32 /\ cidr_new addr len = Some c /\
    (forall x, x < 2 ^ 32 -> (cidr_contains c x = true <-> same_network addr len x)).
Proof.
  unfold cidr_parse. intros H.
  destruct (match split_once 47 (trim s) with Some (a, p) => (a, Some p) | None => (trim s, None) end) as [ap pp].
  destruct (parse_ipv4 (trim ap)) as [addr|] eqn:E; [|discriminate]. apply parse_ipv4_lt in E.
  assert (exists len, cidr_new addr len = Some c) as [len Hc].
  { destruct pp as [p|]; [destruct (parse_u8 (trim p)) as [l|]; [exists l; auto|discriminate] | exists 32; auto]. }
  exists addr, len. split; auto. split.
  - destruct (N.leb_spec len 32); auto. apply (cidr_new_none addr) in H0. congruence.
  - split; auto. intros x Hx. apply cidr_iff; auto.
Qed.

Lemma default_allow_eq : default_allow =
  [mkCidr (ip 127 0 0 0) 8; mkCidr (ip 10 0 0 0) 8; mkCidr (ip 172 16 0 0) 12; mkCidr (ip 192 168 0 0) 16;
   mkCidr (ip 169 254 0 0) 16; mkCidr (ip 100 64 0 0) 10].
Proof. vm_compute. reflexivity. Qed.

Lemma default_private x : x < 2 ^ 32 -> existsb (fun c => cidr_contains c x) default_allow = true <-> private_range x.
Proof.
  intros Hx. rewrite default_allow_eq. cbn [existsb]. rewrite !orb_true_iff. unfold cidr_contains; cbn [ci_len ci_base].
  rewrite !land_mask by (auto; lia). rewrite !N.eqb_eq. unfold private_range, ip.
  change (2 ^ (32 - 8)) with 16777216. change (2 ^ (32 - 12)) with 1048576. change (2 ^ (32 - 16)) with 65536.
  change (2 ^ (32 - 10)) with 4194304. change (2 ^ 24) with 16777216.
  pose proof (N.div_mod x 16777216 ltac:(lia)). pose proof (N.mod_lt x 16777216 ltac:(lia)).
  pose proof (N.div_mod x 1048576 ltac:(lia)). pose proof (N.mod_lt x 1048576 ltac:(lia)).
  pose proof (N.div_mod x 65536 ltac:(lia)). pose proof (N.mod_lt x 65536 ltac:(lia)).
  pose proof (N.div_mod x 4194304 ltac:(lia)). pose proof (N.mod_lt x 4194304 ltac:(lia)).
  set (q1 := x / 16777216) in *. set (q2 := x / 1048576) in *. set (q3 := x / 65536) in *. set (q4 := x / 4194304) in *.
  set (r1 := x mod 16777216) in *. set (r2 := x mod 1048576) in *. set (r3 := x mod 65536) in *. set (r4 := x mod 4194304) in *.
  clearbody q1 q2 q3 q4 r1 r2 r3 r4. split; intros Hd.
  - repeat (destruct Hd as [Hd|Hd]); try discriminate; lia.
  - repeat (destruct Hd as [Hd|Hd]); [left|right; left|do 2 right; left|do 3 right; left|do 4 right; left|do 5 right; left]; lia.
Qed.

Lemma admits_iff f i : admits f i = true <->
  f = PAny \/ exists cs v c, f = PAllow cs /\ v4_of i = Some v /\ In c cs /\ cidr_contains c v = true.
Proof.
  destruct f as [|cs]; cbn [admits].
  - tauto.
  - assert (Hex : forall v, existsb (fun c => cidr_contains c v) cs = true <-> exists c, In c cs /\ cidr_contains c v = true) by (intros; apply existsb_exists).
    destruct i as [a|a]; cbn [v4_of].
    + rewrite Hex. split.
      * intros (c & Hc). right. exists cs, a, c. tauto.
      * intros [H|(cs' & v & c & E1 & E2 & H)]; [discriminate|]. injection E1 as <-. injection E2 as <-. exists c; tauto.
    + assert (Em : to_ipv4_mapped a = if (65535 * 2 ^ 32 <=? a) && (a <? 65536 * 2 ^ 32) then Some (a - 65535 * 2 ^ 32) else None).
      { unfold to_ipv4_mapped. change (2 ^ 32) with 4294967296.
        pose proof (N.div_mod a 4294967296 ltac:(lia)). pose proof (N.mod_lt a 4294967296 ltac:(lia)).
        destruct (N.eqb_spec (a / 4294967296) 65535) as [E|E].
        - rewrite (proj2 (N.leb_le _ _)), (proj2 (N.ltb_lt _ _)) by lia. cbn [andb]. f_equal. lia.
        - destruct (N.leb_spec (65535 * 4294967296) a); cbn [andb]; auto.
          rewrite (proj2 (N.ltb_ge _ _)) by lia. auto. }
      rewrite Em. destruct ((65535 * 2 ^ 32 <=? a) && (a <? 65536 * 2 ^ 32)).
      * rewrite Hex. split.
        -- intros (c & Hc). right. exists cs, (a - 65535 * 2 ^ 32), c. tauto.
        -- intros [H|(cs' & v & c & E1 & E2 & H)]; [discriminate|]. injection E1 as <-. injection E2 as <-. exists c; tauto.
      * split; [discriminate|]. intros [H|(cs' & v & c & E1 & E2 & H)]; discriminate.
Qed.

(** What a configuration string admits. *)
Definition entry_cidr (e : bytes) : option Cidr := match trim e with [] => None | x => cidr_parse x end.
Lemma filter_map_In {A B} (f : A -> option B) l b : In b (filter_map f l) <-> exists a, In a l /\ f a = Some b.
Proof.
  unfold filter_map. rewrite in_flat_map. split; intros (a & H1 & H2); exists a; split; auto.
  - destruct (f a); [destruct H2 as [->|[]]; auto | destruct H2].
  - rewrite H2. left; auto.
Qed.

Lemma configured_iff raw i :
  admits (peer_filter_parse raw) i = true <->
  any_word raw \/
  (~ any_word raw /\ exists v, v4_of i = Some v /\
    ((exists e c, In e (split_on 44 (trim raw)) /\ cidr_parse (trim e) = Some c /\ cidr_contains c v = true) \/
     ((forall e, In e (split_on 44 (trim raw)) -> cidr_parse (trim e) = None) /\
      existsb (fun c => cidr_contains c v) default_allow = true))).
Proof.
  assert (Hempty : cidr_parse [] = None) by reflexivity.
  assert (He : forall e, (match trim e with [] => None | x => cidr_parse x end) = cidr_parse (trim e)).
  { intros e. destruct (trim e); auto. }
  assert (Hdef : forall v, (exists c, In c default_allow /\ cidr_contains c v = true) <-> existsb (fun c => cidr_contains c v) default_allow = true)
    by (intros; symmetry; apply existsb_exists).
  unfold peer_filter_parse, any_word. destruct (trim raw) as [|t0 tr] eqn:Et.
  - (* empty *)
    rewrite admits_iff. cbn [split_on to_lower map]. split.
    + intros [H|(cs & v & c & E1 & E2 & H)]; [discriminate|]. right. split.
      * intros H1. cbn in H1. destruct H1 as [H1|[H1|[H1|[H1|[]]]]]; discriminate.
      * exists v. split; auto. right. split.
        -- intros e [<-|[]]. reflexivity.
        -- injection E1 as <-. apply Hdef. exists c; auto.
    + intros [H|(Hn & v & Hv & [(e & c & Hi & Hc & _)|[_ H]])].
      * cbn in H. destruct H as [H|[H|[H|[H|[]]]]]; discriminate.
      * destruct Hi as [<-|[]]. discriminate.
      * right. apply Hdef in H as (c & H1 & H2). exists default_allow, v, c. auto.
  - set (T := t0 :: tr) in *.
    assert (Hw : existsb (beqb (to_lower T)) (map bs ["any"; "*"; "all"; "0.0.0.0/0"]%string) = true <->
                 In (to_lower T) [bs "any"; bs "*"; bs "all"; bs "0.0.0.0/0"]).
    { rewrite existsb_exists. split.
      - intros (w & H1 & H2). apply beqb_spec in H2. rewrite H2. exact H1.
      - intros H. exists (to_lower T). split; auto. apply beqb_spec; auto. }
    destruct (existsb (beqb (to_lower T)) _) eqn:E.
    + rewrite admits_iff. split; auto. intros _. left. apply Hw; auto.
    + assert (Hn : ~ In (to_lower T) [bs "any"; bs "*"; bs "all"; bs "0.0.0.0/0"]) by (intros H; apply Hw in H; discriminate).
      set (cidrs := filter_map _ _). assert (Hin : forall c, In c cidrs <-> exists e, In e (split_on 44 T) /\ cidr_parse (trim e) = Some c).
      { intros c. unfold cidrs. rewrite filter_map_In. split; intros (e & H1 & H2); exists e; split; auto; rewrite He in *; auto. }
      clearbody cidrs. clearbody T.
      destruct cidrs as [|c0 cr].
      * unfold peer_filter_default. rewrite admits_iff. split.
        -- intros [H|(cs & v & c & E1 & E2 & H)]; [discriminate|]. right. split; auto. exists v. split; auto. right. split.
           ++ intros e Hi. destruct (cidr_parse (trim e)) as [c1|] eqn:Ec; auto. exfalso. apply (Hin c1). exists e; auto.
           ++ injection E1 as <-. apply Hdef. exists c; auto.
        -- intros [H|(_ & v & Hv & [(e & c & Hi & Hc & _)|[_ H]])]; [contradiction| |].
           ++ exfalso. apply (Hin c). exists e; auto.
           ++ right. apply Hdef in H as (c & H1 & H2). exists default_allow, v, c. auto.
      * rewrite admits_iff. split.
        -- intros [H|(cs & v & c & E1 & E2 & H1 & H2)]; [discriminate|]. injection E1 as <-.
           right. split; auto. exists v. split; auto. left. apply Hin in H1 as (e & H3 & H4). exists e, c. auto.
        -- intros [H|(_ & v & Hv & [(e & c & Hi & Hc & Hx)|[Hall _]])]; [contradiction| |].
           ++ right. exists (c0 :: cr), v, c. split; auto. split; auto. split; auto. apply Hin. exists e; auto.
           ++ exfalso. destruct (proj1 (Hin c0) (or_introl eq_refl)) as (e & H1 & H2). rewrite Hall in H2; auto. discriminate.
Qed.

(** ** Token bucket *)
Definition bucket_ok (b : Bucket) : Prop := b_tokens b <= b_cap b * TOKEN.
Definition count_true (l : list bool) : N := N.of_nat (length (filter (fun x => x) l)).
Lemma take_ok t b : bucket_ok b -> bucket_ok (fst (bucket_take t b)) /\ b_cap (fst (bucket_take t b)) = b_cap b /\ b_rate (fst (bucket_take t b)) = b_rate b.
Proof.
  unfold bucket_ok, bucket_take, bucket_refill. intros H.
  destruct (t - b_last b =? 0); cbn [b_tokens b_cap b_rate b_last];
    destruct (TOKEN <=? _); cbn [fst b_tokens b_cap b_rate]; repeat split; auto; lia.
Qed.
Lemma run_ok calls : forall b, bucket_ok b ->
  bucket_ok (fst (bucket_run b calls)) /\ b_cap (fst (bucket_run b calls)) = b_cap b /\ b_rate (fst (bucket_run b calls)) = b_rate b.
Proof.
  induction calls as [|t r IH]; intros b Hb; cbn [bucket_run]; auto.
  destruct (take_ok t b Hb) as (H1 & H2 & H3). destruct (bucket_take t b) as [b1 ok]. cbn [fst] in *.
  specialize (IH b1 H1). destruct (bucket_run b1 r). cbn [fst] in *. rewrite <- H2, <- H3. auto.
Qed.
Lemma count_cons x l : count_true (x :: l) = (if x then 1 else 0) + count_true l.
Proof. unfold count_true. destruct x; cbn [filter length]; lia. Qed.

(** Potential argument: tokens plus everything still refillable before [b]. *)
Lemma bucket_bound_mid hi : forall calls b, bucket_ok b ->
  Forall (fun t => t <= hi) calls ->
  TOKEN * count_true (snd (bucket_run b calls)) <= b_tokens b + b_rate b * (hi - b_last b).
Proof.
  induction calls as [|t r IH]; intros b Hb Hc.
  - cbn [bucket_run snd]. change (count_true []) with 0. rewrite N.mul_0_r. apply N.le_0_l.
  - apply Forall_cons_iff in Hc as [Ht Hc]. cbn [bucket_run].
    destruct (take_ok t b Hb) as (H1 & H2 & H3).
    assert (Hstep : TOKEN * (if snd (bucket_take t b) then 1 else 0) + b_tokens (fst (bucket_take t b)) + b_rate b * (hi - b_last (fst (bucket_take t b)))
                    <= b_tokens b + b_rate b * (hi - b_last b)).
    { clear IH H1 H2 H3. unfold bucket_take, bucket_refill. destruct (N.eqb_spec (t - b_last b) 0); cbn [b_tokens b_cap b_rate b_last].
      - destruct (N.leb_spec TOKEN (b_tokens b)); cbn [fst snd b_tokens b_last]; lia.
      - assert ((t - b_last b) * b_rate b + b_rate b * (hi - t) = b_rate b * (hi - b_last b)) by nia.
        set (m := N.min _ _). assert (m <= b_tokens b + (t - b_last b) * b_rate b) by (unfold m; lia).
        destruct (N.leb_spec TOKEN m); cbn [fst snd b_tokens b_last]; lia. }
    destruct (bucket_take t b) as [b1 ok]. cbn [fst snd] in *. specialize (IH b1 H1 Hc).
    destruct (bucket_run b1 r) as [b2 oks]. cbn [snd] in *. rewrite count_cons. rewrite H3 in IH. lia.
Qed.

Lemma bucket_window b lo hi calls : bucket_ok b -> lo <= hi ->
  Forall (fun t => lo <= t <= hi) calls ->
  TOKEN * count_true (snd (bucket_run b calls)) <= TOKEN * b_cap b + b_rate b * (hi - lo).
Proof.
  intros Hb Hl Hc. destruct calls as [|t r]; [cbn [bucket_run snd]; change (count_true []) with 0; rewrite N.mul_0_r; apply N.le_0_l|].
  destruct (N.leb_spec lo (b_last b)).
  - assert (Forall (fun t => t <= hi) (t :: r)) by (eapply Forall_impl; [|exact Hc]; cbn; lia).
    pose proof (bucket_bound_mid hi (t :: r) b Hb H0). unfold bucket_ok in Hb. nia.
  - (* the first call at [t >= lo] refills; afterwards the previous case applies *)
    apply Forall_cons_iff in Hc as [Ht Hc].
    assert (Hre : bucket_run b (t :: r) = bucket_run (bucket_refill t b) (t :: r)).
    { cbn [bucket_run]. unfold bucket_take. unfold bucket_refill at 2 3.
      assert (E : bucket_refill t (bucket_refill t b) = bucket_refill t b).
      { unfold bucket_refill at 1. replace (t - b_last (bucket_refill t b)) with 0; auto.
        unfold bucket_refill. destruct (N.eqb_spec (t - b_last b) 0); cbn [b_last]; lia. }
      rewrite E. reflexivity. }
    rewrite Hre. assert (Hb' : bucket_ok (bucket_refill t b)).
    { unfold bucket_ok, bucket_refill in *. destruct (_ =? 0); cbn [b_tokens b_cap]; auto. lia. }
    assert (Hlast : b_last (bucket_refill t b) = t).
    { unfold bucket_refill. rewrite (proj2 (N.eqb_neq _ 0)) by lia. auto. }
    assert (Hcap : b_cap (bucket_refill t b) = b_cap b /\ b_rate (bucket_refill t b) = b_rate b).
    { unfold bucket_refill. destruct (_ =? 0); auto. }
    assert (Hall : Forall (fun t => t <= hi) (t :: r)).
    { constructor; [lia|]. eapply Forall_impl; [|exact Hc]. cbn; lia. }
    pose proof (bucket_bound_mid hi (t :: r) _ Hb' Hall) as Hbound.
    destruct Hcap as [Hc1 Hc2]. unfold bucket_ok in Hb'. rewrite Hlast, Hc1, Hc2 in *. nia.
Qed.

Lemma new_ok c r t : bucket_ok (bucket_new_at c r t).
Proof. unfold bucket_ok, bucket_new_at; cbn [b_tokens b_cap]. lia. Qed.

(** Any window of any history. *)
Lemma bucket_run_app b l1 l2 : bucket_run b (l1 ++ l2) =
  let '(b1, o1) := bucket_run b l1 in let '(b2, o2) := bucket_run b1 l2 in (b2, o1 ++ o2).
Proof.
  revert b; induction l1 as [|t r IH]; intros b; cbn [app bucket_run].
  - destruct (bucket_run b l2); auto.
  - destruct (bucket_take t b) as [b1 ok]. rewrite IH. destruct (bucket_run b1 r) as [b2 o1]. destruct (bucket_run b2 l2). auto.
Qed.
Lemma bucket_history cap rate t0 before calls lo hi : lo <= hi ->
  Forall (fun t => lo <= t <= hi) calls ->
  let b := fst (bucket_run (bucket_new_at cap rate t0) before) in
  TOKEN * count_true (snd (bucket_run b calls)) <= TOKEN * cap + rate * (hi - lo).
Proof.
  intros Hl Hc b. destruct (run_ok before (bucket_new_at cap rate t0) (new_ok _ _ _)) as (H1 & H2 & H3).
  fold b in H1, H2, H3. pose proof (bucket_window b lo hi calls H1 Hl Hc) as H. rewrite H2, H3 in H. exact H.
Qed.
(** A quiet bucket refills: after an idle time worth one token, a call succeeds. *)
Lemma bucket_never_starves b t : bucket_ok b -> 0 < b_cap b -> TOKEN <= b_rate b * (t - b_last b) ->
  snd (bucket_take t b) = true.
Proof.
  intros Hb Hc Ht. unfold bucket_take, bucket_refill.
  assert (t - b_last b <> 0) by (intros E; rewrite E in Ht; unfold TOKEN in Ht; lia).
  rewrite (proj2 (N.eqb_neq _ 0)) by auto. cbn [b_tokens b_cap b_rate b_last].
  rewrite (proj2 (N.leb_le _ _)); auto. unfold TOKEN in *. nia.
Qed.
(** A full bucket admits a whole burst, at any times. *)
Lemma bucket_burst calls : forall b, bucket_ok b -> N.of_nat (length calls) * TOKEN <= b_tokens b ->
  snd (bucket_run b calls) = repeat true (length calls).
Proof.
  induction calls as [|t r IH]; intros b Hb Hl; cbn [bucket_run repeat length]; auto.
  cbn [length] in Hl. assert (Htok : TOKEN * N.of_nat (length r) + TOKEN <= b_tokens b) by lia.
  assert (Hm : b_tokens b <= b_tokens (bucket_refill t b)).
  { unfold bucket_refill, bucket_ok in *. destruct (_ =? 0); cbn [b_tokens]; lia. }
  destruct (take_ok t b Hb) as (H1 & _). unfold bucket_take in *.
  rewrite (proj2 (N.leb_le TOKEN _)) in * by lia. cbn [fst] in H1.
  specialize (IH _ H1). cbn [b_tokens] in IH. destruct (bucket_run _ r). cbn [snd] in *. rewrite IH; auto. lia.
Qed.
