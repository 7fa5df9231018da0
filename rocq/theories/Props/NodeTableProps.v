(** Properties of the live table of nodes: C126. *)
From Coq Require Import String.
From Verif.Base Require Import Prelude Bytes Str.
From Verif.Model Require Import LogEntry NodeTable.
From Verif.Spec Require Import NodeTableSpec.
From Verif.Proofs Require Import NodeTableProofs.
Open Scope list_scope. Open Scope nat_scope.

(** ** C126: what is listed is what was registered and written last *)
(** Whatever the file held before, and after any history of registrations and updates, a reader gets every node that was
    registered, in that order, with the numbers last written for it and for no other node. *)
Theorem C126_shown m pid os : history 0 os -> read_all (run (init_header m pid) os) = Some (expected os).
Proof. intros H. apply table_read. unfold expected. apply run_table; [apply table_open|exact H]. Qed.
Print Assumptions C126_shown.
(** A node is given the place it has in the list. *)
Theorem C126_place m pid os n o r c : history 0 (os ++ [Reg n o r c]) ->
  snd (register (run (init_header m pid) os) n o r c) = List.length (expected os).
Proof.
  intros H.
  assert (G : forall os t, history t (os ++ [Reg n o r c]) -> history t os /\ forall u : list shown, List.length u = t ->
             List.length (fold_left expected_step os u) < 64 /\ good_name n /\ (o < 256)%N /\ (c < 256)%N /\ (r < 256 ^ 4)%N).
  { clear. induction os as [|[n' o' r' c'|i vs] os IH]; intros t H; cbn [app history] in H |- *.
    - split; [exact I|]. intros u <-. cbn [fold_left]. tauto.
    - destruct H as (H1 & H2 & H3 & H4 & H5 & H6). destruct (IH _ H6) as [A B]. split; [tauto|]. intros u <-. cbn [fold_left expected_step]. apply B. rewrite app_length. cbn [List.length]. lia.
    - destruct H as (H1 & H2 & H3). destruct (IH _ H3) as [A B]. split; [tauto|]. intros u <-. cbn [fold_left expected_step]. apply B. apply change_length. }
  destruct (G _ _ H) as [A B]. destruct (B [] eq_refl) as (B1 & B2 & B3 & B4 & B5).
  apply (table_register (run (init_header m pid) os) (expected os) n o r c); auto. apply run_table; [apply table_open|exact A].
Qed.
Print Assumptions C126_place.
(** Refuted: "every node of a scheduler is listed".  With 64 nodes the next is not, and is given the place of the 64th:
    what is written for it appears as the 64th node's. *)
Theorem C126_more_refuted m pid os n o r c vs : history 0 os -> List.length (expected os) = 64 -> fits vs ->
  let t := run (init_header m pid) os in
  register t n o r c = (t, 63) /\ read_all (update t 63 vs) = Some (change 63 (fun s => with_numbers s vs) (expected os)).
Proof.
  intros H L F t. assert (T : table t (expected os)) by (apply run_table; [apply table_open|exact H]). split.
  - unfold register. destruct T as (_ & C & _). rewrite C, L. reflexivity.
  - apply table_read, table_update; auto. rewrite L. lia.
Qed.
Print Assumptions C126_more_refuted.
(** Refuted: "a node is listed under its name".  Only 47 bytes are kept, so longer names become alike ... *)
Theorem C126_cut_refuted m n1 n2 o r c : firstn 47 n1 = firstn 47 n2 -> register m n1 o r c = register m n2 o r c.
Proof. intros E. unfold register, name_field. rewrite E. reflexivity. Qed.
Print Assumptions C126_cut_refuted.
(** ... and a name cut inside a character is not listed at all. *)
Theorem C126_split_refuted : exists n, utf8 n = true /\ n <> [] /\ forall m pid, read_all (run (init_header m pid) [Reg n 0 0 0]) = Some [].
Proof.
  exists (repeat 97%N 46 ++ [195; 169]%N). split; [vm_compute; reflexivity|]. split; [discriminate|]. intros m pid.
  destruct (table_open m pid) as (M & C & _ & _). cbn [run fold_left step]. unfold register. rewrite C. cbn [MAX_NODES Nat.leb List.length fst].
  set (b := slot_at 0). set (m1 := put (init_header m pid) b _). set (m2 := write_fields m1 b fields _).
  assert (B : b = 64) by reflexivity.
  unfold read_all. rewrite count_step by lia. rewrite get_put_other by (rewrite le_enc_length; lia).
  unfold m2 at 1. rewrite write_other by (try apply fields_inside; lia). unfold m1 at 1.
  rewrite get_put_other by lia. rewrite M, le_dec_enc by reflexivity. rewrite N.eqb_refl. cbn [Nat.min MAX_NODES Nat.add seq flat_map]. apply f_equal.
  rewrite app_nil_r. unfold read_slot, read_name. fold b. rewrite get_put_other by (rewrite le_enc_length; lia).
  unfold m2. rewrite write_other by (try apply fields_inside; lia). unfold m1. rewrite get_put_same by apply name_length.
  vm_compute. reflexivity.
Qed.
Print Assumptions C126_split_refuted.
(** Refuted: "the listed state is the node's state".  In every listing after every history it is "running": nothing ever writes another. *)
Theorem C126_state_refuted m pid os l s : history 0 os -> read_all (run (init_header m pid) os) = Some l -> In s l -> nth 0 (snd s) 1%N = 0%N.
Proof.
  intros H R I. rewrite C126_shown in R by exact H. injection R as <-.
  assert (G : forall os u, Forall (fun s : shown => nth 0 (snd s) 1%N = 0%N) u -> Forall (fun s : shown => nth 0 (snd s) 1%N = 0%N) (fold_left expected_step os u)).
  { clear. induction os as [|[n o r c|i vs] os IH]; intros u F; cbn [fold_left expected_step]; auto; apply IH.
    - apply Forall_app. split; [exact F|]. constructor; [reflexivity|constructor].
    - revert i. induction F as [|x l X F IHF]; intros i; destruct i; cbn [change]; constructor; auto.
      destruct x as [nm us]. unfold with_numbers. cbn [fst snd] in *.
      repeat (match goal with |- context [match ?e with _ => _ end] => destruct e; auto end). }
  specialize (G os [] (Forall_nil _)). rewrite Forall_forall in G. apply G, I.
Qed.
Print Assumptions C126_state_refuted.
(** Refuted: "a scheduler's table is its own".  A second scheduler of the same name empties the list of the first ... *)
Theorem C126_same_name_refuted m pid : read_all (init_header m pid) = Some [].
Proof. apply table_read, table_open. Qed.
Print Assumptions C126_same_name_refuted.
(** ... and what the first goes on writing for its node appears under the name of the second's. *)
Theorem C126_mixed_refuted m pid pid' n o r c n' o' r' c' vs : history 0 [Reg n o r c; Upd 0 vs] -> history 0 [Reg n' o' r' c'] ->
  read_all (run (init_header (run (init_header m pid) [Reg n o r c]) pid') [Reg n' o' r' c'; Upd 0 vs]) = Some [with_numbers (fresh n' o' r' c') vs].
Proof. intros H H'. cbn [history] in H, H'. apply C126_shown. cbn [history]. tauto. Qed.
Print Assumptions C126_mixed_refuted.
(** Refuted: "the listed order is the node's priority".  It is kept in a byte. *)
Theorem C126_order_refuted m n o r c : register m n (o + 256) r c = register m n o r c.
Proof.
  unfold register. destruct (MAX_NODES <=? count_of m); [reflexivity|]. unfold fields. cbn [write_fields].
  replace (le_enc 1 (o + 256)) with (le_enc 1 o); [reflexivity|].
  cbn [le_enc]. f_equal. replace (o + 256)%N with (o + 1 * 256)%N by lia. rewrite N.mod_add by discriminate. reflexivity.
Qed.
Print Assumptions C126_order_refuted.
(** Two nodes, updated in turn, over a file full of rubbish. *)
Definition demo : list op :=
  [Reg (bs "arm") 3 10000 0; Reg (bs "cam") 7 3000 1; Upd 1 [1; 5; 0; 2; 0; 1; 900; 800; 1000; 990]; Upd 0 [0; 70000; 1; 0; 0; 0; 10; 11; 12; 13]; Upd 1 [0; 6; 0; 2; 0; 0; 700; 790; 1000; 990]]%N.
Lemma demo_history : history 0 demo.
Proof. cbn [history demo]. unfold good_name, fits. repeat split; try lia; try discriminate; try (vm_compute; intuition discriminate); try (vm_compute; lia); repeat constructor. Qed.
Example C126_ex : history 0 demo /\ expected demo =
  [(bs "arm", [0; 0; 0; 3; 10000; 70000; 1; 0; 0; 0; 10; 11; 12; 13]); (bs "cam", [0; 0; 1; 7; 3000; 6; 0; 2; 0; 0; 700; 790; 1000; 990])]%N /\
  read_all (run (init_header (fun _ => 255%N) 42) demo) = Some (expected demo).
Proof. split; [exact demo_history|]. split; [vm_compute; reflexivity|apply C126_shown, demo_history]. Qed.
(** 64 nodes meet the hypotheses of [C126_more_refuted]. *)
Definition full : list op := repeat (Reg (bs "node") 0 0 0) 64.
Example C126_full_ex : history 0 full /\ List.length (expected full) = 64 /\ fits [0; 0; 0; 0; 0; 0; 0; 0; 0; 0]%N.
Proof.
  split; [|split; [vm_compute; reflexivity|repeat constructor]].
  assert (G : good_name (bs "node")) by (unfold good_name; repeat split; try discriminate; vm_compute; try lia; intuition discriminate).
  assert (X : forall k n, n + k <= 64 -> history n (repeat (Reg (bs "node") 0 0 0) k)).
  { induction k as [|k IH]; intros n L; cbn [repeat history]; [exact I|]. repeat split; try lia; try apply G. apply IH. lia. }
  apply X. lia.
Qed.
