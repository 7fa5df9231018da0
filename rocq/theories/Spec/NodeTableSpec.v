(** What the live table of nodes is to show. *)
From Verif.Base Require Import Prelude Bytes Str.
From Verif.Model Require Import LogEntry NodeTable.
Open Scope nat_scope.

(** What is known of a node: name, then state, health, class, order, rate, and the ten numbers of its ticks. *)
Definition shown := (bytes * list N)%type.

(** A node that was just registered: running, healthy, nothing counted. *)
Definition fresh (name : bytes) (order rate class : N) : shown :=
  (name, [0; 0; class; order; rate; 0; 0; 0; 0; 0; 0; 0; 0; 0]%N).

(** The same node with new numbers; state, class, order and rate are as they were. *)
Definition with_numbers (s : shown) (vs : list N) : shown :=
  match snd s, vs with
  | [state; _; class; order; rate; _; _; _; _; _; _; _; _; _], health :: rest => (fst s, state :: health :: class :: order :: rate :: rest)
  | _, _ => s
  end.

(** Entry [i] of a list changed. *)
Fixpoint change {A} (i : nat) (f : A -> A) (l : list A) : list A :=
  match l, i with
  | [], _ => []
  | x :: r, O => f x :: r
  | x :: r, S j => x :: change j f r
  end.

(** The table after a history. *)
Definition expected_step (t : list shown) (o : op) : list shown :=
  match o with
  | Reg n o r c => t ++ [fresh n o r c]
  | Upd i vs => change i (fun s => with_numbers s vs) t
  end.
(** From an empty table. *)
Definition expected (os : list op) : list shown := fold_left expected_step os [].

(** A name the table can hold: not empty, UTF-8 without zero bytes, at most 47 bytes. *)
Definition good_name (n : bytes) : Prop := n <> [] /\ utf8 n = true /\ ~ In 0%N n /\ length n <= 47.

(** Numbers that fit their fields: a byte, 8 bytes, three times 4, a byte, four times 8. *)
Definition fits (vs : list N) : Prop :=
  Forall2 (fun v w => v < 256 ^ N.of_nat w)%N vs [1; 8; 4; 4; 4; 1; 8; 8; 8; 8].

(** A history a scheduler can have: at most 64 nodes, updates of nodes that are registered. *)
Fixpoint history (n : nat) (os : list op) : Prop :=
  match os with
  | [] => True
  | Reg name o r c :: rest => n < 64 /\ good_name name /\ (o < 256)%N /\ (c < 256)%N /\ (r < 256 ^ 4)%N /\ history (S n) rest
  | Upd i vs :: rest => i < n /\ fits vs /\ history n rest
  end.
