(** Execution order of nodes: horus_core/src/scheduling/dependency_graph.rs, and the parallel dispatcher driven by
    it, scheduler/mod.rs:5101-5338.  Nodes are indices; topic names are numbers (the code compares strings). *)
From Verif.Base Require Import Prelude.

(** What the graph is built from (dependency_graph.rs:66-88): the topics the node registry lists for a node, and
    its [.order()] value. *)
Record gnode := GNode { g_pubs : list nat; g_subs : list nat; g_order : nat }.

(** Auxiliary: update of a total function at one point (a store to one array element). *)
Definition fupd {A} (f : nat -> A) (i : nat) (x : A) : nat -> A := fun j => if j =? i then x else f j.

(** Auxiliary: [nodes[i]]. *)
Definition nth_node (nodes : list gnode) (i : nat) : gnode := nth i nodes (GNode [] [] 0).
(** :66-81 [topic_producers]: node [i] is pushed once per entry of its publisher list *)
Definition producers_of (nodes : list gnode) (topic : nat) : list nat :=
  flat_map (fun i => map (fun _ => i) (filter (Nat.eqb topic) (g_pubs (nth_node nodes i)))) (seq 0 (length nodes)).
(** :104-106 *)
Definition add_edge (i : nat) (e : nat -> list nat) (producer : nat) : nat -> list nat :=
  if (producer =? i) || existsb (Nat.eqb i) (e producer) then e else fupd e producer (e producer ++ [i]).
(** :98-111 *)
Definition build_edges (nodes : list gnode) : nat -> list nat :=
  fold_left (fun e i =>
    fold_left (fun e topic => fold_left (add_edge i) (producers_of nodes topic) e) (g_subs (nth_node nodes i)) e)
    (seq 0 (length nodes)) (fun _ => []).
(** :114-119, :262-267: one per edge into the node.  Simplified: the counting loop is a count of occurrences. *)
Definition in_degrees (e : nat -> list nat) (n : nat) : nat -> nat :=
  fun i => count_occ Nat.eq_dec (flat_map e (seq 0 n)) i.

(** :290-292: [in_degree[dep] -= 1]; [None] is the overflow panic *)
Fixpoint lower_all (d : nat -> nat) (l : list nat) : option (nat -> nat) :=
  match l with
  | [] => Some d
  | x :: r => match d x with O => None | S k => lower_all (fupd d x k) r end
  end.
(** The locals of the loop, :274-283: in-degrees, remaining set, count. *)
Record kahn := Kahn { k_degree : nat -> nat; k_remaining : nat -> bool; k_processed : nat }.
(** :286-293 *)
Fixpoint retire (e : nat -> list nat) (st : kahn) (step : list nat) : option kahn :=
  match step with
  | [] => Some st
  | x :: r => match lower_all (k_degree st) (e x) with
              | None => None
              | Some d => retire e (Kahn d (fupd (k_remaining st) x false) (S (k_processed st))) r
              end
  end.
(** The nodes of in-degree 0 that remain, :287-289. *)
Definition ready_nodes (n : nat) (st : kahn) : list nat :=
  filter (fun i => k_remaining st i && (k_degree st i =? 0)) (seq 0 n).
(** :273-297, the loop; the fuel is never used up (proved) *)
Fixpoint kahn_loop (fuel : nat) (e : nat -> list nat) (n : nat) (st : kahn) : option (list (list nat) * kahn) :=
  match fuel with
  | O => None
  | S f =>
      match ready_nodes n st with
      | [] => Some ([], st)
      | step => match retire e st step with
                | None => None
                | Some st' => match kahn_loop f e n st' with Some (l, s) => Some (step :: l, s) | None => None end
                end
      end
  end.
(** Steps, the cycle error (:308-313), or the overflow panic. *)
Inductive gresult := GSteps (steps : list (list nat)) | GCycle (involved : list nat) | GPanic.
(** :258-308 [topological_parallel_sort] *)
Definition parallel_sort (e : nat -> list nat) (n : nat) : gresult :=
  match kahn_loop (S n) e n (Kahn (in_degrees e n) (fun _ => true) 0) with
  | None => GPanic
  | Some (steps, st) => if k_processed st <? n then GCycle (filter (k_remaining st) (seq 0 n)) else GSteps steps
  end.

(** :134-175 [build_from_order]: sorted distinct order values, one step each *)
Fixpoint insert_order (x : nat) (l : list nat) : list nat :=
  match l with [] => [x] | y :: r => if x <? y then x :: l else if x =? y then l else y :: insert_order x r end.
(** The distinct order values, sorted, :136-139. *)
Definition order_values (nodes : list gnode) : list nat := fold_right insert_order [] (map g_order nodes).
(** One step per order value, :141-145. *)
Definition order_steps (nodes : list gnode) : list (list nat) :=
  map (fun o => filter (fun i => g_order (nth_node nodes i) =? o) (seq 0 (length nodes))) (order_values nodes).
(** :154-163: everything in a step precedes everything in the next one *)
Fixpoint tier_edges (steps : list (list nat)) (i : nat) : list nat :=
  match steps with
  | [] => []
  | a :: r => match r with [] => [] | b :: _ => if existsb (Nat.eqb i) a then b else tier_edges r i end
  end.

(** Does any node list topics: :69-88. *)
Definition has_metadata (nodes : list gnode) : bool :=
  existsb (fun x => negb (match g_pubs x with [] => true | _ => false end) || negb (match g_subs x with [] => true | _ => false end)) nodes.
(** :51-131 [build]: the steps and the successor lists *)
Definition graph_edges (nodes : list gnode) : nat -> list nat :=
  if has_metadata nodes then build_edges nodes else tier_edges (order_steps nodes).
(** [build], :53-131: topic edges if any metadata, otherwise order tiers. *)
Definition graph_build (nodes : list gnode) : gresult :=
  if has_metadata nodes then parallel_sort (build_edges nodes) (length nodes) else GSteps (order_steps nodes).

(** ** Parallel dispatch (scheduler/mod.rs:5115-5327) *)
Inductive worker := WIdle | WRun (i : nat) | WNotify (i : nat) (l : list nat).
(** Observable: a node's tick begins, ends. *)
Inductive devent := EStart (i : nat) | EEnd (i : nat).
(** [ds_log] is ghost: what happened, in order. *)
Record dstate := DState { ds_pending : nat -> nat; ds_queue : list nat; ds_workers : list worker; ds_completed : nat; ds_log : list devent }.

Section Dispatch.
  Variables (n : nat) (succ : nat -> list nat) (should_tick : nat -> bool).

  (** The nodes due in this cycle; which are due is an input. *)
  Definition ticking : list nat := filter should_tick (seq 0 n).
  (** :5185-5199: predecessors that do not tick are taken off at once *)
  Definition pending0 (i : nat) : nat :=
    in_degrees succ n i - count_occ Nat.eq_dec (flat_map succ (filter (fun p => negb (should_tick p)) (seq 0 n))) i.
  (** :5205-5209 *)
  Definition dispatch_init (workers : nat) : dstate :=
    DState pending0 (filter (fun i => should_tick i && (pending0 i =? 0)) (seq 0 n)) (repeat WIdle workers) 0 [].

  (** Auxiliary: update of a total function at one point (a store to one array element). *)
  Fixpoint setw (w : nat) (x : worker) (l : list worker) : list worker :=
    match l, w with [], _ => [] | _ :: r, O => x :: r | y :: r, S k => y :: setw k x r end.

  (** One atomic action of a worker thread (:5262-5321). *)
  Definition dispatch_step (w : nat) (st : dstate) : dstate :=
    match nth_error (ds_workers st) w with
    | None => st
    | Some WIdle =>
        if length ticking <=? ds_completed st then st       (* :5264-5266 leaves the loop *)
        else match ds_queue st with
             | [] => st                                     (* :5270 timeout, try again *)
             | i :: r => DState (ds_pending st) r (setw w (WRun i) (ds_workers st)) (ds_completed st) (ds_log st ++ [EStart i])
             end
    | Some (WRun i) =>                                      (* :5297-5305 the tick is over *)
        DState (ds_pending st) (ds_queue st) (setw w (WNotify i (succ i)) (ds_workers st)) (ds_completed st) (ds_log st ++ [EEnd i])
    | Some (WNotify i (s :: l)) =>                          (* :5308-5317 *)
        if should_tick s then
          DState (fupd (ds_pending st) s (ds_pending st s - 1))
                 (if ds_pending st s =? 1 then ds_queue st ++ [s] else ds_queue st)
                 (setw w (WNotify i l) (ds_workers st)) (ds_completed st) (ds_log st)
        else DState (ds_pending st) (ds_queue st) (setw w (WNotify i l) (ds_workers st)) (ds_completed st) (ds_log st)
    | Some (WNotify i []) =>                                (* :5320 *)
        DState (ds_pending st) (ds_queue st) (setw w WIdle (ds_workers st)) (S (ds_completed st)) (ds_log st)
    end.
  Definition dispatch_run (st : dstate) (schedule : list nat) : dstate := fold_left (fun st w => dispatch_step w st) schedule st.

  (** A worker that has something to do: not merely waiting. *)
  Definition can_move (st : dstate) (w : nat) : bool :=
    match nth_error (ds_workers st) w with
    | None => false
    | Some WIdle => (ds_completed st <? length ticking) && negb (match ds_queue st with [] => true | _ => false end)
    | Some _ => true
    end.
End Dispatch.
