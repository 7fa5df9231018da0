(** Configuring a node: the builder's calls, [finalize], [validate], registration under a name, and the settings
    of the thread an RT node runs on.  Models horus_core/src/scheduling/node_builder.rs, core/duration_ext.rs,
    scheduler/mod.rs:1721-1876 (registration) and rt_executor.rs:618-700.  Durations are nanoseconds. *)
From Coq Require Import String.
From Verif Require Import Base.Prelude Base.Bytes Base.Str Model.FailurePolicy.
Open Scope list_scope.
Local Open Scope N_scope.

(** [ExecutionClass], scheduling/types.rs. *)
Inductive eclass := BestEffort | RtClass | Compute | AsyncIo | Event (topic : bytes).
(** [Miss], core/node.rs. *)
Inductive miss := MissWarn | MissSkip | MissSafe | MissStop.
(** [BudgetPolicy], safety_monitor.rs. *)
Inductive bpolicy := BWarn | BEnforce | BStop.

(** [Frequency], duration_ext.rs:50-88: the exact rational [hz_num / hz_den] Hz, both positive ([hz()], 114-205,
    asserts finite and positive).  Simplified: f64 rounding of the frequency and of the quotients is not modelled. *)
Record freq := Hz { hz_num : N; hz_den : N }.
(** [Duration::from_secs_f64] of [num/den] ns: the nearest nanosecond; [None] is its panic above [Duration::MAX]. *)
Definition from_ns (num den : N) : option N :=
  let d := (2 * num + den) / (2 * den) in if dur_max <? d then None else Some d.
(** [period], duration_ext.rs:65-68. *)
Definition period (f : freq) : option N := from_ns (1000000000 * hz_den f) (hz_num f).
(** [budget_default], duration_ext.rs:75-77. *)
Definition budget_default (f : freq) : option N := from_ns (800000000 * hz_den f) (hz_num f).
(** [deadline_default], duration_ext.rs:84-86. *)
Definition deadline_default (f : freq) : option N := from_ns (950000000 * hz_den f) (hz_num f).

(** [NodeRegistration], node_builder.rs:103-153.  Not modelled: the node itself. *)
Record reg := Reg { r_order : N; r_rate : option freq; r_rt : bool; r_budget : option N; r_deadline : option N;
                    r_failure : option N; r_miss : miss; r_class : eclass; r_prio : option Z; r_core : option N;
                    r_watchdog : option N; r_bpolicy : bpolicy; r_edf : bool; r_noalloc : bool;
                    r_fresh : list (bytes * N); r_auto : bool }.
(** [NodeRegistration::new], node_builder.rs:163-184. *)
Definition reg0 : reg :=
  Reg 0 None false None None None MissWarn BestEffort None None None BWarn false false [] false.

(** The builder's methods, node_builder.rs:201-493 (mirrored by [NodeBuilder], 800-954).  [CFail p] is the policy,
    opaque here; [CFresh] is [subscribe_with_timeout], whose stale policy and start time are not modelled. *)
Inductive call :=
| COrder (n : N) | CCompute | COn (topic : bytes) | CAsync | CRate (f : freq) | CBudget (d : N) | CDeadline (d : N)
| CBudgetPolicy (p : bpolicy) | CEdf | CNoAlloc | CMiss (m : miss) | CFail (p : N) | CPrio (p : Z) | CCore (c : N)
| CWatchdog (d : N) | CFresh (topic : bytes) (timeout : N).

(** The class calls: node_builder.rs:220-266; the last one wins ([warn_class_override] only logs). *)
Definition set_class (k : eclass) (r : reg) : reg :=
  Reg (r_order r) (r_rate r) (r_rt r) (r_budget r) (r_deadline r) (r_failure r) (r_miss r) k (r_prio r) (r_core r)
      (r_watchdog r) (r_bpolicy r) (r_edf r) (r_noalloc r) (r_fresh r) (r_auto r).
(** One call: node_builder.rs:201-493 and 930-947 ([subscribe_with_timeout]). *)
Definition apply (r : reg) (c : call) : reg :=
  let 'Reg o f rt b d fp ms k pr co wd bp edf na fr au := r in
  match c with
  | COrder n => Reg n f rt b d fp ms k pr co wd bp edf na fr au
  | CCompute => set_class Compute r
  | COn t => set_class (Event t) r
  | CAsync => set_class AsyncIo r
  | CRate f' => Reg o (Some f') rt b d fp ms k pr co wd bp edf na fr au
  | CBudget b' => Reg o f rt (Some b') d fp ms k pr co wd bp edf na fr au
  | CDeadline d' => Reg o f rt b (Some d') fp ms k pr co wd bp edf na fr au
  | CBudgetPolicy p => Reg o f rt b d fp ms k pr co wd p edf na fr au
  | CEdf => Reg o f rt b d fp ms k pr co wd bp true na fr au
  | CNoAlloc => Reg o f rt b d fp ms k pr co wd bp edf true fr au
  | CMiss m => Reg o f rt b d fp m k pr co wd bp edf na fr au
  | CFail p => Reg o f rt b d (Some p) ms k pr co wd bp edf na fr au
  | CPrio p => Reg o f rt b d fp ms k (Some p) co wd bp edf na fr au
  | CCore c => Reg o f rt b d fp ms k pr (Some c) wd bp edf na fr au
  | CWatchdog w => Reg o f rt b d fp ms k pr co (Some w) bp edf na fr au
  | CFresh t x => Reg o f rt b d fp ms k pr co wd bp edf na (fr ++ [(t, x)]) au
  end.

(** [matches!(class, BestEffort)]. *)
Definition is_best (k : eclass) : bool := match k with BestEffort => true | _ => false end.
(** [Option::is_some]. *)
Definition set {A} (o : option A) : bool := match o with Some _ => true | None => false end.
(** [finalize], node_builder.rs:502-551; [None] is the panic of [from_secs_f64]. *)
Definition finalize (r : reg) : option reg :=
  let 'Reg o f rt b d fp ms k pr co wd bp edf na fr au := r in
  let explicit := set b || set d in
  let derived :=
    match f with
    | Some q =>
        if rt || is_best k then
          match (match b with Some _ => Some b | None => option_map Some (budget_default q) end),
                (match d with Some _ => Some d | None => option_map Some (deadline_default q) end) with
          | Some b', Some d' => Some (b', d', match d with Some _ => au | None => true end)
          | _, _ => None
          end
        else Some (b, d, au)
    | None => Some (b, d, au)
    end in
  match derived with
  | None => None
  | Some (b1, d1, au1) =>
      let '(rt1, k1) := if set f && is_best k then (true, RtClass) else (rt, k) in
      let d2 := match b1, d1 with Some x, None => Some x | _, _ => d1 end in
      let '(rt2, k2) := if explicit && is_best k1 then (true, RtClass) else (rt1, k1) in
      Some (Reg o f rt2 b1 d2 fp ms k2 pr co wd bp edf na fr au1)
  end.

(** The errors of [validate]. *)
Inductive verr := ERate | ETopic | EDeadline | EBudget | EFresh | ENoAlloc | EClass | ENotRt.
(** The checks of [validate], node_builder.rs:564-729, in order; the rest of it, 731-757, only logs. *)
Definition check (r : reg) : option verr :=
  if match r_rate r with Some f => (hz_num f =? 0) || (hz_den f =? 0) | None => false end then Some ERate
  else if match r_class r with Event [] => true | _ => false end then Some ETopic
  else if match r_deadline r with Some d => d =? 0 | None => false end then Some EDeadline
  else if match r_budget r with Some b => b =? 0 | None => false end then Some EBudget
  else if match r_fresh r with [] => false | _ => negb (is_best (r_class r)) end then Some EFresh
  else if r_noalloc r && negb (r_rt r) && negb (match r_class r with RtClass => true | _ => false end)
       then Some ENoAlloc
  else if r_rt r && negb (match r_class r with RtClass | BestEffort => true | _ => false end) then Some EClass
  else if negb (r_rt r) && (set (r_budget r) || set (r_deadline r)) then Some ENotRt
  else None.
(** What [build] comes to. *)
Inductive built := Built (r : reg) | Refused (e : verr) | Panicked.
(** [validate], node_builder.rs:559-758. *)
Definition validate (r : reg) : built :=
  match finalize r with
  | None => Panicked
  | Some r' => match check r' with Some e => Refused e | None => Built r' end
  end.
(** [scheduler.add(node).….build()], node_builder.rs:985-988: the chain of calls, then [validate]. *)
Definition build (cs : list call) : built := validate (fold_left apply cs reg0).

(** [check_tick_budget], primitives.rs:318-330, as the RT executor calls it (rt_executor.rs:290-300). *)
Definition overruns (r : reg) (took : N) : bool := match r_budget r with Some b => b <? took | None => false end.
(** [check_deadline], primitives.rs:339-360, called at rt_executor.rs:372-373: [elapsed] since the tick began. *)
Definition misses (r : reg) (elapsed : N) : bool := match r_deadline r with Some d => d <? elapsed | None => false end.

(** The thread of a chain of RT nodes, [rt_thread_main], rt_executor.rs:627-694: the [SCHED_FIFO] priority, the
    [SCHED_DEADLINE] parameters it asks the kernel for (runtime, deadline, period), and the CPUs it is pinned to. *)
Record thread := Thread { t_prio : Z; t_edf : option (N * N * N); t_cpus : list N }.
(** [.max()] of the priorities, rt_executor.rs:627-631. *)
Definition max_prio (l : list reg) : Z :=
  match flat_map (fun r => match r_prio r with Some p => [p] | None => [] end) l with
  | [] => 80%Z
  | p :: ps => fold_left Z.max ps p
  end.
(** The node whose timing is used: the first with a budget and a rate, rt_executor.rs:638-641. *)
Definition edf_node (l : list reg) : option reg := find (fun r => set (r_budget r) && set (r_rate r)) l.
(** The parameters: rt_executor.rs:634-648.  [(1e9 / rate) as u64] truncates. *)
Definition edf_params (r : reg) : N * N * N :=
  let p := match r_rate r with Some f => (1000000000 * hz_den f) / hz_num f | None => 0 end in
  (match r_budget r with Some b => b | None => 0 end, match r_deadline r with Some d => d | None => p end, p).
(** [rt_thread_main]'s setup, rt_executor.rs:627-694; [cpus] are the recommended RT CPUs. *)
Definition thread_of (cpus : list N) (l : list reg) : thread :=
  Thread (max_prio l)
         (if existsb r_edf l then option_map edf_params (edf_node l) else None)
         (match flat_map (fun r => match r_core r with Some c => [c] | None => [] end) l with
          | c :: _ => [c] | [] => cpus end).

(** [nodes.sort_by_key(|n| n.priority)], stable, rt_executor.rs:98. *)
Fixpoint put_reg (r : reg) (l : list reg) : list reg :=
  match l with
  | [] => [r]
  | x :: l' => if r_order r <=? r_order x then r :: l else x :: put_reg r l'
  end.
(** The sort itself: insertion from the right, so equal priorities keep their order. *)
Definition sort_regs (l : list reg) : list reg := fold_right put_reg [] l.
(** The highest rate, rt_executor.rs:101-104. *)
Definition fastest (l : list reg) : option freq :=
  fold_left (fun m r => match r_rate r, m with
                        | Some f, Some g => if hz_num g * hz_den f <? hz_num f * hz_den g then Some f else Some g
                        | Some f, None => Some f
                        | None, _ => m
                        end) l None.
(** The period of a thread, rt_executor.rs:106-110; [None] is the panic of [period()]. *)
Definition thread_period (fallback : N) (l : list reg) : option N :=
  match fastest l with Some f => period f | None => Some fallback end.
(** [start_pool], rt_executor.rs:86-140: one thread for each chain, with its period; [i] is [chain_idx]. *)
Fixpoint start_pool (fallback : N) (cpus : list N) (i : nat) (chains : list (list reg)) : option (list (N * thread)) :=
  match chains with
  | [] => Some []
  | c :: rest =>
      let nodes := sort_regs c in
      match thread_period fallback nodes, start_pool fallback cpus (S i) rest with
      | Some p, Some ts =>
          Some ((p, thread_of (match cpus with [] => [] | _ => [nth (i mod length cpus) cpus 0] end) nodes) :: ts)
      | _, _ => None
      end
  end.

(** ** Names *)
(** Names are lists of Unicode code points. *)
(** [c.is_control() || ('\u{80}'..='\u{9f}').contains(&c)], presence.rs:271, 277. *)
Definition control (c : N) : bool := (c <? 32) || ((127 <=? c) && (c <=? 159)).
(** One lower-case hexadecimal digit. *)
Definition hex (d : N) : N := if d <? 10 then 48 + d else 87 + d.
(** [write!(out, "\\x{:02x}", c)] for a code point below 256. *)
Definition escaped (c : N) : list N := [92; 120; hex (c / 16); hex (c mod 16)].
(** [escape_control_chars], presence.rs:266-285. *)
Definition escape (s : list N) : list N := flat_map (fun c => if control c then escaped c else [c]) s.

(** What registration keeps: the names in [self.nodes] and [duplicate_node_name]. *)
Record names := Names { n_list : list (list N); n_dup : option (list N) }.
(** [add_configured_internal], scheduler/mod.rs:1755-1785. *)
Definition register (ns : names) (name : list N) : names :=
  let e := escape name in
  Names (n_list ns ++ [e]) (if existsb (beqb e) (n_list ns) then Some e else n_dup ns).
(** A scheduler to which these names were added. *)
Definition add_all (l : list (list N)) : names := fold_left register l (Names [] None).
(** [run]/[tick_once], scheduler/mod.rs:2131-2146 and 2472-2487: refused with the name if one is recorded. *)
Definition start (ns : names) : option (list N) := n_dup ns.
