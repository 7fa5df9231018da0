(** Vocabulary for configuring a node: what a chain of builder calls asks for, in any order. *)
From Verif Require Import Base.Prelude Base.Bytes Model.FailurePolicy Model.Builder.
Local Open Scope N_scope.

(** The settings a call can concern; the three class calls concern the same one. *)
Inductive kind := KOrder | KClass | KRate | KBudget | KDeadline | KBPolicy | KEdf | KNoAlloc | KMiss | KFail | KPrio
                | KCore | KWatchdog | KFresh.
Definition kind_of (c : call) : kind :=
  match c with
  | COrder _ => KOrder | CCompute | COn _ | CAsync => KClass | CRate _ => KRate | CBudget _ => KBudget
  | CDeadline _ => KDeadline | CBudgetPolicy _ => KBPolicy | CEdf => KEdf | CNoAlloc => KNoAlloc | CMiss _ => KMiss
  | CFail _ => KFail | CPrio _ => KPrio | CCore _ => KCore | CWatchdog _ => KWatchdog | CFresh _ _ => KFresh
  end.
Definition kind_eqb (a b : kind) : bool :=
  match a, b with
  | KOrder, KOrder | KClass, KClass | KRate, KRate | KBudget, KBudget | KDeadline, KDeadline | KBPolicy, KBPolicy
  | KEdf, KEdf | KNoAlloc, KNoAlloc | KMiss, KMiss | KFail, KFail | KPrio, KPrio | KCore, KCore
  | KWatchdog, KWatchdog | KFresh, KFresh => true
  | _, _ => false
  end.
(** The calls about one setting, in order. *)
Definition about (k : kind) (cs : list call) : list call := filter (fun c => kind_eqb (kind_of c) k) cs.

(** The last thing asked. *)
Fixpoint last_some {A B} (f : A -> option B) (l : list A) : option B :=
  match l with
  | [] => None
  | a :: l' => match last_some f l' with Some b => Some b | None => f a end
  end.
Definition asked_class := last_some (fun c => match c with CCompute => Some Compute | COn t => Some (Event t)
                                                        | CAsync => Some AsyncIo | _ => None end).
Definition asked_rate := last_some (fun c => match c with CRate f => Some f | _ => None end).
Definition asked_budget := last_some (fun c => match c with CBudget b => Some b | _ => None end).
Definition asked_deadline := last_some (fun c => match c with CDeadline d => Some d | _ => None end).
Definition asked_miss := last_some (fun c => match c with CMiss m => Some m | _ => None end).
Definition asked_bpolicy := last_some (fun c => match c with CBudgetPolicy p => Some p | _ => None end).
Definition asked_prio := last_some (fun c => match c with CPrio p => Some p | _ => None end).
Definition asked_core := last_some (fun c => match c with CCore p => Some p | _ => None end).
Definition asked_watchdog := last_some (fun c => match c with CWatchdog p => Some p | _ => None end).
Definition asked_failure := last_some (fun c => match c with CFail p => Some p | _ => None end).
Definition asked_order := last_some (fun c => match c with COrder p => Some p | _ => None end).
Definition asked_fresh (cs : list call) : list (bytes * N) :=
  flat_map (fun c => match c with CFresh t x => [(t, x)] | _ => [] end) cs.

(** Frequencies as [.hz()] makes them, and durations that exist. *)
Definition wf_call (c : call) : Prop :=
  match c with
  | CRate f => 0 < hz_num f /\ 0 < hz_den f
  | CBudget d | CDeadline d => d <= dur_max
  | _ => True
  end.
Definition wf (cs : list call) : Prop := forall c, In c cs -> wf_call c.

(** [d] is the fraction [num/100] of the period of [f], to the nearest nanosecond. *)
Definition share (num : N) (f : freq) (d : N) : Prop :=
  2 * 10000000 * num * hz_den f < (2 * d + 1) * hz_num f /\ 2 * d * hz_num f <= 2 * 10000000 * num * hz_den f + hz_num f.

(** The timing an RT node ends up with: explicit values win; a rate gives 80% and 95% of the period; without a
    rate, a budget alone is also the deadline. *)
Definition timing (cs : list call) (b d : option N) : Prop :=
  match asked_budget cs, asked_rate cs with
  | Some x, _ => b = Some x
  | None, Some f => exists x, b = Some x /\ share 80 f x
  | None, None => b = None
  end /\
  match asked_deadline cs, asked_rate cs with
  | Some x, _ => d = Some x
  | None, Some f => exists x, d = Some x /\ share 95 f x
  | None, None => d = asked_budget cs
  end.
(** A representable, non-zero duration. *)
Definition usable (d : option N) : Prop := match d with Some x => 0 < x <= dur_max | None => True end.

(** Does the chain ask for timing at all? *)
Definition timed (cs : list call) : Prop :=
  asked_rate cs <> None \/ asked_budget cs <> None \/ asked_deadline cs <> None.

(** [over o x]: what was asked, or the default. *)
Definition over {A} (o : option A) (x : A) : A := match o with Some a => a | None => x end.
(** The settings other than class and timing are the last ones asked for. *)
Definition asked_all (cs : list call) (r : reg) : Prop :=
  r_order r = over (asked_order cs) 0 /\ r_rate r = asked_rate cs /\ r_failure r = asked_failure cs /\
  r_miss r = over (asked_miss cs) MissWarn /\ r_prio r = asked_prio cs /\ r_core r = asked_core cs /\
  r_watchdog r = asked_watchdog cs /\ r_bpolicy r = over (asked_bpolicy cs) BWarn /\
  (r_edf r = true <-> In CEdf cs) /\ (r_noalloc r = true <-> In CNoAlloc cs) /\ r_fresh r = asked_fresh cs.
