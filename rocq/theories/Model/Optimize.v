(** Model of horus_net/src/optimize/{mod,fusion,delta,predict,spatial}.rs.
    Simplified: the byte counters kept for metrics are omitted; times are nanoseconds passed in
    ([Instant::now()]); the predictor's f64 comparison of the normalised error with the threshold is the
    parameter [close] applied to the exact integer sums (sums of squares of differences of bytes stay far
    below 2^53, so the f64 sums are exact; only the final division, square root and comparison round). *)
From Coq Require Import String.
From Verif.Base Require Import Prelude Bytes AMap Str.
From Verif.Model Require Import Wire.
Open Scope list_scope.
Open Scope N_scope.

(** ** mod.rs: the chain, for any type [O] of optimizers *)
Section Chain.
  Context {O : Type}.
  (** mod.rs:22 [on_outgoing]: changes the optimizer's state and replaces the batch *)
  Variable on_outgoing : O -> list OutMessage -> O * list OutMessage.
  (** mod.rs:25 [on_incoming] *)
  Variable on_incoming : O -> list InMessage -> O * list InMessage.

  (** mod.rs:92-94: each optimizer in turn *)
  Fixpoint run_chain (step : O -> list OutMessage -> O * list OutMessage) (os : list O) (ms : list OutMessage)
    : list O * list OutMessage :=
    match os with
    | [] => ([], ms)
    | o :: r => let '(o', ms1) := step o ms in
                let '(r', ms2) := run_chain step r ms1 in
                (o' :: r', ms2)
    end.
  (** mod.rs:83-89 *)
  Definition is_immediate (m : OutMessage) : bool := match om_prio m with Immediate => true | _ => false end.
  (** mod.rs:75-99 *)
  Definition process_outgoing (os : list O) (ms : list OutMessage) : list O * list OutMessage :=
    match os with
    | [] => ([], ms)
    | _ :: _ =>
      let immediate := filter is_immediate ms in
      let rest := filter (fun m => negb (is_immediate m)) ms in
      let '(os', rest') := run_chain on_outgoing os rest in
      (os', immediate ++ rest')
    end.
  (** mod.rs:102-111: in reverse order *)
  Definition process_incoming (os : list O) (ms : list InMessage) : list O * list InMessage :=
    let '(os', ms') := run_chain on_incoming (rev os) ms in (rev os', ms').
End Chain.

(** ** fusion.rs *)
(** fusion.rs:19-28 *)
Record Fusion := mkFusion { fu_window : N; fu_buffer : list OutMessage; fu_start : option N }.
(** fusion.rs:16, 37-45: 500 us *)
Definition fusion_new : Fusion := mkFusion 500000 [] None.
(** fusion.rs:64-95 *)
Definition fusion_out (now : N) (f : Fusion) (ms : list OutMessage) : Fusion * list OutMessage :=
  match ms with
  | [] => (f, [])
  | _ :: _ =>
    match fu_start f with
    | None => (mkFusion (fu_window f) (fu_buffer f ++ ms) (Some now), [])
    | Some start =>
      if fu_window f <=? now - start
      then (mkFusion (fu_window f) [] None, fu_buffer f ++ ms)
      else (mkFusion (fu_window f) (fu_buffer f ++ ms) (Some start), [])
    end
  end.

(** ** delta.rs *)
(** delta.rs:20-31 *)
Record Delta := mkDelta { de_last : list (N * bytes); de_since : list (N * N); de_interval : N }.
(** delta.rs:17, 40-48 *)
Definition delta_new : Delta := mkDelta [] [] 100.
(** delta.rs:131-155: the changed regions (offset, new bytes); [cur] is the region being scanned *)
Definition flush_region (cur : option (nat * bytes)) : list (nat * bytes) :=
  match cur with None => [] | Some r => [r] end.
(** delta.rs:137-161: the regions that differ *)
Fixpoint changed (i : nat) (cur : option (nat * bytes)) (old new : bytes) : list (nat * bytes) :=
  match old, new with
  | a :: o, b :: n =>
    if a =? b then flush_region cur ++ changed (S i) None o n
    else changed (S i) (Some (match cur with None => (i, [b]) | Some (s, d) => (s, d ++ [b]) end)) o n
  | _, _ => flush_region cur
  end.
(** delta.rs:152-154 *)
Definition encode_region (r : nat * bytes) : bytes :=
  le_enc 2 (N.of_nat (fst r)) ++ le_enc 2 (N.of_nat (length (snd r))) ++ snd r.
(** delta.rs:149-151 *)
Definition region_fits (r : nat * bytes) : bool :=
  (N.of_nat (fst r) <=? 65535) && (N.of_nat (length (snd r)) <=? 65535).
(** delta.rs:125-158 *)
Definition compute_delta (old new : bytes) : bytes :=
  if negb (length old =? length new)%nat then new
  else let rs := changed 0 None old new in
       if forallb region_fits rs then flat_map encode_region rs else new.
(** delta.rs:98: replace the payload *)
Definition with_payload (m : OutMessage) (p : bytes) : OutMessage :=
  mkOut (om_topic m) p (om_ts m) (om_seq m) (om_prio m) (om_rel m) (om_enc m).
(** delta.rs:67-107: one message; [None] = suppressed *)
Definition delta_one (d : Delta) (m : OutMessage) : Delta * option OutMessage :=
  let h := om_topic m in
  let since := (match lookup N.eqb h (de_since d) with Some n => n | None => 0 end) + 1 in
  let sent s := mkDelta (insert N.eqb h (om_payload m) (de_last d)) (insert N.eqb h s (de_since d)) (de_interval d) in
  match lookup N.eqb h (de_last d) with
  | None => (sent 0, Some m)
  | Some prev =>
    if de_interval d <=? since then (sent 0, Some m)
    else if beqb prev (om_payload m)
    then (mkDelta (de_last d) (insert N.eqb h since (de_since d)) (de_interval d), None)
    else let delta := compute_delta prev (om_payload m) in
         if (length delta <? length (om_payload m) * 3 / 4)%nat
         then (sent since, Some (with_payload m delta))
         else (sent since, Some m)
  end.

(** ** predict.rs *)
Section Predict.
  (** predict.rs:131-139: [close error_sq magnitude_sq] = normalised error below the threshold *)
  Variable close : Z -> Z -> bool.
  (** predict.rs:21-30 *)
  Record TopicState := mkTS { ts_prev : bytes; ts_velocity : list Z; ts_suppress : N; ts_seen : N }.
  (** The map of predict.rs:34. *)
  Definition Predict := list (N * TopicState).
  (** predict.rs:78-83 *)
  Definition ts_new : TopicState := mkTS [] [] 0 0.
  (** predict.rs:91-96 *)
  Definition velocity (prev now : bytes) : list Z :=
    map (fun ab => (Z.of_N (snd ab) - Z.of_N (fst ab))%Z) (combine prev now).
  (** predict.rs:120-129 *)
  Fixpoint error_sq (prev : bytes) (vel : list Z) (now : bytes) : Z :=
    match prev, vel, now with
    | a :: p, v :: vs, b :: n => let d := (Z.of_N b - (Z.of_N a + v))%Z in (d * d + error_sq p vs n)%Z
    | _, _, _ => 0%Z
    end.
  (** predict.rs:123-130: the sum of squares; the code divides the error by it and takes the root. *)
  Definition magnitude_sq (now : bytes) : Z := fold_right (fun b s => (Z.of_N b * Z.of_N b + s)%Z) 0%Z now.
  (** predict.rs:74-165: one message; [None] = suppressed *)
  Definition predict_one (p : Predict) (m : OutMessage) : Predict * option OutMessage :=
    let h := om_topic m in
    let s := match lookup N.eqb h p with Some s => s | None => ts_new end in
    let seen := ts_seen s + 1 in
    let now := om_payload m in
    let put s' := insert N.eqb h s' p in
    if seen <=? 5 then
      let vel := if negb (length (ts_prev s) =? 0)%nat && (length (ts_prev s) =? length now)%nat
                 then velocity (ts_prev s) now else ts_velocity s in
      (put (mkTS now vel 0 seen), Some m)
    else if 100 <=? ts_suppress s then (put (mkTS now (ts_velocity s) 0 seen), Some m)
    else if negb (length (ts_prev s) =? length now)%nat || negb (length (ts_velocity s) =? length now)%nat
    then (put (mkTS now [] 0 seen), Some m)
    else if close (error_sq (ts_prev s) (ts_velocity s) now) (magnitude_sq now)
    then (put (mkTS now (velocity (ts_prev s) now) (ts_suppress s + 1) seen), None)
    else (put (mkTS now (velocity (ts_prev s) now) 0 seen), Some m).

  (** [Vec::retain_mut] (delta.rs:67, predict.rs:74): a per-message step over the batch *)
  Fixpoint retain {S : Type} (step : S -> OutMessage -> S * option OutMessage) (s : S) (ms : list OutMessage)
    : S * list OutMessage :=
    match ms with
    | [] => (s, [])
    | m :: r => let '(s1, o) := step s m in
                let '(s2, out) := retain step s1 r in
                (s2, match o with Some m' => m' :: out | None => out end)
    end.

  (** ** The installed optimizers (mod.rs:51-66); [spatial] only counts (spatial.rs:95-102) *)
  Inductive Opt := OFusion (f : Fusion) | ODelta (d : Delta) | OSpatial | OPredict (p : Predict).
  (** mod.rs:54-62 *)
  Definition opt_of_name (name : bytes) : option Opt :=
    if beqb name (bs "fusion"%string) then Some (OFusion fusion_new)
    else if beqb name (bs "delta"%string) then Some (ODelta delta_new)
    else if beqb name (bs "spatial"%string) then Some OSpatial
    else if beqb name (bs "predict"%string) then Some (OPredict [])
    else None.
  (** mod.rs:51-66: unknown names are skipped *)
  Definition from_config (names : list bytes) : list Opt :=
    flat_map (fun n => match opt_of_name n with Some o => [o] | None => [] end) names.
  (** mod.rs:92-94: one optimizer applied to a batch. *)
  Definition opt_out (now : N) (o : Opt) (ms : list OutMessage) : Opt * list OutMessage :=
    match o with
    | OFusion f => let '(f', out) := fusion_out now f ms in (OFusion f', out)
    | ODelta d => let '(d', out) := retain delta_one d ms in (ODelta d', out)
    | OSpatial => (OSpatial, ms)
    | OPredict p => let '(p', out) := retain predict_one p ms in (OPredict p', out)
    end.
  (** fusion.rs:97-100, delta.rs:111-116, spatial.rs:104-106, predict.rs:167-170: all leave the batch alone *)
  Definition opt_in (o : Opt) (ms : list InMessage) : Opt * list InMessage := (o, ms).

  (** replicator.rs:612-617: an export pass calls the chain only with a non-empty batch *)
  Definition export_pass (now : N) (os : list Opt) (batch : list OutMessage) : list Opt * list OutMessage :=
    match batch with
    | [] => (os, [])
    | _ :: _ => process_outgoing (opt_out now) os batch
    end.
  (** a history of export passes, each at its time; one output batch per pass *)
  Fixpoint export_run (os : list Opt) (h : list (N * list OutMessage)) : list Opt * list (list OutMessage) :=
    match h with
    | [] => (os, [])
    | (now, b) :: r => let '(os1, out) := export_pass now os b in
                       let '(os2, outs) := export_run os1 r in
                       (os2, out :: outs)
    end.
End Predict.
