(** The flight recorder.  Models horus_core/src/scheduling/blackbox.rs and the
    readers in horus_manager/src/commands/blackbox.rs. *)
From Verif Require Import Base.Prelude.

(** [BlackBoxRecord], blackbox.rs:112-121. *)
Record rec {E : Type} := { r_time : N; r_tick : N; r_event : E }.
Arguments rec : clear implicits.

(** The snapshot file blackbox.json: what [save] writes (135-139, 303-322), the
    older bare array [load] also accepts (336-340), or a file cut short. *)
Inductive snapshot {E : Type} :=
| Snap (lost : N) (events : list (rec E))
| Bare (events : list (rec E))
| Torn.
Arguments snapshot : clear implicits.

Section BlackBox.
Context {E : Type}.
(** [serde_json::to_string]; a byte is a [nat], newline is 10. *)
Variable enc : rec E -> list nat.

(** [struct BlackBox], 115-133.  [wal = None]: no WAL file is attached.  The
    WAL is the bytes on disk and the bytes still in the [BufWriter].  Counters
    ([tick_counter], [lost_records], u64) do not wrap here. *)
Record bb := {
  buf : list (rec E); max : nat; tick : N; lost : N; enabled : bool;
  wal : option (list nat * list nat); since : nat; interval : nat;
  file : option (snapshot E) }.

(** [BlackBox::new], 150-170. *)
Definition new (mb : nat) : bb :=
  {| buf := []; max := Nat.max (mb * 1024 * 1024 / 200) 1000; tick := 0; lost := 0;
     enabled := 0 <? mb; wal := None; since := 0; interval := 64; file := None |}.
(** [with_wal_flush_interval], 178-181; [with_path], 188-209: the WAL is opened
    for append on its existing contents [disk], beside an existing snapshot. *)
Definition with_interval (b : bb) (k : nat) : bb :=
  {| buf := buf b; max := max b; tick := tick b; lost := lost b; enabled := enabled b;
     wal := wal b; since := since b; interval := Nat.max k 1; file := file b |}.
(** [with_path], 188-209. *)
Definition with_path (b : bb) (disk : list nat) (f : option (snapshot E)) : bb :=
  {| buf := buf b; max := max b; tick := tick b; lost := lost b; enabled := enabled b;
     wal := Some (disk, []); since := since b; interval := interval b; file := f |}.

(** One WAL line, 234. *)
Definition line (r : rec E) : list nat := enc r ++ [10].

(** [record], 212-254; write and flush errors are not modelled. *)
Definition record (b : bb) (now : N) (e : E) : bb :=
  if enabled b then
    let r := {| r_time := now; r_tick := tick b; r_event := e |} in
    let '(wal', since') :=
      match wal b with
      | None => (None, since b)
      | Some (d, p) =>
          let p := p ++ line r in
          if interval b <=? S (since b) then (Some (d ++ p, []), 0)
          else (Some (d, p), S (since b))
      end in
    let full := max b <=? length (buf b) in
    {| buf := (if full then tl (buf b) else buf b) ++ [r]; max := max b; tick := tick b;
       lost := (if full then lost b + 1 else lost b)%N; enabled := enabled b;
       wal := wal'; since := since'; interval := interval b; file := file b |}
  else b.
(** The executors' [try_lock] call sites (rt_executor.rs:325-333, 430-438,
    589-597 and the other executors): a contended lock drops the event. *)
Definition try_record (b : bb) (contended : bool) (now : N) (e : E) : bb :=
  if contended then b else record b now e.
(** [flush_wal], 259-264. *)
Definition flush (b : bb) : bb :=
  match wal b with
  | None => b
  | Some (d, p) =>
      {| buf := buf b; max := max b; tick := tick b; lost := lost b; enabled := enabled b;
         wal := Some (d ++ p, []); since := 0; interval := interval b; file := file b |}
  end.
(** The [BufWriter] may write out any part of its buffer earlier (when its
    8 KiB are full). *)
Definition drain (b : bb) (k : nat) : bb :=
  match wal b with
  | None => b
  | Some (d, p) =>
      {| buf := buf b; max := max b; tick := tick b; lost := lost b; enabled := enabled b;
         wal := Some (d ++ firstn k p, skipn k p); since := since b; interval := interval b;
         file := file b |}
  end.
(** [tick], 267-269. *)
Definition do_tick (b : bb) : bb :=
  {| buf := buf b; max := max b; tick := (tick b + 1)%N; lost := lost b; enabled := enabled b;
     wal := wal b; since := since b; interval := interval b; file := file b |}.
(** [clear], 352-356. *)
Definition clear (b : bb) : bb :=
  {| buf := []; max := max b; tick := 0; lost := 0; enabled := enabled b;
     wal := wal b; since := since b; interval := interval b; file := file b |}.
(** [save], 303-322: [File::create] truncates before anything is written.
    Without [persist_path] nothing happens; a WAL and a path come together. *)
Definition save (b : bb) : bb :=
  match wal b with
  | None => b
  | Some _ =>
      {| buf := buf b; max := max b; tick := tick b; lost := lost b; enabled := enabled b;
         wal := wal b; since := since b; interval := interval b;
         file := Some (Snap (lost b) (buf b)) |}
  end.
(** A crash inside [save]. *)
Definition save_cut (b : bb) : bb :=
  match wal b with
  | None => b
  | Some _ =>
      {| buf := buf b; max := max b; tick := tick b; lost := lost b; enabled := enabled b;
         wal := wal b; since := since b; interval := interval b; file := Some Torn |}
  end.
(** [load], 327-349; [None] = the call returns an error. *)
Definition load (b : bb) : option bb :=
  let set ev l :=
    {| buf := ev; max := max b; tick := tick b; lost := l; enabled := enabled b;
       wal := wal b; since := since b; interval := interval b; file := file b |} in
  match file b with
  | None => Some b
  | Some (Snap l ev) => Some (set ev l)
  | Some (Bare ev) => Some (set ev 0%N)
  | Some Torn => None
  end.

(** The public calls, as events of a history. *)
Inductive op := Record (now : N) (e : E) | Tick | Flush | Drain (k : nat) | Save | Clear.
(** One event of a history: applies the function above that the event names; no code of its own. *)
Definition step (b : bb) (o : op) : bb :=
  match o with
  | Record n e => record b n e
  | Tick => do_tick b
  | Flush => flush b
  | Drain k => drain b k
  | Save => save b
  | Clear => clear b
  end.
(** A whole history, event by event; no code of its own. *)
Definition run (b : bb) (ops : list op) : bb := fold_left step ops b.

(** A crash of the process loses what is in memory and in the [BufWriter]. *)
Definition wal_after_crash (b : bb) : list nat :=
  match wal b with None => [] | Some (d, _) => d end.

(** *** The reader, horus_manager/src/commands/blackbox.rs:179-203 *)
Variable dec : list nat -> option (rec E).
(** [BufRead::lines]; trimming of white space is left out. *)
Fixpoint lines_acc (acc : list nat) (l : list nat) : list (list nat) :=
  match l with
  | [] => match acc with [] => [] | _ => [rev acc] end
  | c :: r => if c =? 10 then rev acc :: lines_acc [] r else lines_acc (c :: acc) r
  end.
(** Undecodable and empty lines are skipped. *)
Definition load_wal (bytes : list nat) : list (rec E) :=
  flat_map (fun l => match dec l with Some r => [r] | None => [] end) (lines_acc [] bytes).
(** [load_blackbox_records], 158-176: WAL first; the snapshot is parsed as a
    bare array only.  [None] = error. *)
Definition cli_load (walfile : option (list nat)) (f : option (snapshot E)) : option (list (rec E)) :=
  match walfile with
  | Some bytes => Some (load_wal bytes)
  | None => match f with
            | None => Some []
            | Some (Bare ev) => Some ev
            | Some _ => None
            end
  end.
End BlackBox.
Arguments bb : clear implicits.
Arguments op : clear implicits.
