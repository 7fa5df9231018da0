(** The lock file of a project (horus.lock), and how it, the manifest and the
    registry of plugins are written to disk.
    Models /repo/horus_manager/src/lockfile.rs:97-226,
    /repo/horus_manager/src/main.rs:2385-2441 ([horus lock]),
    /repo/horus_manager/src/manifest.rs:1214-1226 and
    /repo/horus_manager/src/plugins/registry.rs:272-281.
    Not modelled: the TOML and JSON texts themselves (a file holds bytes; what
    reading them gives is a parameter), checksums and system packages. *)
From Verif.Base Require Import Prelude Bytes Str.
Open Scope nat_scope.

(** ** Pinned packages *)

(** lockfile.rs:128-143 [LockedPackage]. *)
Record Locked := mkLocked {
  lk_name : bytes; lk_version : bytes; lk_source : bytes; lk_checksum : option bytes }.

(** [str::cmp]: byte by byte (core; lockfile.rs:224 uses it twice). *)
Fixpoint bcmp (a b : bytes) : comparison :=
  match a, b with
  | [], [] => Eq
  | [], _ :: _ => Lt
  | _ :: _, [] => Gt
  | x :: a', y :: b' => match (x ?= y)%N with Eq => bcmp a' b' | c => c end
  end.

(** lockfile.rs:224: by source, then by name. *)
Definition kcmp (p q : Locked) : comparison :=
  match bcmp (lk_source p) (lk_source q) with
  | Eq => bcmp (lk_name p) (lk_name q)
  | c => c
  end.

(** One insertion of the stable sort (lockfile.rs:223-224; [slice::sort_by] is
    stable: simplified to insertion sort, which gives the same list). *)
Fixpoint sort_in (p : Locked) (l : list Locked) : list Locked :=
  match l with
  | [] => [p]
  | q :: r => match kcmp p q with Gt => q :: sort_in p r | _ => p :: q :: r end
  end.

(** lockfile.rs:223-224 [packages.sort_by]. *)
Fixpoint sort_pkgs (l : list Locked) : list Locked :=
  match l with
  | [] => []
  | p :: r => sort_in p (sort_pkgs r)
  end.

(** lockfile.rs:206-210: the entry [find] looks for. *)
Definition same_pkg (name source : bytes) (p : Locked) : bool :=
  beqb (lk_name p) name && beqb (lk_source p) source.

(** lockfile.rs:205-221: change the first entry found, or add one at the end. *)
Fixpoint put_pkg (p : Locked) (l : list Locked) : list Locked :=
  match l with
  | [] => [p]
  | q :: r =>
      if same_pkg (lk_name p) (lk_source p) q
      then mkLocked (lk_name q) (lk_version p) (lk_source q) (lk_checksum p) :: r
      else q :: put_pkg p r
  end.

(** lockfile.rs:203-226 [HorusLockfile::pin]: its four arguments are the fields of [p]. *)
Definition pin (l : list Locked) (p : Locked) : list Locked := sort_pkgs (put_pkg p l).

(** lockfile.rs:151-160, 203-226: a new lock file, and pins made one after the other. *)
Definition pins (h : list Locked) : list Locked := fold_left pin h [].

(** ** The file as a whole *)

(** lockfile.rs:98-126 [HorusLockfile] (system dependencies and features left
    out; the toolchain is kept as one text). *)
Record LockFile := mkLockFile {
  lf_version : N; lf_hash : option bytes; lf_toolchain : option bytes; lf_packages : list Locked }.

(** lockfile.rs:46, 151-160 [HorusLockfile::new]. *)
Definition lf_new : LockFile := mkLockFile 4 None None [].

(** lockfile.rs:163-178 [load_from]: [parsed] is what the TOML parser makes of the text. *)
Definition lf_load (parsed : option LockFile) : option LockFile :=
  match parsed with
  | None => None
  | Some f => if (3 <=? lf_version f)%N then Some f else None
  end.

(** lockfile.rs:195-200 [is_stale]. *)
Definition is_stale (f : LockFile) (current : bytes) : bool :=
  match lf_hash f with
  | Some h => negb (beqb h current)
  | None => true
  end.

(** main.rs:2419-2441: [horus lock]. The file is absent ([None]) or there, with
    what the parser makes of it. Gives the lock file that is written. *)
Definition horus_lock (file : option (option LockFile)) (toolchain : bytes) : LockFile :=
  let f := match file with
           | Some parsed => match lf_load parsed with Some f => f | None => lf_new end
           | None => lf_new
           end in
  mkLockFile (lf_version f) (lf_hash f) (Some toolchain) (lf_packages f).

(** ** Writing a file *)

(** The two names in the directory the writer uses (lockfile.rs:187-190: the
    file and its sibling with .tmp added) and the files behind them: a name
    leads to a file by its number, an open file is written through its number. *)
Record Disk := mkDisk {
  d_target : option nat; d_tmp : option nat; d_data : nat -> bytes; d_next : nat }.

(** What somebody who opens and reads the target gets (lockfile.rs:164). *)
Definition d_read (d : Disk) : option bytes :=
  match d_target d with Some i => Some (d_data d i) | None => None end.

Definition upd (f : nat -> bytes) (i : nat) (b : bytes) : nat -> bytes := (** one file's bytes replaced (write(2)) *)
  fun j => if (j =? i)%nat then b else f j.

(** A write at offset [pos] through an open file: bytes past the end are
    preceded by zeros if the file has been cut meanwhile (write(2)). *)
Definition write_at (old : bytes) (pos : nat) (c : bytes) : bytes :=
  firstn pos old ++ repeat 0%N (pos - length old) ++ c ++ skipn (pos + length c) old.

(** Where a writer is in [save_to] (lockfile.rs:181-193): not started; the
    temporary file is open and [pos] bytes are written; ended. *)
Inductive Where := WStart | WOpen (i pos : nat) | WDone | WFailed.

(** A step of [save_to] on content [c] (lockfile.rs:191-194, manifest.rs:1223-1224):
    [fs::write] opens the temporary file, cutting it to nothing or making it;
    writes [n] more bytes; when all are written, renames it (which fails when
    the name is gone). [n] is how much this write(2) takes, at least one byte. *)
Definition save_step (c : bytes) (n : nat) (w : Where) (d : Disk) : Where * Disk :=
  match w with
  | WStart =>
      match d_tmp d with
      | Some i => (WOpen i 0, mkDisk (d_target d) (d_tmp d) (upd (d_data d) i []) (d_next d))
      | None => (WOpen (d_next d) 0,
                 mkDisk (d_target d) (Some (d_next d)) (upd (d_data d) (d_next d) []) (S (d_next d)))
      end
  | WOpen i pos =>
      if (length c <=? pos)%nat
      then match d_tmp d with
           | Some j => (WDone, mkDisk (Some j) None (d_data d) (d_next d))
           | None => (WFailed, d)
           end
      else let chunk := firstn (Nat.max 1 n) (skipn pos c) in
           (WOpen i (pos + length chunk),
            mkDisk (d_target d) (d_tmp d) (upd (d_data d) i (write_at (d_data d i) pos chunk)) (d_next d))
  | WDone => (WDone, d)
  | WFailed => (WFailed, d)
  end.

(** The steps of one writer, alone: one entry of [ns] for each step. It is
    stopped (by a crash, by Ctrl-C) when [ns] ends. *)
Fixpoint save_run (c : bytes) (ns : list nat) (w : Where) (d : Disk) : Where * Disk :=
  match ns with
  | [] => (w, d)
  | n :: ns' => let '(w', d') := save_step c n w d in save_run c ns' w' d'
  end.

(** Saves one after the other (lockfile.rs:181-194), each run as far as its steps go. *)
Fixpoint saves_run (h : list (bytes * list nat)) (d : Disk) : Disk :=
  match h with
  | [] => d
  | (c, ns) :: h' => saves_run h' (snd (save_run c ns WStart d))
  end.

(** Two processes saving at once (nothing locks the file: lockfile.rs:181-194;
    main.rs:2434): each step says whose it is. *)
Fixpoint both_run (c1 c2 : bytes) (s : list (bool * nat)) (w1 w2 : Where) (d : Disk) : Where * Where * Disk :=
  match s with
  | [] => (w1, w2, d)
  | (true, n) :: s' => let '(w, d') := save_step c1 n w1 d in both_run c1 c2 s' w w2 d'
  | (false, n) :: s' => let '(w, d') := save_step c2 n w2 d in both_run c1 c2 s' w1 w d'
  end.

(** registry.rs:272-281 [PluginRegistry::save_to]: [fs::write] on the file
    itself. The steps are those of [save_step] without the rename. *)
Definition plain_step (c : bytes) (n : nat) (w : Where) (d : Disk) : Where * Disk :=
  match w with
  | WStart =>
      match d_target d with
      | Some i => (WOpen i 0, mkDisk (d_target d) (d_tmp d) (upd (d_data d) i []) (d_next d))
      | None => (WOpen (d_next d) 0,
                 mkDisk (Some (d_next d)) (d_tmp d) (upd (d_data d) (d_next d) []) (S (d_next d)))
      end
  | WOpen i pos =>
      if (length c <=? pos)%nat then (WDone, d)
      else let chunk := firstn (Nat.max 1 n) (skipn pos c) in
           (WOpen i (pos + length chunk),
            mkDisk (d_target d) (d_tmp d) (upd (d_data d) i (write_at (d_data d i) pos chunk)) (d_next d))
  | WDone => (WDone, d)
  | WFailed => (WFailed, d)
  end.

(** registry.rs:272-281, stopped when [ns] ends. *)
Fixpoint plain_run (c : bytes) (ns : list nat) (w : Where) (d : Disk) : Where * Disk :=
  match ns with
  | [] => (w, d)
  | n :: ns' => let '(w', d') := plain_step c n w d in plain_run c ns' w' d'
  end.
