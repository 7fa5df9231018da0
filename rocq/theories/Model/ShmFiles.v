(** Topic files: names, creation, removal and size.  horus_sys/src/shm/mod.rs and
    linux.rs, horus_core/src/communication/topic/mod.rs and
    horus_manager/src/discovery/topics.rs. *)
From Coq Require Import String.
From Verif.Base Require Import Prelude Bytes Str.
From Verif.Model Require Import Grid.
Open Scope N_scope.
Open Scope list_scope.

(** * Names *)

(** [char::is_ascii_alphanumeric]. *)
Definition alnum (b : N) : bool :=
  ((48 <=? b) && (b <=? 57)) || ((65 <=? b) && (b <=? 90)) || ((97 <=? b) && (b <=? 122)).

(** The checks of [Topic::with_capacity_and_kind], topic/mod.rs:883-907. *)
Definition topic_name_ok (s : bytes) : bool :=
  negb (beqb s []) && (length s <=? 255)%nat
  && forallb (fun b => alnum b || (b =? 95) || (b =? 47) || (b =? 45) || (b =? 46)) s.

(** [str::split] at the bytes [sep] accepts. *)
Fixpoint split_at (sep : N -> bool) (s : bytes) : list bytes :=
  match s with
  | [] => [[]]
  | c :: r =>
      if sep c then [] :: split_at sep r
      else match split_at sep r with w :: ws => (c :: w) :: ws | [] => [[c]] end
  end.
(** [/]. *)
Definition slash (b : N) : bool := b =? 47.
(** [/] and [\]. *)
Definition either_slash (b : N) : bool := (b =? 47) || (b =? 92).

(** [validate_region_name], shm/mod.rs:456-490. *)
Definition region_name_ok (s : bytes) : bool :=
  negb (beqb s []) && (length s <=? 512)%nat && negb (existsb (fun b => b =? 0) s)
  && negb (match s with b :: _ => either_slash b | [] => false end)
  && negb (match s with _ :: b :: _ => b =? 58 | _ => false end)
  && forallb (fun c => negb (beqb c (bs "..")) && negb (beqb c (bs ".")) && (length c <=? 255)%nat)
       (split_at either_slash s).

(** [topic_shm_path], shm/mod.rs:206-208: [PathBuf::join] on Linux; an absolute name
    replaces the directory.  The path as its raw components. *)
Definition topic_path (dir : list bytes) (s : bytes) : list bytes :=
  match s with
  | 47 :: r => split_at slash r
  | _ => dir ++ split_at slash s
  end.

(** [sanitize_namespace], shm/mod.rs:37-47; a character of several bytes is one
    underscore in the code, one for each byte here. *)
Definition sanitize_ns (s : bytes) : bytes := map (fun b => if alnum b || (b =? 95) then b else 95) s.

(** The file of [write_topic_meta] and [remove_topic_meta], shm/mod.rs:589 and 602. *)
Definition meta_path (dir : list bytes) (s : bytes) : list bytes := dir ++ [sanitize_ns s ++ bs ".meta"].

(** The region of a topic's fan-out ring, topic/mod.rs:1593. *)
Definition fanout_name (s : bytes) : bytes := s ++ bs "_fanout".

(** * Creation and removal of one file *)

Open Scope nat_scope.

(** A handle: the file is open, open and locked (a region in use), locked
    exclusively by [drop], or gone.  The number is the inode: the memory. *)
Inductive phase := Opened (i : nat) | Live (i : nat) | Closing (i : nat) | Gone.

(** What the path names; the next inode; the handles of all processes; whether a
    cleaner has found the file unused and not yet removed it. *)
Record files := Files { f_path : option nat; f_next : nat; f_hs : list phase; f_clean : bool }.
(** Nothing there. *)
Definition no_files : files := Files None 0 [] false.

(** Holds a lock of an inode. *)
Definition holds (i : nat) (p : phase) : bool :=
  match p with Live j | Closing j => i =? j | _ => false end.
(** Holds the exclusive lock of an inode. *)
Definition holds_ex (i : nat) (p : phase) : bool := match p with Closing j => i =? j | _ => false end.
(** Another handle than [h] holds a lock. *)
Definition other_holder (i h : nat) (hs : list phase) : bool := existsb (holds i) (store hs h Gone).

(** The system calls, one at a time, of any processes. *)
Inductive call :=
| CreateOrOpen          (* open(O_CREAT|O_EXCL), else open; linux.rs:101-135 *)
| LockShared (h : nat)  (* flock(LOCK_SH), linux.rs:142 *)
| TryExclusive (h : nat) (* flock(LOCK_EX|LOCK_NB) in drop, linux.rs:297 *)
| Unlink (h : nat)      (* remove_file of the path, linux.rs:305-307 *)
| Crash (h : nat)       (* the process ends; the kernel releases its locks *)
| CheckStale            (* is_shm_file_stale, shm/mod.rs:674-709 *)
| RemoveStale.          (* cleanup_stale_topics_in_dir, topics.rs:131-144 *)

(** One call.  A call its process cannot make, or that blocks, changes nothing. *)
Definition call_step (s : files) (c : call) : files :=
  match c with
  | CreateOrOpen =>
      match f_path s with
      | Some i => Files (f_path s) (f_next s) (f_hs s ++ [Opened i]) (f_clean s)
      | None => Files (Some (f_next s)) (S (f_next s)) (f_hs s ++ [Opened (f_next s)]) (f_clean s)
      end
  | LockShared h =>
      match nth_error (f_hs s) h with
      | Some (Opened i) =>
          if existsb (holds_ex i) (f_hs s) then s
          else Files (f_path s) (f_next s) (store (f_hs s) h (Live i)) (f_clean s)
      | _ => s
      end
  | TryExclusive h =>
      match nth_error (f_hs s) h with
      | Some (Live i) =>
          Files (f_path s) (f_next s)
            (store (f_hs s) h (if other_holder i h (f_hs s) then Gone else Closing i)) (f_clean s)
      | _ => s
      end
  | Unlink h =>
      match nth_error (f_hs s) h with
      | Some (Closing i) => Files None (f_next s) (store (f_hs s) h Gone) (f_clean s)
      | _ => s
      end
  | Crash h => Files (f_path s) (f_next s) (store (f_hs s) h Gone) (f_clean s)
  | CheckStale =>
      match f_path s with
      | Some i => if existsb (holds i) (f_hs s) then s else Files (f_path s) (f_next s) (f_hs s) true
      | None => s
      end
  | RemoveStale => if f_clean s then Files None (f_next s) (f_hs s) false else s
  end.

(** The operations of the interface, each made of its calls. *)
Inductive file_op := New | Drop (h : nat) | DropAndCrash (h : nat) | Kill (h : nat) | Clean.
(** The calls of an operation, run to its end. *)
Definition calls_of (s : files) (o : file_op) : list call :=
  match o with
  | New => [CreateOrOpen; LockShared (length (f_hs s))]
  | Drop h => [TryExclusive h; Unlink h]
  | DropAndCrash h => [TryExclusive h; Crash h]
  | Kill h => [Crash h]
  | Clean => [CheckStale; RemoveStale]
  end.
(** Operations one after another. *)
Definition op_step (s : files) (o : file_op) : files := fold_left call_step (calls_of s o) s.

(** * Size and contents of one file *)

(** A handle of the file: just created, given its length but not yet cleared, joining,
    its length looked up, in use. *)
Inductive sphase :=
| SCreated (size : nat) | SClearing (size : nat)
| SJoining (size : nat) | SSeen (size seen : nat)
| SMapped (size : nat).
(** The length of the file, once it exists; what was last written in it; the handles. *)
Record sized := Sized { z_len : option nat; z_data : option nat; z_hs : list sphase }.
(** No file. *)
Definition no_sized : sized := Sized None None [].
(** The calls of [ShmRegion::new] and [grow_unchecked], linux.rs:101-165 and 224-259,
    and the writes of a user.  Locks play no part: a shared lock excludes nobody here. *)
Inductive scall :=
| SOpen (size : nat)    (* create_new, or open; linux.rs:101-122 *)
| SSetNew (h : nat)     (* set_len of the creator, linux.rs:109 *)
| SClear (h : nat)      (* mmap.fill(0) of the creator, linux.rs:159-160 *)
| SStat (h : nat)       (* metadata().len(), linux.rs:123-124 *)
| SFit (h : nat)        (* set_len of a joiner, or its larger size; linux.rs:125-131 *)
| SWrite (h v : nat)    (* a user writes *)
| SGrow (h new : nat).  (* grow_unchecked *)
(** One call. *)
Definition scall_step (s : sized) (c : scall) : sized :=
  match c with
  | SOpen size =>
      match z_len s with
      | None => Sized (Some 0) (z_data s) (z_hs s ++ [SCreated size])
      | Some _ => Sized (z_len s) (z_data s) (z_hs s ++ [SJoining size])
      end
  | SSetNew h =>
      match nth_error (z_hs s) h with
      | Some (SCreated size) => Sized (Some size) (z_data s) (store (z_hs s) h (SClearing size))
      | _ => s
      end
  | SClear h =>
      match nth_error (z_hs s) h with
      | Some (SClearing size) => Sized (z_len s) None (store (z_hs s) h (SMapped size))
      | _ => s
      end
  | SStat h =>
      match nth_error (z_hs s) h, z_len s with
      | Some (SJoining size), Some n => Sized (z_len s) (z_data s) (store (z_hs s) h (SSeen size n))
      | _, _ => s
      end
  | SFit h =>
      match nth_error (z_hs s) h with
      | Some (SSeen size seen) =>
          if seen <? size then Sized (Some size) (z_data s) (store (z_hs s) h (SMapped size))
          else Sized (z_len s) (z_data s) (store (z_hs s) h (SMapped seen))
      | _ => s
      end
  | SWrite h v =>
      match nth_error (z_hs s) h with
      | Some (SMapped size) => Sized (z_len s) (Some v) (z_hs s)
      | _ => s
      end
  | SGrow h new =>
      match nth_error (z_hs s) h with
      | Some (SMapped size) => if size <? new then Sized (Some new) (z_data s) (store (z_hs s) h (SMapped new)) else s
      | _ => s
      end
  end.

(** The operations, each run to its end: a new region, a write, growth. *)
Inductive sop := ONew (size : nat) | OWrite (h v : nat) | OGrow (h new : nat).
(** Their calls. *)
Definition scalls_of (s : sized) (o : sop) : list scall :=
  match o with
  | ONew size => let h := length (z_hs s) in [SOpen size; SSetNew h; SClear h; SStat h; SFit h]
  | OWrite h v => [SWrite h v]
  | OGrow h new => [SGrow h new]
  end.
(** Operations one after another. *)
Definition sop_step (s : sized) (o : sop) : sized := fold_left scall_step (scalls_of s o) s.
