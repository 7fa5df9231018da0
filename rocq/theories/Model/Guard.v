(** Import/export guard: horus_net/src/guard.rs.  Strings are their UTF-8 bytes. *)
From Verif.Base Require Import Prelude Bytes AMap Str.
From Verif.Model Require Import Wire Reliability Registry.
Local Open Scope N_scope.

(** The byte of ['*']. *)
Definition STAR : N := 42.
(** [str::starts_with], [str::ends_with] *)
Definition starts_with (s p : bytes) : bool := beqb (firstn (length p) s) p.
(** [str::ends_with] *)
Definition ends_with (s p : bytes) : bool :=
  (length p <=? length s)%nat && beqb (skipn (length s - length p) s) p.
(** [str::find]: leftmost occurrence *)
Fixpoint find_sub (s p : bytes) : option nat :=
  if starts_with s p then Some 0%nat
  else match s with
       | [] => None
       | _ :: r => match find_sub r p with Some i => Some (S i) | None => None end
       end.
(** [str::split(c)]: always at least one part *)
Fixpoint split_on (c : N) (s : bytes) : list bytes :=
  match s with
  | [] => [[]]
  | x :: r => if x =? c then [] :: split_on c r
              else match split_on c r with [] => [[x]] | p :: ps => (x :: p) :: ps end
  end.
(** [str::contains(char)] *)
Definition contains_char (s : bytes) (c : N) : bool := existsb (N.eqb c) s.

(** guard.rs:171-195: the loop over the parts; [n] is [parts.len()], [i] the current index *)
Fixpoint glob_loop (n i : nat) (parts : list bytes) (remaining : bytes) : bool :=
  match parts with
  | [] => true
  | part :: rest =>
      match part with
      | [] => glob_loop n (S i) rest remaining
      | _ =>
        if (i =? 0)%nat then
          if starts_with remaining part then glob_loop n (S i) rest (skipn (length part) remaining) else false
        else if (i =? n - 1)%nat then
          if ends_with remaining part then glob_loop n (S i) rest remaining else false
        else
          match find_sub remaining part with
          | Some pos => glob_loop n (S i) rest (skipn (pos + length part) remaining)
          | None => false
          end
      end
  end.

(** guard.rs:150-196 [glob_match] *)
Definition glob_match (topic pattern : bytes) : bool :=
  if beqb pattern [STAR] then true
  else if negb (contains_char pattern STAR) then beqb topic pattern
  else
    let parts := split_on STAR pattern in
    match parts with
    | [prefix; suffix] =>
        starts_with topic prefix && ends_with topic suffix
        && (length prefix + length suffix <=? length topic)%nat
    | _ => glob_loop (length parts) 0 parts topic
    end.
(** guard.rs:198-200 *)
Definition glob_match_any (topic : bytes) (patterns : list bytes) : bool :=
  existsb (glob_match topic) patterns.

(** guard.rs:16-36 *)
Inductive ImportMode := IDeny | IAuto | IAllowList (patterns : list bytes).
(** guard.rs:16-36 (the exporting side) *)
Inductive ExportMode := EAll | EAllowList (patterns : list bytes) | EDenyList (patterns : list bytes).
(** guard.rs:39-44; the registry is a snapshot at the time of the call *)
Record Guard := mkGuard { g_import : ImportMode; g_export : ExportMode; g_registry : option Registry }.

(** guard.rs:69-107 *)
Definition allow_import (g : Guard) (topic : bytes) : bool :=
  if is_system_topic topic then true
  else match g_import g with
       | IDeny => false
       | IAuto => match g_registry g with
                  | Some reg => match lookup beqb topic reg with
                                | Some e => match te_role e with Subscriber => true | Publisher => false | Both => false end
                                | None => false
                                end
                  | None => false
                  end
       | IAllowList ps => glob_match_any topic ps
       end.
(** guard.rs:110-134 *)
Definition allow_export (g : Guard) (topic : bytes) : bool :=
  if is_system_topic topic then
    match g_export g with
    | EAll => true
    | EAllowList ps => glob_match_any topic ps
    | EDenyList ps => negb (glob_match_any topic ps)
    end
  else
    match g_export g with
    | EAll => true
    | EAllowList ps => glob_match_any topic ps
    | EDenyList ps => negb (glob_match_any topic ps)
    end.
