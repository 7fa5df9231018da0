(** Runtime parameters.  Models horus_core/src/params.rs. *)
From Coq Require Import QArith String.
From Verif Require Import Base.Prelude Base.Bytes Base.Str Base.AMap.
Open Scope nat_scope.

(** [serde_json::Value].  A number is the value [as_f64] gives (JSON numbers are
    finite), taken as a rational: 0.3 here is exactly 3/10. *)
Inductive json :=
| JNull | JBool (b : bool) | JNum (x : Q) | JStr (s : bytes)
| JArr (l : list json) | JObj (l : list (bytes * json)).

(** An [f64] rule bound. *)
Inductive bound := NaN | NegInf | PosInf | Fin (q : Q).
(** [ValidationRule], params.rs:15-33. *)
Inductive rule :=
| MinValue (m : bound) | MaxValue (m : bound) | Range (lo hi : bound)
| RegexPattern (p : bytes) | OneOf (allowed : list bytes)
| MinLength (n : nat) | MaxLength (n : nat) | RequiredKeys (ks : list bytes).

(** The f64 comparisons [num < min] (463) and [num > max] (476). *)
Definition num_lt (x : Q) (b : bound) : bool :=
  match b with NaN => false | NegInf => false | PosInf => true | Fin q => negb (Qle_bool q x) end.
(** [num > max], 472. *)
Definition num_gt (x : Q) (b : bound) : bool :=
  match b with NaN => false | NegInf => true | PosInf => false | Fin q => negb (Qle_bool x q) end.
(** The length rules' view of a value, 529-535 and 544-550. *)
Definition json_len (v : json) : nat :=
  match v with JStr s => List.length s | JArr l => List.length l | _ => 0 end.

Section Params.
(** [regex::Regex::new] and [is_match], 506-512; [None] is a pattern that does
    not compile. *)
Variable regex : bytes -> option (bytes -> bool).

(** One arm of [validate_value], 449-571. *)
Definition check (r : rule) (v : json) : bool :=
  match r with
  | MinValue m => match v with JNum x => negb (num_lt x m) | _ => false end
  | MaxValue m => match v with JNum x => negb (num_gt x m) | _ => false end
  | Range lo hi => match v with JNum x => negb (num_lt x lo || num_gt x hi) | _ => false end
  | RegexPattern p =>
      match v with
      | JStr s => match regex p with Some f => f s | None => false end
      | _ => false
      end
  | OneOf allowed => match v with JStr s => existsb (beqb s) allowed | _ => false end
  | MinLength n => negb (json_len v <? n)
  | MaxLength n => negb (n <? json_len v)
  | RequiredKeys ks =>
      match v with JObj o => forallb (fun k => mem beqb k o) ks | _ => true end
  end.
(** [validate_value], 443-574: the first rule that fails is the error. *)
Definition validate (rs : list rule) (v : json) : bool := forallb (fun r => check r v) rs.

(** Metadata of a key, 36-46: the read-only flag and the rules.  Nothing outside
    the unit tests ever writes the metadata map, so it is fixed here. *)
Variable meta : bytes -> option (bool * list rule).
(** The registered change callbacks, 205-209; a callback is a pure verdict on
    (key, old value, new value). *)
Variable callbacks : list (bytes -> option json -> json -> bool).

(** The checks of [set] (264-274) and [set_with_version] (371-379). *)
Definition admitted (k : bytes) (v : json) : bool :=
  match meta k with
  | None => true
  | Some (read_only, rules) => negb read_only && validate rules v
  end.
(** [set], 276-293: old value read under the lock, then every callback. *)
Definition accepted (k : bytes) (old : option json) (v : json) : bool :=
  forallb (fun cb => cb k old v) callbacks.

(** The [BTreeMap] of values, 78-79. *)
Definition store := list (bytes * json).
(** [default_params], 93-121, in the map's (sorted) order. *)
Definition defaults : store :=
  [ (bs "acceleration_limit", JNum (1 # 2));
    (bs "camera_fps", JNum 30);
    (bs "collision_threshold", JNum (1 # 2));
    (bs "emergency_stop_distance", JNum (3 # 10));
    (bs "lidar_rate", JNum 10);
    (bs "max_angular_speed", JNum 1);
    (bs "max_memory_mb", JNum 512);
    (bs "max_speed", JNum 1);
    (bs "pid_kd", JNum (1 # 20));
    (bs "pid_ki", JNum (1 # 10));
    (bs "pid_kp", JNum 1);
    (bs "sensor_timeout_ms", JNum 1000);
    (bs "tick_rate", JNum 30) ].

(** What a caller can do. *)
Inductive call :=
| Set_ (k : bytes) (v : json)                      (* [set], 260-310 *)
| Cas (k : bytes) (v : json) (e : nat)             (* [set_with_version], 362-410 *)
| Remove (k : bytes)                               (* [remove], 333-335 *)
| Reset                                            (* [reset], 338-344 *)
| Load (m : store)                                 (* [load_from_disk], 595-604 *)
| Get (k : bytes)                                  (* [get_all]/[get], 222-226 *)
| Version (k : bytes).                             (* [get_version], 352-358 *)

(** Where a thread is inside a call: one state per lock-delimited section.
    [rest] are the defaults a [reset] still has to set ([None]: a plain [set]). *)
Inductive thread :=
| Idle
| Resetting (rest : store)
| Inserting (k : bytes) (v : json) (rest : option store)
| Bumping (k : bytes) (v : json) (rest : option store)
| CasIns (k : bytes) (v : json) (e : nat)
| CasBump (k : bytes) (v : json) (e : nat) (old : option json).

(** What callers saw, in order. *)
Inductive event :=
| SetOk (t : nat) (k : bytes) (v : json)
| CasOk (t : nat) (k : bytes) (e : nat) (v : json) (old : option json)
| CasStale (t : nat) (k : bytes) (e : nat)
| Refused (t : nat) (k : bytes) (v : json)
| Removed (t : nat) (k : bytes)
| ResetOk (t : nat)
| Loaded (t : nat) (m : store)
| Got (t : nat) (k : bytes) (v : option json)
| GotVersion (t : nat) (k : bytes) (n : nat).

(** The shared maps; [vlock] is the holder of the [versions] write lock across
    sections (only [set_with_version] keeps it, 382-407).  Versions do not wrap. *)
Record state := {
  ps : store; vs : list (bytes * nat); vlock : option nat;
  thr : nat -> thread; log : list event }.

(** [get_version]: 0 if absent. *)
Definition version (s : state) (k : bytes) : nat :=
  match lookup beqb k (vs s) with Some n => n | None => 0 end.
(** Auxiliary: update of a total function at one point (a store to one array element). *)
Definition at_thr (f : nat -> thread) (t : nat) (x : thread) : nat -> thread :=
  fun u => if u =? t then x else f u.

(** Auxiliary: assignment to one field, where the code assigns to it in place. *)
Definition upd (s : state) (p : store) (v : list (bytes * nat)) (l : option nat)
    (t : nat) (x : thread) (es : list event) : state :=
  {| ps := p; vs := v; vlock := l; thr := at_thr (thr s) t x; log := log s ++ es |}.

(** Entering [set] for [k]: lines 264-293. *)
Definition begin_set (s : state) (t : nat) (k : bytes) (v : json) (rest : option store) : state :=
  if admitted k v && accepted k (lookup beqb k (ps s)) v
  then upd s (ps s) (vs s) (vlock s) t (Inserting k v rest) []
  else upd s (ps s) (vs s) (vlock s) t Idle [Refused t k v].
(** [versions.entry(k) += 1], 300-302. *)
Definition bump (s : state) (k : bytes) : list (bytes * nat) :=
  insert beqb k (version s k + 1) (vs s).

(** One section by thread [t]: start a call ([Some c]) or go on ([None]).
    [None] as a result: not possible now (blocked on the lock, or nothing to do). *)
Definition step (s : state) (t : nat) (a : option call) : option state :=
  match thr s t, a with
  | Idle, Some (Set_ k v) => Some (begin_set s t k v None)
  | Idle, Some (Cas k v e) =>
      (* 371-389: rules, then the versions lock and the comparison *)
      if admitted k v then
        match vlock s with
        | Some _ => None
        | None =>
            if version s k =? e then Some (upd s (ps s) (vs s) (Some t) t (CasIns k v e) [])
            else Some (upd s (ps s) (vs s) None t Idle [CasStale t k e])
        end
      else Some (upd s (ps s) (vs s) (vlock s) t Idle [Refused t k v])
  | Idle, Some (Remove k) =>
      Some (upd s (remove beqb k (ps s)) (vs s) (vlock s) t Idle [Removed t k])
  | Idle, Some Reset => Some (upd s [] (vs s) (vlock s) t (Resetting defaults) [])
  | Idle, Some (Load m) => Some (upd s m (vs s) (vlock s) t Idle [Loaded t m])
  | Idle, Some (Get k) =>
      Some (upd s (ps s) (vs s) (vlock s) t Idle [Got t k (lookup beqb k (ps s))])
  | Idle, Some (Version k) =>
      match vlock s with
      | Some _ => None
      | None => Some (upd s (ps s) (vs s) None t Idle [GotVersion t k (version s k)])
      end
  | Resetting [], None => Some (upd s (ps s) (vs s) (vlock s) t Idle [ResetOk t])
  | Resetting ((k, v) :: r), None => Some (begin_set s t k v (Some r))
  | Inserting k v r, None =>
      (* 296-298 *)
      Some (upd s (insert beqb k v (ps s)) (vs s) (vlock s) t (Bumping k v r) [])
  | Bumping k v r, None =>
      (* 301-304 *)
      match vlock s with
      | Some _ => None
      | None =>
          Some (upd s (ps s) (bump s k) None t
                  (match r with None => Idle | Some r => Resetting r end) [SetOk t k v])
      end
  | CasIns k v e, None =>
      (* 391-399 *)
      Some (upd s (insert beqb k v (ps s)) (vs s) (vlock s) t
              (CasBump k v e (lookup beqb k (ps s))) [])
  | CasBump k v e old, None =>
      (* 401-405 *)
      Some (upd s (ps s) (bump s k) None t Idle [CasOk t k e v old])
  | _, _ => None
  end.

(** A schedule: which thread moves, and how.  Impossible moves are skipped. *)
Definition sched := list (nat * option call).
(** A whole history, event by event; no code of its own. *)
Fixpoint run (s : state) (w : sched) : state :=
  match w with
  | [] => s
  | (t, a) :: w => run (match step s t a with Some s' => s' | None => s end) w
  end.
(** A store just loaded, every thread idle. *)
Definition start (m : store) : state :=
  {| ps := m; vs := []; vlock := None; thr := fun _ => Idle; log := [] |}.
End Params.

(** ** Building the store *)

(** ASCII part of [to_lowercase], 184. *)
Definition lower (c : N) : N := if ((65 <=? c) && (c <=? 90))%N then (c + 32)%N else c.
(** ASCII part of [trim().is_empty()], 164. *)
Definition blank (s : bytes) : bool := forallb (fun c => existsb (N.eqb c) [32; 9; 10; 11; 12; 13]%N) s.
(** [str::strip_prefix] *)
Fixpoint strip_prefix (p s : bytes) : option bytes :=
  match p, s with
  | [], _ => Some s
  | a :: p, b :: s => if (a =? b)%N then strip_prefix p s else None
  | _, [] => None
  end.

(** Decimal digits, for [str::parse]. *)
Definition is_digit (c : N) : bool := ((48 <=? c) && (c <=? 57))%N.
(** Auxiliary: the value of decimal digits. *)
Fixpoint dec_val (acc : Z) (s : bytes) : option Z :=
  match s with
  | [] => Some acc
  | c :: s => if is_digit c then dec_val (acc * 10 + Z.of_N (c - 48)) s else None
  end%Z.
(** [s.parse::<i64>()], 649: optional sign, at least one digit, in range. *)
Definition parse_i64 (s : bytes) : option Z :=
  let '(neg, d) := match s with
                   | 45%N :: d => (true, d) | 43%N :: d => (false, d) | _ => (false, s) end in
  match d with
  | [] => None
  | _ => match dec_val 0 d with
         | None => None
         | Some v =>
             let v := if neg then (- v)%Z else v in
             if ((- 2 ^ 63 <=? v) && (v <? 2 ^ 63))%Z then Some v else None
         end
  end.
(** What [s.parse::<f64>()] accepts (652): a decimal number, or one of the special
    names in any case.  [F64Special] is the infinities and NaN. *)
Inductive f64_parse := F64Bad | F64Special | F64Num (q : Q).
(** The special float spellings [inf], [infinity], [nan]. *)
Definition special (s : bytes) : bool :=
  let s := map lower (match s with 45%N :: d => d | 43%N :: d => d | _ => s end) in
  existsb (beqb s) [bs "inf"; bs "infinity"; bs "nan"].

Section New.
(** Ordinary decimal [f64] syntax; [None] if it is none.  Decimals too large for
    an f64 (which become infinities) are not distinguished. *)
Variable parse_dec : bytes -> option Q.
(** [serde_yaml::from_str] to a map, 168. *)
Variable yaml : bytes -> option store.

(** [s.parse::<f64>()], 652. *)
Definition parse_f64 (s : bytes) : f64_parse :=
  if special s then F64Special else match parse_dec s with Some q => F64Num q | None => F64Bad end.
(** [parse_env_value], 648-660.  [Value::from(f64)] of a non-finite number is
    null (serde_json). *)
Definition parse_env (s : bytes) : json :=
  match parse_i64 s with
  | Some z => JNum (inject_Z z)
  | None =>
      match parse_f64 s with
      | F64Special => JNull
      | F64Num q => JNum q
      | F64Bad =>
          if beqb s (bs "true") then JBool true
          else if beqb s (bs "false") then JBool false else JStr s
      end
  end.

(** params.yaml as found at start-up. *)
Inductive params_file := Absent | Unreadable | Text (s : bytes).
(** Overrides on top of loaded values, 175-189. *)
Definition overlay (m : store) (l : list (bytes * json)) : store :=
  fold_left (fun m kv => insert beqb (fst kv) (snd kv) m) l m.
(** Layer 3, 181-189: variables in the order the environment lists them. *)
Definition env_layer (env : list (bytes * bytes)) : list (bytes * json) :=
  flat_map (fun kv => match strip_prefix (bs "HORUS_PARAM_") (fst kv) with
                      | Some n => [(map lower n, parse_env (snd kv))]
                      | None => []
                      end) env.
(** [RuntimeParams::new], 126-199; [None] is the error return. *)
Definition new (f : params_file) (env : list (bytes * bytes)) : option store :=
  match (match f with
         | Absent => Some []
         | Unreadable => None
         | Text s => if blank s then Some [] else yaml s
         end) with
  | None => None
  | Some loaded => Some (overlay (overlay defaults loaded) (env_layer env))
  end.
(** [Default::default], 619-643. *)
Definition default_new (f : params_file) (env : list (bytes * bytes)) : store :=
  match new f env with Some m => m | None => defaults end.

(** [save_to_disk], 577-592: [std::fs::write] truncates the file, then writes;
    a crash after [n] bytes leaves that much of the new text. *)
Variable to_yaml : store -> bytes.
(** [save_to_disk] interrupted after [n] bytes. *)
Definition save_crash (m : store) (n : nat) : params_file := Text (firstn n (to_yaml m)).
End New.
