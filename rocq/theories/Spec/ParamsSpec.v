(** What the parameter store promises, in terms of calls and their results. *)
From Coq Require Import QArith String.
From Verif Require Import Base.Prelude Base.Bytes Base.Str Base.AMap Model.Params.
Open Scope nat_scope.

(** A number is not below / not above a bound. *)
Definition at_least (x : Q) (b : bound) : Prop :=
  match b with NaN => False | NegInf => True | PosInf => False | Fin q => (q <= x)%Q end.
Definition at_most (x : Q) (b : bound) : Prop :=
  match b with NaN => False | NegInf => False | PosInf => True | Fin q => (x <= q)%Q end.

(** Strings and arrays have a length. *)
Definition has_len (v : json) (m : nat) : Prop :=
  (exists s, v = JStr s /\ m = List.length s) \/ (exists l, v = JArr l /\ m = List.length l).

(** The meaning of each rule. *)
Definition meets (regex : bytes -> option (bytes -> bool)) (r : rule) (v : json) : Prop :=
  match r with
  | MinValue m => exists x, v = JNum x /\ at_least x m
  | MaxValue m => exists x, v = JNum x /\ at_most x m
  | Range lo hi => exists x, v = JNum x /\ at_least x lo /\ at_most x hi
  | RegexPattern p => exists s f, v = JStr s /\ regex p = Some f /\ f s = true
  | OneOf allowed => exists s, v = JStr s /\ In s allowed
  | MinLength n => n = 0 \/ exists m, has_len v m /\ n <= m
  | MaxLength n => forall m, has_len v m -> m <= n
  | RequiredKeys ks => exists o, v = JObj o /\ forall k, In k ks -> exists x, In (k, x) o
  end.

(** Successful sets of [k] in a log. *)
Definition changes (k : bytes) (l : list event) : nat :=
  List.length (filter (fun e => match e with
                                | SetOk _ k' _ => beqb k k'
                                | CasOk _ k' _ _ _ => beqb k k'
                                | _ => false end) l).

(** The value the last successful versioned set of [k] wrote. *)
Fixpoint last_cas (k : bytes) (init : option json) (l : list event) : option json :=
  match l with
  | [] => init
  | CasOk _ k' _ v _ :: l => last_cas k (if beqb k k' then Some v else init) l
  | _ :: l => last_cas k init l
  end.

(** Calls that write [k] other than by a versioned set. *)
Definition writes_otherwise (k : bytes) (c : call) : Prop :=
  match c with
  | Set_ k' _ => k = k'
  | Remove k' => k = k'
  | Reset | Load _ => True
  | _ => False
  end.

(** The value [new] must give a key: the last environment variable naming it,
    else the file's entry, else the built-in default. *)
Definition last_env (parse : bytes -> json) (k : bytes) (env : list (bytes * bytes)) : option json :=
  fold_left (fun acc kv =>
    match strip_prefix (bs "HORUS_PARAM_") (fst kv) with
    | Some n => if beqb k (map lower n) then Some (parse (snd kv)) else acc
    | None => acc
    end) env None.
Fixpoint last_entry (k : bytes) (acc : option json) (l : store) : option json :=
  match l with
  | [] => acc
  | (k', v) :: l => last_entry k (if beqb k k' then Some v else acc) l
  end.

(** The number a list of decimal digits, most significant first, denotes. *)
Fixpoint decimal (ds : list N) : Z :=
  match ds with
  | [] => 0
  | d :: r => Z.of_N d * 10 ^ Z.of_nat (length r) + decimal r
  end%Z.
