(** Dependencies of packages: horus_manager/src/dependency_resolver.rs, and how they are installed,
    horus_manager/src/registry/install.rs:1969-2120.

    Versions are numbers in the order of semantic versions, requirements are numbers with a relation to versions; parsing and
    matching a requirement is the semver library's.  Left out: what is printed, dependencies of other platforms, the sources
    git and path. *)
From Coq Require Import String.
From Verif.Base Require Import Prelude Bytes AMap Str.
From Verif.Model Require Import Guard NetFilter.
Local Open Scope N_scope.
Local Open Scope list_scope.

(** [DependencySource], dependency_resolver.rs:18-36, without git, path and system *)
Inductive Source := FromRegistry | FromPip (package : bytes) | FromCrates.
(** [DependencySpec], dependency_resolver.rs:38-46, without the platform, which no text can give *)
Record Dep := mkDep { d_name : bytes; d_req : N; d_src : Source }.

(** ** Reading a dependency *)
(** [VersionReq::STAR] *)
Definition ANY : N := 0.
(** The byte of ['@']. *)
Definition AT : N := 64.
(** [str::strip_prefix] *)
Definition strip (p s : bytes) : option bytes := if starts_with s p then Some (skipn (length p) s) else None.
(** The requirement behind the ['@'], dependency_resolver.rs:93-98, 119-125, 165-171; [preq] is [VersionReq::parse]. *)
Definition constraint (preq : bytes -> option N) (c : bytes) : option N :=
  if beqb c (bs "latest") || beqb c (bs "*") then Some ANY else preq c.
(** [name@constraint] or [name], dependency_resolver.rs:88-113, 117-147 and 159-183: one shape, three sources *)
Definition parse_plain (preq : bytes -> option N) (src : bytes -> Source) (s : bytes) : option Dep :=
  match split_once AT s with
  | Some (name, c) => match constraint preq c with Some r => Some (mkDep name r (src name)) | None => None end
  | None => Some (mkDep s ANY (src s))
  end.
(** Without [:features=...], dependency_resolver.rs:152-157 *)
Definition without_features (s : bytes) : bytes := match find_sub s (bs ":features=") with Some i => firstn i s | None => s end.
(** [DependencySpec::parse], dependency_resolver.rs:55-113 *)
Definition parse_dep (preq : bytes -> option N) (s : bytes) : option Dep :=
  match strip (bs "pip:") s with
  | Some r => parse_plain preq FromPip r
  | None =>
      match strip (bs "cargo:") s with
      | Some r => parse_plain preq (fun _ => FromCrates) (without_features r)
      | None =>
          if beqb s (bs "horus_py") || starts_with s (bs "horus_py@") then
            let r := match split_once AT s with
                     | Some (_, c) => match constraint preq c with Some r => r | None => ANY end
                     | None => ANY
                     end in
            Some (mkDep (bs "horus_py") r (FromPip (bs "horus-robotics")))
          else parse_plain preq (fun _ => FromRegistry) s
      end
  end.
(** The dependencies in the registry's answer, registry/helpers.rs:1712-1727: a name and maybe a requirement each. *)
Fixpoint listed (preq : bytes -> option N) (l : list (bytes * option bytes)) : list Dep :=
  match l with
  | [] => []
  | (name, req) :: r =>
      match parse_dep preq (match req with Some c => name ++ AT :: c | None => name end) with
      | Some d => d :: listed preq r
      | None => listed preq r
      end
  end.

(** ** Resolving *)
(** [PackageProvider], dependency_resolver.rs:187-194, with [VersionReq::matches]; and whether a version can be downloaded. *)
Record Provider := mkProvider {
  pv_versions : bytes -> option (list N);
  pv_deps : bytes -> N -> option (list Dep);
  pv_match : N -> N -> bool;
  pv_fetch : bytes -> N -> bool }.
(** [sort] and [pop]: the highest *)
Fixpoint highest (l : list N) : option N :=
  match l with [] => None | v :: r => match highest r with None => Some v | Some w => Some (N.max v w) end end.
(** [find_best_version_with_requirements], dependency_resolver.rs:352-368 *)
Definition best (pv : Provider) (versions reqs : list N) : option N := highest (filter (fun v => forallb (fun r => pv_match pv r v) reqs) versions).
(** The key in [visited], dependency_resolver.rs:227 *)
Definition same_key (a b : Dep) : bool := beqb (d_name a) (d_name b) && (d_req a =? d_req b).
(** [requirements.get(name)]: those of the visited dependencies, in their order *)
Definition reqs_of (name : bytes) (seen : list Dep) : list N := map d_req (filter (fun d => beqb name (d_name d)) seen).
(** The dependencies behind a visited one, dependency_resolver.rs:240-252 *)
Definition behind (pv : Provider) (name : bytes) (seen : list Dep) : list Dep :=
  match pv_versions pv name with
  | Some vs => match best pv vs (reqs_of name seen) with
               | Some v => match pv_deps pv name v with Some ds => ds | None => [] end
               | None => []
               end
  | None => []
  end.
(** The search, dependency_resolver.rs:226-253; [None] if it does not end within [fuel] steps. *)
Fixpoint collect (fuel : nat) (pv : Provider) (queue seen : list Dep) : option (list Dep) :=
  match queue with
  | [] => Some seen
  | d :: q =>
      match fuel with
      | O => None
      | S f =>
          if existsb (same_key d) seen then collect f pv q seen
          else let seen' := seen ++ [d] in collect f pv (q ++ behind pv (d_name d) seen') seen'
      end
  end.
(** The keys of [requirements], each once. *)
Fixpoint names_of (seen : list Dep) : list bytes :=
  match seen with [] => [] | d :: r => d_name d :: filter (fun n => negb (beqb (d_name d) n)) (names_of r) end.
(** How resolving ends. *)
Inductive rres := Resolved (l : list (bytes * N)) | Conflict (name : bytes).
(** The loop over [requirements_snapshot] with [resolve_package], dependency_resolver.rs:269-271 and 300-343; in the order of a hash
    map there, so that of several conflicts any may be the one reported. *)
Fixpoint resolve_all (pv : Provider) (seen : list Dep) (names : list bytes) : rres :=
  match names with
  | [] => Resolved []
  | n :: r =>
      match match pv_versions pv n with Some vs => best pv vs (reqs_of n seen) | None => None end with
      | None => Conflict n
      | Some v => match resolve_all pv seen r with Resolved l => Resolved ((n, v) :: l) | e => e end
      end
  end.
(** [str::cmp] *)
Fixpoint bleb (a b : bytes) : bool :=
  match a, b with
  | [], _ => true
  | _ :: _, [] => false
  | x :: a', y :: b' => if x <? y then true else if x =? y then bleb a' b' else false
  end.
(** One step of the sort. *)
Fixpoint place (x : bytes * N) (l : list (bytes * N)) : list (bytes * N) :=
  match l with [] => [x] | y :: r => if bleb (fst x) (fst y) then x :: l else y :: place x r end.
(** [sort_by] on the name, dependency_resolver.rs:282 *)
Definition by_name (l : list (bytes * N)) : list (bytes * N) := fold_right place [] l.
(** [DependencyResolver::resolve], dependency_resolver.rs:212-298 *)
Definition resolve (fuel : nat) (pv : Provider) (roots : list Dep) : option rres :=
  match collect fuel pv roots [] with
  | None => None
  | Some seen => Some (match resolve_all pv seen (names_of seen) with Resolved l => Resolved (by_name l) | e => e end)
  end.

(** ** Installing into a workspace *)
(** The packages of the workspace with their versions, and the global cache. *)
Record Store := mkStore { st_local : list (bytes * N); st_cache : list (bytes * N) }.
(** How an installation ends. *)
Inductive ires := IDone (st : Store) | IErr | IFuel.
(** A package gets its place, install.rs:399-940: then its own dependencies are installed by [go], install.rs:918-929. *)
Definition install_one (go : Store -> list Dep -> ires) (pv : Provider) (st : Store) (n : bytes) (v : N) : ires :=
  if pv_fetch pv n v then
    let st' := mkStore (insert beqb n v (st_local st)) (st_cache st) in
    match pv_deps pv n v with Some (d :: ds) => go st' (d :: ds) | _ => IDone st' end
  else IErr.
(** The loop over what was resolved, install.rs:2033-2117: what is there by name is taken as installed; what the cache has is linked. *)
Fixpoint install_loop (go : Store -> list Dep -> ires) (pv : Provider) (rs : list (bytes * N)) (st : Store) : ires :=
  match rs with
  | [] => IDone st
  | (n, v) :: r =>
      if mem beqb n (st_local st) then install_loop go pv r st
      else if existsb (fun x => beqb n (fst x) && (v =? snd x)) (st_cache st)
           then install_loop go pv r (mkStore (insert beqb n v (st_local st)) (st_cache st))
           else match install_one go pv st n v with IDone st' => install_loop go pv r st' | e => e end
  end.
(** After a conflict, install.rs:1996-2030 with [install_dependency_spec], install.rs:306-344: one by one, each with the highest version of its own
    requirement; a package whose versions cannot be had is an error. *)
Fixpoint install_simple (go : Store -> list Dep -> ires) (pv : Provider) (ds : list Dep) (st : Store) : ires :=
  match ds with
  | [] => IDone st
  | d :: r =>
      if mem beqb (d_name d) (st_local st) then install_simple go pv r st
      else match match pv_versions pv (d_name d) with Some vs => best pv vs [d_req d] | None => None end with
           | None => IErr
           | Some v => match install_one go pv st (d_name d) v with IDone st' => install_simple go pv r st' | e => e end
           end
  end.
(** [install_dependencies] for a workspace, install.rs:1970-2121; [fuel] bounds the depth, [rf] the search. *)
Fixpoint install_deps (fuel rf : nat) (pv : Provider) (st : Store) (ds : list Dep) : ires :=
  match fuel with
  | O => IFuel
  | S f =>
      match resolve rf pv ds with
      | None => IFuel
      | Some (Conflict _) => install_simple (install_deps f rf pv) pv ds st
      | Some (Resolved rs) => install_loop (install_deps f rf pv) pv rs st
      end
  end.
