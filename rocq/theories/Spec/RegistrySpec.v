From Verif.Base Require Import Prelude Bytes AMap Str.
From Verif.Model Require Import Registry.
Local Open Scope N_scope.

Definition covers_pub (r : TopicRole) : bool := match r with Publisher | Both => true | Subscriber => false end.
Definition covers_sub (r : TopicRole) : bool := match r with Subscriber | Both => true | Publisher => false end.

(** A role is held iff some registration of it was not followed by an unregistration of it. *)
Definition registers (c : TopicRole -> bool) (name : bytes) (o : gop) : Prop :=
  match o with GRegister n _ _ r _ => n = name /\ c r = true | _ => False end.
Definition unregisters (c : TopicRole -> bool) (name : bytes) (o : gop) : Prop :=
  match o with GUnregister n r => n = name /\ c r = true | _ => False end.
Definition holds_role (c : TopicRole -> bool) (name : bytes) (h : list gop) : Prop :=
  exists h1 o h2, h = h1 ++ o :: h2 /\ registers c name o /\ forall o', In o' h2 -> ~ unregisters c name o'.

(** ** Topic handles, in terms of what the program does with them. *)
Definition open_on (hs : list (N * HandleState)) (name : bytes) : Prop :=
  exists h x, In (h, x) hs /\ hs_name x = name.
Definition publishing_on (hs : list (N * HandleState)) (name : bytes) : Prop :=
  exists h x, In (h, x) hs /\ hs_name x = name /\ hs_sent x = true.
(** At no point of the history are two handles open on the same topic. *)
Fixpoint one_handle_per_topic (hs : list (N * HandleState)) (evs : list hev) : Prop :=
  match evs with
  | [] => True
  | e :: r => (match e with HOpen h n _ _ _ => ~ open_on hs n /\ lookup N.eqb h hs = None | _ => True end)
              /\ one_handle_per_topic (fst (hstep hs e)) r
  end.
