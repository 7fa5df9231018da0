(** Vocabulary for images sent over topics. *)
From Verif.Base Require Import Prelude.
From Verif.Model Require Import TensorPool ImageTopic.
Local Open Scope N_scope.

(** Every image that any topic handle keeps. *)
Definition kept (k : list (option desc)) : list desc := flat_map (fun o => match o with Some d => [d] | None => [] end) k.
(** Everyone who has a reference: the images programs hold, those kept by topic handles, those about to be released. *)
Definition holders (s : images) : list desc := i_held s ++ kept (i_keep s) ++ i_due s.

Section Programs.
  Variables (max_slots : nat) (pool_size alignment : N).
  (** What Rust's ownership rules ensure: a program clones, drops and sends only images it has; a send releases only what it superseded; what is received was once an
      image.  [made] are all images made so far. *)
  Fixpoint proper (made : list desc) (s : images) (l : list iact) : Prop :=
    match l with
    | [] => True
    | a :: r =>
        match a with
        | IClone _ d | IDrop _ d | ISend _ _ d => In d (i_held s)
        | IRelease _ d => In d (i_due s)
        | IRecv _ w => In w made
        | _ => True
        end /\
        let s' := istep max_slots pool_size alignment s a in
        proper (match a with INew _ _ _ | IStep _ => i_held s' | _ => [] end ++ made) s' r
    end.
End Programs.
