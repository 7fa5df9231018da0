(** Images (and depth images, point clouds and grids) sent over topics: the reference counting of
    horus_core/src/communication/topic/mod.rs:2664-2725, 3193-3237, topic_message.rs:104-146 and memory/mod.rs:213-226, on the pool of
    Model/TensorPool.v.  All images are of the one global pool (mod.rs:2806-2810), and any number of topics and topic handles share it.

    An event is one phase of a call, as in Model/TensorPool.v: a send is [ISend], then [IRelease] of what it superseded, and where a last reference goes,
    an [IStep].  Left out: images of another pool, the two tensors of a cost map, and (except at the end) the ring between sender and receiver:
    [IRecv] may be given any descriptor that ever was an image. *)
From Verif.Base Require Import Prelude.
From Verif.Model Require Import TensorPool.
Local Open Scope N_scope.

(** The pool; the image objects that the programs have; per topic handle [last_sent_keepalive] (mod.rs:2653); superseded keep-alives that a send
    is about to release. *)
Record images := Images { i_pool : pool; i_held : list desc; i_keep : list (option desc); i_due : list desc }.

(** What may happen; [t] is a thread, [h] a topic handle. *)
Inductive iact :=
| INew (t : nat) (shape : list N) (element_size : N)   (* Image::new begins *)
| IStep (t : nat)                                       (* the pool call the thread is in goes on *)
| IClone (t : nat) (d : desc)                           (* a failed try_send is a clone and a drop *)
| IDrop (t : nat) (d : desc)
| ISend (t h : nat) (d : desc)                          (* to_wire and publish_keepalive *)
| IRelease (t : nat) (d : desc)                         (* release_keepalive_tuple *)
| IRecv (t : nat) (w : desc)                            (* recv, of a descriptor from the ring *)
| IClose (h : nat).                                     (* a topic handle is dropped *)

Section Images.
  Variables (max_slots : nat) (pool_size alignment : N).
  (** [retain], tensor_pool.rs:964-1000: like [try_retain], but says nothing *)
  Definition retain (st : pool) (t : nat) (d : desc) : pool := fst (try_retain max_slots st t d).
  (** [release], tensor_pool.rs:1093-1126; the slot of a last reference is returned by the thread's next step. *)
  Definition release (st : pool) (t : nat) (d : desc) : pool := fst (try_release max_slots st t d).
  (** [last_sent_keepalive] of handle [h]; what a handle holds that does not exist *)
  Definition kept_by (k : list (option desc)) (h : nat) : option desc := match nth_error k h with Some o => o | None => None end.
  (** A list of what an option holds. *)
  Definition opt {A} (o : option A) : list A := match o with Some x => [x] | None => [] end.
  (** The events. *)
  Definition istep (s : images) (a : iact) : images :=
    match a with
    | INew t shape esz => let '(p, o) := act max_slots pool_size alignment (i_pool s) (AAlloc t shape esz) in
                          Images p (flat_map (fun e => match e with OAlloc _ d => [d] | _ => [] end) o ++ i_held s) (i_keep s) (i_due s)
    | IStep t => let '(p, o) := act max_slots pool_size alignment (i_pool s) (AStep t) in
                 Images p (flat_map (fun e => match e with OAlloc _ d => [d] | _ => [] end) o ++ i_held s) (i_keep s) (i_due s)
    | IClone t d => (* memory/mod.rs:213-221 *)
        if idle (i_pool s) t then Images (retain (i_pool s) t d) (d :: i_held s) (i_keep s) (i_due s) else s
    | IDrop t d => (* memory/mod.rs:223-227 *)
        if idle (i_pool s) t then Images (release (i_pool s) t d) (drop_one d (i_held s)) (i_keep s) (i_due s) else s
    | ISend t h d => (* mod.rs:3204-3205, topic_message.rs:112-115, mod.rs:2702-2713 *)
        if idle (i_pool s) t && (h <? length (i_keep s))%nat
        then Images (retain (i_pool s) t d) (i_held s) (put h (Some d) (i_keep s)) (opt (kept_by (i_keep s) h) ++ i_due s) else s
    | IRelease t d => (* mod.rs:2669-2676 *)
        if idle (i_pool s) t then Images (release (i_pool s) t d) (i_held s) (i_keep s) (drop_one d (i_due s)) else s
    | IRecv t w => (* topic_message.rs:124-136 *)
        if idle (i_pool s) t then
          let '(p, o) := try_retain max_slots (i_pool s) t w in
          Images p (match o with [ORetain _ _ true] => w :: i_held s | _ => i_held s end) (i_keep s) (i_due s)
        else s
    | IClose h => (* mod.rs:2716-2725: take; the release follows as [IRelease] *)
        if (h <? length (i_keep s))%nat then Images (i_pool s) (i_held s) (put h None (i_keep s)) (opt (kept_by (i_keep s) h) ++ i_due s) else s
    end.
  (** A history. *)
  Definition irun (s : images) (l : list iact) : images := fold_left istep l s.
End Images.
(** A new pool with [threads] threads and [topics] topic handles *)
Definition images_init (max_slots threads topics : nat) : images := Images (pool_init max_slots threads) [] (repeat None topics) [].

(** A thread sends images one after the other, giving each away: [topic.send(img)].  The image is dropped when [send] returns (mod.rs:3193, the argument is
    owned), after the release of the superseded one. *)
Fixpoint send_all (t h : nat) (prev : option desc) (ds : list desc) : list iact :=
  match ds with
  | [] => []
  | d :: r => ISend t h d :: match prev with Some p => [IRelease t p; IStep t] | None => [] end ++ [IDrop t d; IStep t] ++ send_all t h (Some d) r
  end.
(** The ring of [cap] entries that nobody reads meanwhile: a send into a full one is dropped (mod.rs:2116-2190), except on a broadcast topic, where it replaces
    the oldest. *)
Definition ring_after (overwrite : bool) (cap : nat) (ds : list desc) : list desc := if overwrite then skipn (length ds - cap) ds else firstn cap ds.
