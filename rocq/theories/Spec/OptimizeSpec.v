(** What a user expects of the outgoing optimizers, independently of how they work. *)
From Coq Require Import String.
From Verif.Base Require Import Prelude Bytes AMap Str.
From Verif.Model Require Import Wire Optimize.
Open Scope list_scope.
Open Scope N_scope.

(** The messages of a batch that must never be touched, in their order. *)
Definition urgent_part (ms : list OutMessage) : list OutMessage :=
  filter (fun m => match om_prio m with Immediate => true | _ => false end) ms.

(** [out] is [inp] with some messages left out and nothing reordered. *)
Inductive thinned {A} : list A -> list A -> Prop :=
| thin_nil : thinned [] []
| thin_keep m out inp : thinned out inp -> thinned (m :: out) (m :: inp)
| thin_drop m out inp : thinned out inp -> thinned out (m :: inp).

(** The messages handed to the exporter over a history, and those it put on the wire. *)
Definition given (h : list (N * list OutMessage)) : list OutMessage := flat_map snd h.
Definition wired (outs : list (list OutMessage)) : list OutMessage := concat outs.
Definition on_topic (t : N) (ms : list OutMessage) : list OutMessage := filter (fun m => om_topic m =? t) ms.
Definition non_urgent (ms : list OutMessage) : list OutMessage :=
  filter (fun m => match om_prio m with Immediate => false | _ => true end) ms.

(** ** The documented delta format: regions (offset u16, length u16, data) replacing bytes of the previous
    payload. *)
Definition patch (base : bytes) (off : nat) (data : bytes) : bytes :=
  firstn off base ++ data ++ skipn (off + length data) base.
Fixpoint apply_delta (fuel : nat) (base delta : bytes) : option bytes :=
  match delta with
  | [] => Some base
  | _ :: _ =>
    match fuel with
    | O => None
    | S f =>
      if (length delta <? 4)%nat then None
      else let off := N.to_nat (get_le 0 2 delta) in
           let len := N.to_nat (get_le 2 2 delta) in
           if (length delta <? 4 + len)%nat then None
           else apply_delta f (patch base off (slice 4 len delta)) (skipn (4 + len) delta)
    end
  end.

(** A receiver that knows the fixed payload size [n] of a topic and applies deltas: a payload of size [n] is
    taken whole, anything else is applied to the value held. *)
Definition rx_apply (n : nat) (held : option bytes) (m : InMessage) : option bytes :=
  if (length (om_payload m) =? n)%nat then Some (om_payload m)
  else match held with
       | Some b => apply_delta (length (om_payload m)) b (om_payload m)
       | None => None
       end.
(** The last value published, as the receiver should hold it. *)
Definition last_value (ms : list OutMessage) : option bytes :=
  match rev ms with [] => None | m :: _ => Some (om_payload m) end.
