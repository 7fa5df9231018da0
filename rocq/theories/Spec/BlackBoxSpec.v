(** Specification of the flight recorder (C39). *)
From Verif Require Import Base.Prelude Model.BlackBox.

Definition newest {A} (n : nat) (l : list A) : list A := skipn (length l - n) l.

(** The records a history makes: each event with its time and the number of
    scheduler ticks since the start or the last clear. *)
Fixpoint made {E} (t : N) (ops : list (op E)) : list (rec E) :=
  match ops with
  | [] => []
  | Record n e :: r => {| r_time := n; r_tick := t; r_event := e |} :: made t r
  | Tick :: r => made (t + 1) r
  | Clear :: r => made 0 r
  | _ :: r => made t r
  end.
(** Those since the last clear. *)
Fixpoint since_clear {E} (t : N) (acc : list (rec E)) (ops : list (op E)) : list (rec E) :=
  match ops with
  | [] => acc
  | Record n e :: r => since_clear t (acc ++ [{| r_time := n; r_tick := t; r_event := e |}]) r
  | Tick :: r => since_clear (t + 1) acc r
  | Clear :: r => since_clear 0 [] r
  | _ :: r => since_clear t acc r
  end.

(** What is needed of the record encoding: one line, never empty, and decoding
    inverts it; a line cut short does not decode. *)
Record codec_ok {E} (enc : rec E -> list nat) (dec : list nat -> option (rec E)) : Prop := {
  co_line : forall r, ~ In 10 (enc r);
  co_nonempty : forall r, enc r <> [];
  co_roundtrip : forall r, dec (enc r) = Some r;
  co_empty : dec [] = None;
  co_cut : forall r k, k < length (enc r) -> dec (firstn k (enc r)) = None }.
