From Coq Require Import String.
From Verif.Base Require Import Prelude Bytes Str.
From Verif.Model Require Import NetFilter.
Local Open Scope N_scope.

(** [x] and [addr] agree on the first [len] of their 32 bits. *)
Definition same_network (addr len x : N) : Prop := addr / 2 ^ (32 - len) = x / 2 ^ (32 - len).

(** Decimal notation of a number below 1000, and dotted notation. *)
Definition show_dec (n : N) : bytes :=
  if n <? 10 then [48 + n]
  else if n <? 100 then [48 + n / 10; 48 + n mod 10]
  else [48 + n / 100; 48 + n / 10 mod 10; 48 + n mod 10].
Definition show_ip (a b c d : N) : bytes :=
  show_dec a ++ [46] ++ show_dec b ++ [46] ++ show_dec c ++ [46] ++ show_dec d.
Definition ip (a b c d : N) : N := ((a * 256 + b) * 256 + c) * 256 + d.
Definition octet (a : N) : Prop := a < 256.

(** The addresses admitted when nothing is configured. *)
Definition private_range (x : N) : Prop :=
  x / 2 ^ 24 = 127 \/ x / 2 ^ 24 = 10 \/ (ip 172 16 0 0 <= x <= ip 172 31 255 255) \/
  (ip 192 168 0 0 <= x <= ip 192 168 255 255) \/ (ip 169 254 0 0 <= x <= ip 169 254 255 255) \/
  (ip 100 64 0 0 <= x <= ip 100 127 255 255).
(** The IPv4 address a source stands for, if any. *)
Definition v4_of (i : IpAddr) : option N :=
  match i with
  | V4 a => Some a
  | V6 a => if (65535 * 2 ^ 32 <=? a) && (a <? 65536 * 2 ^ 32) then Some (a - 65535 * 2 ^ 32) else None
  end.
Definition any_word (raw : bytes) : Prop :=
  In (to_lower (trim raw)) [bs "any"; bs "*"; bs "all"; bs "0.0.0.0/0"].
