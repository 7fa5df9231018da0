(** SHA-256 after FIPS 180-4, HMAC after RFC 2104, PBKDF2 after RFC 8018 — written from the
    standards, as relations and closed formulas, not after the code. *)
From Coq Require Import Znumtheory.
From Verif.Base Require Import Prelude Bytes.
Local Open Scope N_scope.

(** FIPS 180-4, 2.2.2 and 3.2: operations on 32-bit words. *)
Definition add32 (a b : N) : N := (a + b) mod 2 ^ 32.
Definition ROTR (n x : N) : N := x / 2 ^ n + (x mod 2 ^ n) * 2 ^ (32 - n).
Definition SHR (n x : N) : N := x / 2 ^ n.
Definition compl32 (x : N) : N := 2 ^ 32 - 1 - x.
Definition xor3 (x y z : N) : N := N.lxor x (N.lxor y z).
(** 4.1.2 *)
Definition Ch (x y z : N) : N := N.lxor (N.land x y) (N.land (compl32 x) z).
Definition Maj (x y z : N) : N := xor3 (N.land x y) (N.land x z) (N.land y z).
Definition Sigma0 (x : N) : N := xor3 (ROTR 2 x) (ROTR 13 x) (ROTR 22 x).
Definition Sigma1 (x : N) : N := xor3 (ROTR 6 x) (ROTR 11 x) (ROTR 25 x).
Definition sigma0 (x : N) : N := xor3 (ROTR 7 x) (ROTR 18 x) (SHR 3 x).
Definition sigma1 (x : N) : N := xor3 (ROTR 17 x) (ROTR 19 x) (SHR 10 x).

(** 4.2.2: the constants are "the first thirty-two bits of the fractional parts of the cube
    roots of the first sixty-four prime numbers"; 5.3.3 likewise with square roots. *)
Definition primes64 : list N :=
  [2; 3; 5; 7; 11; 13; 17; 19; 23; 29; 31; 37; 41; 43; 47; 53; 59; 61; 67; 71; 73; 79; 83; 89; 97; 101;
   103; 107; 109; 113; 127; 131; 137; 139; 149; 151; 157; 163; 167; 173; 179; 181; 191; 193; 197; 199;
   211; 223; 227; 229; 233; 239; 241; 251; 257; 263; 269; 271; 277; 281; 283; 293; 307; 311].
(** [k] is the first 32 bits of the fractional part of the [e]-th root of [p]. *)
Definition root_bits (e p k : N) : Prop :=
  exists c, k < 2 ^ 32 /\ (c * 2 ^ 32 + k) ^ e <= p * 2 ^ (32 * e) < (c * 2 ^ 32 + k + 1) ^ e.

(** 5.1.1: padding *)
Definition be8 (n : N) : bytes := rev (le_enc 8 n).
Definition padded (m p : bytes) : Prop :=
  exists z, (z < 64)%nat /\ p = m ++ [128] ++ repeat 0 z ++ be8 (8 * N.of_nat (length m)) /\
            Nat.modulo (length p) 64 = 0%nat.

(** 6.2.2: schedule, rounds, and one block; big-endian word [t] of a block *)
Definition word_at (block : bytes) (t : nat) : N :=
  nth (4 * t) block 0 * 2 ^ 24 + nth (4 * t + 1) block 0 * 2 ^ 16 + nth (4 * t + 2) block 0 * 2 ^ 8
  + nth (4 * t + 3) block 0.
Definition is_schedule (block : bytes) (W : nat -> N) : Prop :=
  (forall t, (t < 16)%nat -> W t = word_at block t) /\
  (forall t, (16 <= t < 64)%nat ->
     W t = add32 (add32 (sigma1 (W (t - 2)%nat)) (W (t - 7)%nat)) (add32 (sigma0 (W (t - 15)%nat)) (W (t - 16)%nat))).
Definition Words8 := (N * N * N * N * N * N * N * N)%type.
Definition step (K W : nat -> N) (t : nat) (s : Words8) : Words8 :=
  let '(a, b, c, d, e, f, g, h) := s in
  let T1 := (h + Sigma1 e + Ch e f g + K t + W t) mod 2 ^ 32 in
  let T2 := (Sigma0 a + Maj a b c) mod 2 ^ 32 in
  (add32 T1 T2, a, b, c, add32 d T1, e, f, g).
Fixpoint steps (K W : nat -> N) (n : nat) (s : Words8) : Words8 :=
  match n with O => s | S m => step K W m (steps K W m s) end.
Definition add8 (x y : Words8) : Words8 :=
  let '(a, b, c, d, e, f, g, h) := x in
  let '(a', b', c', d', e', f', g', h') := y in
  (add32 a a', add32 b b', add32 c c', add32 d d', add32 e e', add32 f f', add32 g g', add32 h h').
Inductive blocks_hash (K : nat -> N) : Words8 -> bytes -> Words8 -> Prop :=
| bh_nil s : blocks_hash K s [] s
| bh_cons s block rest W s' : length block = 64%nat -> is_schedule block W ->
    blocks_hash K (add8 s (steps K W 64 s)) rest s' -> blocks_hash K s (block ++ rest) s'.
Definition digest_of (s : Words8) : bytes :=
  let '(a, b, c, d, e, f, g, h) := s in flat_map (fun w => rev (le_enc 4 w)) [a; b; c; d; e; f; g; h].
(** [d] is the SHA-256 digest of [m]. *)
Definition SHA256 (m d : bytes) : Prop :=
  exists (K : nat -> N) (s0 s : Words8) p,
    (forall t, (t < 64)%nat -> root_bits 3 (nth t primes64 0) (K t)) /\
    (let '(a, b, c, d, e, f, g, h) := s0 in
     Forall2 (root_bits 2) [2; 3; 5; 7; 11; 13; 17; 19] [a; b; c; d; e; f; g; h]) /\
    padded m p /\ blocks_hash K s0 p s /\ d = digest_of s.

(** RFC 2104: HMAC(K, text) = H(K0 xor opad, H(K0 xor ipad, text)), K0 the key hashed if longer
    than a block and padded with zeros to a block. *)
Definition xor_byte_all (c : N) (k0 : bytes) : bytes := map (N.lxor c) k0.
Definition HMAC (key text tag : bytes) : Prop :=
  exists k k0 inner,
    (if (64 <? length key)%nat then SHA256 key k else k = key) /\
    k0 = k ++ repeat 0 (64 - length k) /\
    SHA256 (xor_byte_all 0x36 k0 ++ text) inner /\ SHA256 (xor_byte_all 0x5c k0 ++ inner) tag.

(** RFC 8018, one block: T = U1 xor ... xor Uc with U1 = PRF(P, S || INT(1)), U(i+1) = PRF(P, Ui). *)
Definition bytes_xor (a b : bytes) : bytes := map (fun p => N.lxor (fst p) (snd p)) (combine a b).
Definition PBKDF2 (P S : bytes) (c : nat) (T : bytes) : Prop :=
  exists U : nat -> bytes,
    HMAC P (S ++ [0; 0; 0; 1]) (U 1%nat) /\
    (forall i, (1 <= i < c)%nat -> HMAC P (U i) (U (i + 1)%nat)) /\
    T = fold_left bytes_xor (map U (seq 2 (c - 1))) (U 1%nat).

(** Hexadecimal text of a byte string (both cases allowed). *)
Definition hex_digit_of (v c : N) : Prop :=
  (v < 10 /\ c = 48 + v) \/ (10 <= v < 16 /\ (c = 55 + v \/ c = 87 + v)).
Inductive hex_of : bytes -> bytes -> Prop :=
| hx_nil : hex_of [] []
| hx_cons b l c1 c2 s : b < 256 -> hex_digit_of (b / 16) c1 -> hex_digit_of (b mod 16) c2 ->
    hex_of l s -> hex_of (b :: l) (c1 :: c2 :: s).
