(** SHA-256, HMAC, constant-time comparison and key derivation: horus_net/src/mac.rs.
    A [u32] is an [N] below 2^32, a byte an [N] below 256. *)
From Coq Require Import String.
From Verif.Base Require Import Prelude Bytes Str.
Local Open Scope N_scope.

(** [u32::wrapping_add], [rotate_right], [>>], [!] *)
Definition w32 (x : N) : N := x mod 2 ^ 32.
(** [u32::wrapping_add] *)
Definition wadd (a b : N) : N := w32 (a + b).
(** [u32::rotate_right] *)
Definition rotr (x n : N) : N := N.lor (N.shiftr x n) (w32 (N.shiftl x (32 - n))).
(** [>>] on u32 *)
Definition shr (x n : N) : N := N.shiftr x n.
(** [!] on u32 *)
Definition not32 (x : N) : N := N.lxor x (2 ^ 32 - 1).

(** [to_be_bytes], [from_be_bytes] *)
Definition be_enc (k : nat) (n : N) : bytes := rev (le_enc k n).
(** [u32::from_be_bytes] *)
Definition be_dec (l : bytes) : N := le_dec (rev l).

(** mac.rs:44 *)
Definition SHA256_BLOCK : nat := 64.
(** mac.rs:47-56 *)
Definition K256 : list N :=
  [0x428a2f98; 0x71374491; 0xb5c0fbcf; 0xe9b5dba5; 0x3956c25b; 0x59f111f1; 0x923f82a4; 0xab1c5ed5;
   0xd807aa98; 0x12835b01; 0x243185be; 0x550c7dc3; 0x72be5d74; 0x80deb1fe; 0x9bdc06a7; 0xc19bf174;
   0xe49b69c1; 0xefbe4786; 0x0fc19dc6; 0x240ca1cc; 0x2de92c6f; 0x4a7484aa; 0x5cb0a9dc; 0x76f988da;
   0x983e5152; 0xa831c66d; 0xb00327c8; 0xbf597fc7; 0xc6e00bf3; 0xd5a79147; 0x06ca6351; 0x14292967;
   0x27b70a85; 0x2e1b2138; 0x4d2c6dfc; 0x53380d13; 0x650a7354; 0x766a0abb; 0x81c2c92e; 0x92722c85;
   0xa2bfe8a1; 0xa81a664b; 0xc24b8b70; 0xc76c51a3; 0xd192e819; 0xd6990624; 0xf40e3585; 0x106aa070;
   0x19a4c116; 0x1e376c08; 0x2748774c; 0x34b0bcb5; 0x391c0cb3; 0x4ed8aa4a; 0x5b9cca4f; 0x682e6ff3;
   0x748f82ee; 0x78a5636f; 0x84c87814; 0x8cc70208; 0x90befffa; 0xa4506ceb; 0xbef9a3f7; 0xc67178f2].
(** mac.rs:70-73 *)
Definition H256 : list N :=
  [0x6a09e667; 0xbb67ae85; 0x3c6ef372; 0xa54ff53a; 0x510e527f; 0x9b05688c; 0x1f83d9ab; 0x5be0cd19].

(** mac.rs:81-99: the message schedule; [w] holds the words computed so far *)
Definition first_words (block : bytes) : list N :=
  map (fun i => be_dec (slice (i * 4) 4 block)) (seq 0 16).
(** mac.rs:88-95: the next word of the schedule *)
Definition next_word (w : list N) (i : nat) : N :=
  let a := nth (i - 15) w 0 in
  let b := nth (i - 2) w 0 in
  let s0 := N.lxor (N.lxor (rotr a 7) (rotr a 18)) (shr a 3) in
  let s1 := N.lxor (N.lxor (rotr b 17) (rotr b 19)) (shr b 10) in
  wadd (wadd (wadd (nth (i - 16) w 0) s0) (nth (i - 7) w 0)) s1.
(** mac.rs:79-95 *)
Definition schedule (block : bytes) : list N :=
  fold_left (fun w i => w ++ [next_word w i]) (seq 16 48) (first_words block).

(** The eight working variables a..h. *)
Record Vars := mkVars { va : N; vb : N; vc : N; vd : N; ve : N; vf : N; vg : N; vh : N }.
(** mac.rs:104-124: one round *)
Definition round (w : list N) (v : Vars) (i : nat) : Vars :=
  let e := ve v in
  let a := va v in
  let s1 := N.lxor (N.lxor (rotr e 6) (rotr e 11)) (rotr e 25) in
  let ch := N.lxor (N.land e (vf v)) (N.land (not32 e) (vg v)) in
  let t1 := wadd (wadd (wadd (wadd (vh v) s1) ch) (nth i K256 0)) (nth i w 0) in
  let s0 := N.lxor (N.lxor (rotr a 2) (rotr a 13)) (rotr a 22) in
  let maj := N.lxor (N.lxor (N.land a (vb v)) (N.land a (vc v))) (N.land (vb v) (vc v)) in
  let t2 := wadd s0 maj in
  mkVars (wadd t1 t2) a (vb v) (vc v) (wadd (vd v) t1) e (vf v) (vg v).
(** mac.rs:97-98: the eight working variables *)
Definition vars_of (h : list N) : Vars :=
  mkVars (nth 0 h 0) (nth 1 h 0) (nth 2 h 0) (nth 3 h 0) (nth 4 h 0) (nth 5 h 0) (nth 6 h 0) (nth 7 h 0).
(** mac.rs:79-134 [compress] *)
Definition compress (h : list N) (block : bytes) : list N :=
  let w := schedule block in
  let v := fold_left (round w) (seq 0 64) (vars_of h) in
  [wadd (nth 0 h 0) (va v); wadd (nth 1 h 0) (vb v); wadd (nth 2 h 0) (vc v); wadd (nth 3 h 0) (vd v);
   wadd (nth 4 h 0) (ve v); wadd (nth 5 h 0) (vf v); wadd (nth 6 h 0) (vg v); wadd (nth 7 h 0) (vh v)].

(** mac.rs:59-64; [s_buf] is [buf[..buf_len]] *)
Record Sha := mkSha { s_h : list N; s_buf : bytes; s_total : N }.
(** mac.rs:66-76 [Sha256::new] *)
Definition sha_new : Sha := mkSha H256 [] 0.
(** mac.rs:152-157: the loop over whole blocks *)
Fixpoint absorb (fuel : nat) (h : list N) (data : bytes) : list N * bytes :=
  match fuel with
  | O => (h, data)
  | S f => if (SHA256_BLOCK <=? length data)%nat
           then absorb f (compress h (firstn SHA256_BLOCK data)) (skipn SHA256_BLOCK data)
           else (h, data)
  end.
(** mac.rs:136-163 [update] *)
Definition sha_update (s : Sha) (data : bytes) : Sha :=
  let total := (s_total s + N.of_nat (length data)) mod 2 ^ 64 in
  let '(h, buf, data) :=
    if (0 <? length (s_buf s))%nat then
      let need := (SHA256_BLOCK - length (s_buf s))%nat in
      let take := Nat.min need (length data) in
      let buf := s_buf s ++ firstn take data in
      if (length buf =? SHA256_BLOCK)%nat then (compress (s_h s) buf, [], skipn take data)
      else (s_h s, buf, skipn take data)
    else (s_h s, s_buf s, data) in
  let '(h, data) := absorb (length data) h data in
  match data with
  | [] => mkSha h buf total
  | _ => mkSha h data total
  end.
(** mac.rs:174-176: the zero-padding loop (at most 64 rounds are ever needed) *)
Fixpoint pad_zeros (fuel : nat) (s : Sha) : Sha :=
  match fuel with
  | O => s
  | S f => if (length (s_buf s) =? SHA256_BLOCK - 8)%nat then s else pad_zeros f (sha_update s [0])
  end.
(** mac.rs:165-187 [finalize] *)
Definition sha_finalize (s : Sha) : bytes :=
  let bit_len := (s_total s * 8) mod 2 ^ 64 in
  let s := sha_update s [128] in
  let s := pad_zeros 64 s in
  let h := compress (s_h s) (s_buf s ++ be_enc 8 bit_len) in
  flat_map (be_enc 4) h.
(** mac.rs:191-195 *)
Definition sha256 (data : bytes) : bytes := sha_finalize (sha_update sha_new data).

(** mac.rs:200-227 [hmac_sha256] *)
Definition xor_bytes (a b : bytes) : bytes := map (fun p => N.lxor (fst p) (snd p)) (combine a b).
(** mac.rs:196-224 [hmac_sha256] *)
Definition hmac_sha256 (key msg : bytes) : bytes :=
  let k := if (SHA256_BLOCK <? length key)%nat then sha256 key else key in
  let k0 := k ++ repeat 0 (SHA256_BLOCK - length k) in
  let ipad := xor_bytes (repeat 0x36 SHA256_BLOCK) k0 in
  let opad := xor_bytes (repeat 0x5c SHA256_BLOCK) k0 in
  let inner_digest := sha_finalize (sha_update (sha_update sha_new ipad) msg) in
  sha_finalize (sha_update (sha_update sha_new opad) inner_digest).

(** mac.rs:233-243 [ct_eq] (the timing is not modelled) *)
Definition ct_eq (a b : bytes) : bool :=
  if negb (length a =? length b)%nat then false
  else fold_left (fun diff p => N.lor diff (N.lxor (fst p) (snd p))) (combine a b) 0 =? 0.

(** [u8::is_ascii_hexdigit], and the digit's value *)
Definition hex_val (c : N) : option N :=
  if (48 <=? c) && (c <=? 57) then Some (c - 48)
  else if (65 <=? c) && (c <=? 70) then Some (c - 55)
  else if (97 <=? c) && (c <=? 102) then Some (c - 87)
  else None.
(** [u8::is_ascii_hexdigit] *)
Definition is_hexdigit (c : N) : bool := match hex_val c with Some _ => true | None => false end.
(** mac.rs:307-316 [parse_hex32] *)
Fixpoint hex_pairs (s : bytes) : bytes :=
  match s with
  | a :: b :: r => (16 * match hex_val a with Some x => x | None => 0 end
                    + match hex_val b with Some x => x | None => 0 end) :: hex_pairs r
  | _ => []
  end.
(** mac.rs:305-318 [parse_hex32] *)
Definition parse_hex32 (s : bytes) : option bytes :=
  if negb (length s =? 64)%nat || negb (forallb is_hexdigit s) then None else Some (hex_pairs s).

(** mac.rs:323-338 [pbkdf2_hmac_sha256]; the loop runs [iterations - 1] times *)
Definition pbkdf2 (password salt : bytes) (iterations : N) : bytes :=
  let u := hmac_sha256 password (salt ++ be_enc 4 1) in
  snd (N.iter (iterations - 1)
        (fun uo => let u := hmac_sha256 password (fst uo) in (u, xor_bytes (snd uo) u)) (u, u)).
(** mac.rs:266 *)
Definition ESTOP_KDF_ITERATIONS : N := 600000.
(** mac.rs:274 *)
Definition ESTOP_KDF_SALT : bytes := bs "horus.estop.kdf.v1".
(** mac.rs:299-304 [derive_estop_key] *)
Definition derive_estop_key (secret : bytes) : bytes :=
  match parse_hex32 secret with
  | Some raw => raw
  | None => pbkdf2 secret ESTOP_KDF_SALT ESTOP_KDF_ITERATIONS
  end.
