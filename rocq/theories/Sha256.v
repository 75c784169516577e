(** SHA-256 (FIPS 180-4) as a computable function, so that witnesses can be evaluated with the hash function
    the code really uses (pkg/common/hasher.go:14 calls crypto/sha256). The theorems that hold for every hash
    function do not use this file. *)
From Verif Require Import Base.
Local Open Scope N_scope.

(** A 32-bit word: 32 bits, least significant first. *)
Definition word := list bool.

Fixpoint xor2 (x y : word) : word :=
  match x, y with a :: x', b :: y' => xorb a b :: xor2 x' y' | _, _ => [] end.
Fixpoint xor3 (x y z : word) : word :=
  match x, y, z with a :: x', b :: y', c :: z' => xorb (xorb a b) c :: xor3 x' y' z' | _, _, _ => [] end.
Fixpoint ch (x y z : word) : word :=
  match x, y, z with a :: x', b :: y', c :: z' => (if a then b else c) :: ch x' y' z' | _, _, _ => [] end.
Fixpoint maj (x y z : word) : word :=
  match x, y, z with
  | a :: x', b :: y', c :: z' => (if a then b || c else b && c) :: maj x' y' z'
  | _, _, _ => []
  end.
Fixpoint add_carry (c : bool) (x y : word) : word :=
  match x, y with
  | a :: x', b :: y' =>
      xorb (xorb a b) c :: add_carry (if a then b || c else b && c) x' y'
  | _, _ => []
  end.
Definition add32 (x y : word) : word := add_carry false x y.
Definition rotr (n : nat) (x : word) : word := skipn n x ++ firstn n x.
Definition shr (n : nat) (x : word) : word := skipn n x ++ repeat false n.
Definition bs0 (x : word) := xor3 (rotr 2 x) (rotr 13 x) (rotr 22 x).
Definition bs1 (x : word) := xor3 (rotr 6 x) (rotr 11 x) (rotr 25 x).
Definition ss0 (x : word) := xor3 (rotr 7 x) (rotr 18 x) (shr 3 x).
Definition ss1 (x : word) := xor3 (rotr 17 x) (rotr 19 x) (shr 10 x).

Fixpoint bits_of_N (len : nat) (n : N) : word :=
  match len with O => [] | S l => N.odd n :: bits_of_N l (N.div2 n) end.

Definition K : list word := Eval vm_compute in map (bits_of_N 32)
 [0x428a2f98;0x71374491;0xb5c0fbcf;0xe9b5dba5;0x3956c25b;0x59f111f1;0x923f82a4;0xab1c5ed5;
  0xd807aa98;0x12835b01;0x243185be;0x550c7dc3;0x72be5d74;0x80deb1fe;0x9bdc06a7;0xc19bf174;
  0xe49b69c1;0xefbe4786;0x0fc19dc6;0x240ca1cc;0x2de92c6f;0x4a7484aa;0x5cb0a9dc;0x76f988da;
  0x983e5152;0xa831c66d;0xb00327c8;0xbf597fc7;0xc6e00bf3;0xd5a79147;0x06ca6351;0x14292967;
  0x27b70a85;0x2e1b2138;0x4d2c6dfc;0x53380d13;0x650a7354;0x766a0abb;0x81c2c92e;0x92722c85;
  0xa2bfe8a1;0xa81a664b;0xc24b8b70;0xc76c51a3;0xd192e819;0xd6990624;0xf40e3585;0x106aa070;
  0x19a4c116;0x1e376c08;0x2748774c;0x34b0bcb5;0x391c0cb3;0x4ed8aa4a;0x5b9cca4f;0x682e6ff3;
  0x748f82ee;0x78a5636f;0x84c87814;0x8cc70208;0x90befffa;0xa4506ceb;0xbef9a3f7;0xc67178f2].
Definition IV : list word := Eval vm_compute in map (bits_of_N 32)
 [0x6a09e667;0xbb67ae85;0x3c6ef372;0xa54ff53a;0x510e527f;0x9b05688c;0x1f83d9ab;0x5be0cd19].

(** a byte as its 8 bits, least significant first, and back *)
Definition byte_bits (b : byte) : list bool :=
  let '(b0, (b1, (b2, (b3, (b4, (b5, (b6, b7))))))) := Byte.to_bits b in [b0; b1; b2; b3; b4; b5; b6; b7].
Fixpoint bits_bytes (bits : list bool) : bytes :=
  match bits with
  | b0 :: b1 :: b2 :: b3 :: b4 :: b5 :: b6 :: b7 :: rest =>
      Byte.of_bits (b0, (b1, (b2, (b3, (b4, (b5, (b6, b7))))))) :: bits_bytes rest
  | _ => []
  end.
Definition be_bytes (w : list bool) : bytes := rev (bits_bytes w).

(** message padding: 0x80, zeros to 56 mod 64, bit length as 8 bytes *)
Definition pad (m : bytes) : bytes :=
  let l := N.of_nat (length m) in
  let z := N.to_nat ((119 - l mod 64) mod 64) in
  m ++ [x80] ++ repeat x00 z ++ be_bytes (bits_of_N 64 (8 * l)).

Fixpoint words (b : bytes) : list word :=
  match b with
  | a :: b :: c :: d :: r => (byte_bits d ++ byte_bits c ++ byte_bits b ++ byte_bits a) :: words r
  | _ => []
  end.

(** message schedule; [ws] holds the last 16 words, oldest first *)
Fixpoint schedule (n : nat) (ws : list word) : list word :=
  match n with
  | O => []
  | S n' =>
      let w := add32 (add32 (ss1 (nth 14 ws [])) (nth 9 ws [])) (add32 (ss0 (nth 1 ws [])) (nth 0 ws [])) in
      w :: schedule n' (tl ws ++ [w])
  end.

Definition round (st : list word) (kw : word * word) : list word :=
  match st with
  | [a; b; c; d; e; f; g; h] =>
      let t1 := add32 (add32 (add32 h (bs1 e)) (add32 (ch e f g) (fst kw))) (snd kw) in
      let t2 := add32 (bs0 a) (maj a b c) in
      [add32 t1 t2; a; b; c; add32 d t1; e; f; g]
  | _ => st
  end.

Definition add_state (a b : list word) : list word := map (fun p => add32 (fst p) (snd p)) (combine a b).

Fixpoint compress_blocks (fuel : nat) (ws : list word) (st : list word) : list word :=
  match fuel with
  | O => st
  | S f =>
      match ws with
      | [] => st
      | _ :: _ =>
          let blk := firstn 16 ws in
          let w := blk ++ schedule 48 blk in
          compress_blocks f (skipn 16 ws) (add_state st (fold_left round (combine K w) st))
      end
  end.

Definition sha256 (m : bytes) : bytes :=
  let ws := words (pad m) in
  flat_map be_bytes (compress_blocks (length ws) ws IV).

(** Test vectors (tests, not proofs): SHA-256 of "abc" and of the empty string. *)
Example sha256_abc :
  sha256 [x61; x62; x63] =
  [xba;x78;x16;xbf;x8f;x01;xcf;xea;x41;x41;x40;xde;x5d;xae;x22;x23;
   xb0;x03;x61;xa3;x96;x17;x7a;x9c;xb4;x10;xff;x61;xf2;x00;x15;xad].
Proof. vm_compute. reflexivity. Qed.
Example sha256_empty :
  firstn 4 (sha256 []) = [xe3; xb0; xc4; x42].
Proof. vm_compute. reflexivity. Qed.
(* echo -n | 64 zero bytes -> two blocks *)
Example sha256_two_blocks : firstn 4 (sha256 (repeat x00 64)) = [xf5; xa5; xfd; x42].
Proof. vm_compute. reflexivity. Qed.
