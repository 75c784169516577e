(** Model of /repo/pkg/util/pem.go: public keys of RSA as DER and as Base64, over MarshalPKIXPublicKey and ParsePKIXPublicKey of
    certificate-transparency-go and asn1 as far as they are used. A key is its modulus and its exponent (an int of 64 bits). Every error is None,
    also that of a key of another algorithm. Not modelled: keys without a modulus (nil). No proofs here. *)
From Verif Require Import Base LoadModel.
Local Open Scope N_scope.

(** ** Numbers *)
(** big.Int.Bytes: the most significant byte first, no zeros in front *)
Fixpoint be_fuel (fuel : nat) (n : N) : bytes :=
  match fuel with
  | O => []
  | S fuel' => if n =? 0 then [] else be_fuel fuel' (n / 256) ++ [byte_of_N n]
  end.
Definition be_bytes (n : N) : bytes := be_fuel (N.to_nat (N.size n)) n.
Definition be_value (l : bytes) : N := fold_left (fun v b => v * 256 + Byte.to_N b) l 0.
Definition high (b : byte) : bool := 128 <=? Byte.to_N b.
(** asn1 makeBigInt and int64Encoder *)
Definition int_bytes (z : Z) : bytes :=
  match z with
  | Z0 => [x00]
  | Zpos p => match be_bytes (Npos p) with b :: l => if high b then x00 :: b :: l else b :: l | [] => [] end
  | Zneg p =>
      match map (fun b => byte_of_N (255 - Byte.to_N b)) (be_bytes (Npos p - 1)) with
      | [] => [xff]
      | b :: l => if high b then b :: l else xff :: b :: l
      end
  end.
(** asn1 checkInteger and parseBigInt *)
Definition int_value (l : bytes) : option Z :=
  let signed := match l with b :: _ => if high b then (Z.of_N (be_value l) - 256 ^ Z.of_nat (length l))%Z else Z.of_N (be_value l) | [] => 0%Z end in
  match l with
  | [] => None
  | [b] => Some signed
  | a :: b :: _ => if (Byte.eqb a x00 && negb (high b)) || (Byte.eqb a xff && high b) then None else Some signed
  end.

(** ** Elements: a tag, the length, the contents *)
(** asn1 appendLength, up to 127 bytes of length *)
Definition len_bytes (n : N) : bytes := if n <? 128 then [byte_of_N n] else let l := be_bytes n in byte_of_N (128 + N.of_nat (length l)) :: l.
Definition element (tag : byte) (c : bytes) : bytes := tag :: len_bytes (N.of_nat (length c)) ++ c.
(** asn1 parseTagAndLength after the tag: the bytes of a length *)
Fixpoint len_loop (k : nat) (s : bytes) (acc : N) : option (N * bytes) :=
  match k with
  | O => if acc <? 128 then None else Some (acc, s)
  | S k' =>
      match s with
      | [] => None
      | b :: s' => if 8388608 <=? acc then None else let acc' := acc * 256 + Byte.to_N b in if acc' =? 0 then None else len_loop k' s' acc'
      end
  end.
Definition read_len (s : bytes) : option (N * bytes) :=
  match s with
  | [] => None
  | b :: s' => let n := Byte.to_N b in if n <? 128 then Some (n, s') else if n =? 128 then None else len_loop (N.to_nat (n - 128)) s' 0
  end.
(** An element with the tag: its contents and what comes after *)
Definition read_element (tag : byte) (s : bytes) : option (bytes * bytes) :=
  match s with
  | [] => None
  | t :: s' =>
      if Byte.eqb t tag then
        match read_len s' with
        | None => None
        | Some (n, r) => if N.of_nat (length r) <? n then None else Some (firstn (N.to_nat n) r, skipn (N.to_nat n) r)
        end
      else None
  end.

(** ** Keys *)
Record key := mk_key { modulus : Z; exponent : Z }.
(** rsaEncryption, 1.2.840.113549.1.1.1, and NULL *)
Definition rsa_oid : bytes := [x06; x09; x2a; x86; x48; x86; xf7; x0d; x01; x01; x01].
Definition null : bytes := [x05; x00].
(** pem.go:27 RSAPublicToDERBytes *)
Definition to_der (k : key) : bytes :=
  element x30 (element x30 (rsa_oid ++ null) ++ element x03 (x00 :: element x30 (element x02 (int_bytes (modulus k)) ++ element x02 (int_bytes (exponent k))))).
(** BitString.RightAlign for [p] bits of padding *)
Fixpoint shift_bytes (p prev : N) (l : bytes) : bytes :=
  match l with [] => [] | b :: l' => byte_of_N (prev * 2 ^ (8 - p) + Byte.to_N b / 2 ^ p) :: shift_bytes p (Byte.to_N b) l' end.
Definition right_align (p : N) (l : bytes) : bytes := if p =? 0 then l else shift_bytes p 0 l.
(** parseBitString and RightAlign *)
Definition bit_string (c : bytes) : option bytes :=
  match c with
  | [] => None
  | pb :: l =>
      let p := Byte.to_N pb in
      if (7 <? p) || ((length l =? 0)%nat && (0 <? p)) || negb (Byte.to_N (last l x00) mod 2 ^ p =? 0) then None else Some (right_align p l)
  end.
(** pkcs1PublicKey; what comes behind the two numbers in the sequence is ignored *)
Definition rsa_key (s : bytes) : option key :=
  match read_element x30 s with
  | Some (c, []) =>
      match read_element x02 c with
      | None => None
      | Some (nb, c1) =>
          match int_value nb with
          | None => None
          | Some n =>
              match read_element x02 c1 with
              | None => None
              | Some (eb, _) =>
                  match int_value eb with
                  | None => None
                  | Some e => if (8 <? length eb)%nat then None else if ((n <=? 0) || (e <=? 0))%Z then None else Some (mk_key n e)
                  end
              end
          end
      end
  | _ => None
  end.
Fixpoint begins (pre s : bytes) : bool :=
  match pre, s with [], _ => true | a :: pre', b :: s' => Byte.eqb a b && begins pre' s' | _ :: _, [] => false end.
(** pem.go:31 DERBytesToRSAPublic; what comes behind the parts of a sequence is ignored, bytes behind the whole are an error *)
Definition from_der (s : bytes) : option key :=
  match read_element x30 s with
  | Some (c, []) =>
      match read_element x30 c with
      | None => None
      | Some (alg, c1) => if begins (rsa_oid ++ null) alg then match read_element x03 c1 with None => None | Some (bits, _) => match bit_string bits with None => None | Some t => rsa_key t end end else None
      end
  | _ => None
  end.
(** :11 RSAPublicToDERBase64 and :19 DERBase64ToRSAPublic; StdEncoding skips line breaks *)
Definition to_base64 (k : key) : bytes := b64_encode (to_der k).
Definition from_base64_key (t : bytes) : option key :=
  match b64_decode (filter (fun c => negb (Byte.eqb c x0a || Byte.eqb c x0d)) t) with None => None | Some d => from_der d end.
