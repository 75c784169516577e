(** Property theorems C103: public keys as DER and Base64, for the model in KeyModel.v. *)
From Verif Require Import Base BaseLemmas PolicyModel JsonText JsonModel JsonUse ConfModel IssueModel LoadModel LoadProofs KeyModel KeyProofs.
Local Open Scope N_scope.

(** A modulus and an exponent of a key, and texts that asn1 can read *)
Definition proper_key (k : key) : Prop := (0 < modulus k)%Z /\ (0 < exponent k < 2 ^ 63)%Z.
Definition short (c : bytes) : Prop := N.of_nat (length c) < 2 ^ 31.

(** * C103 *)
(** Every key comes back, as DER and as Base64, also if lines are broken. *)
Theorem C103_back : forall k, proper_key k -> short (to_der k) -> from_der (to_der k) = Some k /\ from_base64_key (to_base64 k) = Some k /\
  forall t, filter (fun c => negb (Byte.eqb c x0a || Byte.eqb c x0d)) t = to_base64 k -> from_base64_key t = Some k.
Proof.
  intros k G F. pose proof (der_back k G F) as D. assert (B : forall t, filter (fun c => negb (Byte.eqb c x0a || Byte.eqb c x0d)) t = to_base64 k -> from_base64_key t = Some k).
  { intros t E. unfold from_base64_key. rewrite E. unfold to_base64. rewrite b64_round_trip. exact D. }
  split; [exact D|]. split; [|exact B]. apply B. apply b64_plain.
Qed.
(** Different keys have different texts. *)
Theorem C103_different : forall k k', proper_key k -> proper_key k' -> short (to_der k) -> to_der k = to_der k' \/ to_base64 k = to_base64 k' -> k = k'.
Proof.
  intros k k' G G' F E. assert (D : to_der k = to_der k').
  { destruct E as [E|E]; [exact E|]. unfold to_base64 in E. pose proof (b64_round_trip (to_der k)) as A. rewrite E, b64_round_trip in A. congruence. }
  pose proof (der_back k G F) as A. pose proof F as F'. rewrite D in A, F'. rewrite (der_back k' G' F') in A. congruence.
Qed.
(** What is accepted: the texts of proper keys, but for bytes [x], [y] and [z] at the end of the three sequences, and a key that may be shifted inside the bit string. *)
Theorem C103_accepts : forall s k, from_der s = Some k <-> proper_key k /\ exists x y z bits t,
  let numbers := element x02 (int_bytes (modulus k)) ++ element x02 (int_bytes (exponent k)) ++ z in
  let all := element x30 (rsa_oid ++ null ++ x) ++ element x03 bits ++ y in
  s = element x30 all /\ bit_string bits = Some t /\ t = element x30 numbers /\ short all /\ short (rsa_oid ++ null ++ x) /\ short bits /\ short numbers /\ short (int_bytes (modulus k)).
Proof. exact from_der_iff. Qed.
(** The bit string: a byte with the number of unused bits, at most seven, which are zero; without them it is the number that the text is. *)
Theorem C103_bits : forall c t, bit_string c = Some t <-> exists pb l, c = pb :: l /\ Byte.to_N pb <= 7 /\ (l = [] -> pb = x00) /\ length t = length l /\ be_value l = be_value t * 2 ^ Byte.to_N pb.
Proof. exact bits_iff. Qed.
(** Nothing may come after a key. *)
Theorem C103_end : forall s k x r, from_der s = Some k -> from_der (s ++ x :: r) = None.
Proof. exact der_trailing. Qed.
(** Numbers that are not positive are written but refused. *)
Theorem C103_refused : forall k, short (to_der k) -> (modulus k <= 0 \/ exponent k <= 0)%Z -> from_der (to_der k) = None.
Proof. exact der_refused. Qed.
(** The PCA (C89) with this encoding: if it starts, its key is the one that is read from its certificate when signatures are checked. [public]: the public half of a key. *)
Theorem C103_authority : forall H priv (public : priv -> key) read_key read_cert text a,
  new_authority H priv (fun k => Some (to_der (public k))) read_key read_cert text = Some a ->
  let k := public (p_key _ (au_pca _ a)) in let field := content (f_key (c_fields (p_root _ (au_pca _ a)))) in
  proper_key k -> short field -> from_der field = Some k.
Proof.
  intros H priv public read_key read_cert text a A. unfold new_authority, LoadModel.obind in A. destruct (read_pca zero_pca text) as [conf|]; [|discriminate A]. destruct (read_cert _) as [root|]; [|discriminate A].
  destruct (read_key _) as [k|]; [|discriminate A]. destruct (beqb _ _) eqn:B; [|discriminate A]. injection A as <-. cbn [p_key p_root au_pca]. apply beqb_eq in B. rewrite B. intros G F. now apply der_back.
Qed.
(** The key in a request of a domain owner is read as the one that was generated. *)
Theorem C103_owner : forall zs H priv (public : priv -> key) rsa_sign o domain version fresh now1 now2 now3 req,
  generate zs H priv rsa_sign (fun k => Some (to_der (public k))) o domain version (Some fresh) now1 now2 now3 = Some req ->
  proper_key (public fresh) -> short (content (f_key req)) -> from_der (content (f_key req)) = Some (public fresh).
Proof.
  intros zs H priv public rsa_sign o domain version fresh now1 now2 now3 req A G F. assert (E : content (f_key req) = to_der (public fresh)); [|rewrite E in *; now apply der_back]. clear G F.
  unfold generate, LoadModel.obind in A. destruct (root_of _ domain o) as [[c ck]|]; [|injection A as <-; reflexivity].
  set (req0 := mk_fields _ _ _ _ _ _ _ _ _ _ _ _ _ _ _) in A. assert (K : forall x, f_key (fst (sign_as_owner H (enc_json zs) priv rsa_sign c ck x)) = f_key x).
  { intros x. unfold sign_as_owner. destruct (_ || _); [reflexivity|]. destruct (negb _); [reflexivity|]. destruct (hash_as_signer _ _ c) as [h|]; [|reflexivity]. cbv zeta. destruct (sign_struct _ _ _ _ _ ck); reflexivity. }
  specialize (K req0). destruct (sign_as_owner _ _ _ _ c ck req0) as [req' [|]]; [|discriminate A]. injection A as <-. cbn [fst] in K. rewrite K. reflexivity.
Qed.
Print Assumptions C103_authority.
Print Assumptions C103_owner.
Print Assumptions C103_back.
Print Assumptions C103_different.
Print Assumptions C103_accepts.
Print Assumptions C103_bits.
Print Assumptions C103_end.
Print Assumptions C103_refused.

(** A key of 1024 bits: the text begins with 30 81 9f 30 0d 06 09 2a ... and ends with 02 03 01 00 01. *)
Definition key1 : key := mk_key (2 ^ 1023 + 12345)%Z 65537%Z.
Example C103_example : proper_key key1 /\ short (to_der key1) /\ length (to_der key1) = 162%nat /\
  firstn 29 (to_der key1) = [x30; x81; x9f; x30; x0d; x06; x09; x2a; x86; x48; x86; xf7; x0d; x01; x01; x01; x05; x00; x03; x81; x8d; x00; x30; x81; x89; x02; x81; x81; x00] /\
  skipn 157 (to_der key1) = [x02; x03; x01; x00; x01] /\ from_der (to_der key1) = Some key1 /\ from_base64_key (firstn 64 (to_base64 key1) ++ x0a :: skipn 64 (to_base64 key1)) = Some key1 /\
  from_der (to_der (mk_key (-128) 3)) = None.
Proof. vm_compute. repeat split; discriminate. Qed.
(** A PCA with this key and a configuration without log servers, and a request of an owner. *)
Definition key_moment : time := mk_time 0 None 0.
Definition key_root : cert := mk_cert (mk_fields None 1 1 [] key_moment key_moment true false (Some (to_der key1)) 0 0 key_moment (mk_attr [] [] [] []) None None) None None [].
Example C103_ex_authority : (exists a, new_authority (fun b => b) key (fun k => Some (to_der k)) (fun _ => Some key1) (fun _ => Some key_root) [x7b; x7d] = Some a /\ p_key _ (au_pca _ a) = key1) /\
  (forall zs, exists req, generate zs (fun b => b) key (fun _ _ => None) (fun k => Some (to_der k)) [] [x61] 1 (Some key1) key_moment key_moment key_moment = Some req /\ content (f_key req) = to_der key1) /\
  new_authority (fun b => b) key (fun k => Some (to_der k)) (fun _ => Some (mk_key 15 3)) (fun _ => Some key_root) [x7b; x7d] = None.
Proof.
  split; [|split].
  - exists (mk_authority key (PolicyModel.mk_pca _ key_root key1 []) [] false 0). split; vm_compute; reflexivity.
  - intros zs. eexists. split; reflexivity.
  - vm_compute. reflexivity.
Qed.
(** Full statement: a text that is accepted is the text of its key. False: bytes at the end of the inner sequences are ignored, and so one key has many texts. *)
Definition loose (x y z : bytes) (k : key) : bytes :=
  element x30 (element x30 (rsa_oid ++ null ++ x) ++ element x03 (x00 :: element x30 (element x02 (int_bytes (modulus k)) ++ element x02 (int_bytes (exponent k)) ++ z)) ++ y).
Theorem C103_one_text_refuted : exists s1 s2 s3 k, proper_key k /\ from_der s1 = Some k /\ from_der s2 = Some k /\ from_der s3 = Some k /\ s1 <> to_der k /\ s2 <> to_der k /\ s3 <> to_der k.
Proof. exists (loose [x41] [] [] key1), (loose [] [x41; x42] [] key1), (loose [] [] [x00] key1), key1. vm_compute. repeat split; discriminate. Qed.
Print Assumptions C103_one_text_refuted.
