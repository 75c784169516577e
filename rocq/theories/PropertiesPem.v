(** Property theorems C83: certificates and keys in PEM files, for the model in PemModel.v. *)
From Coq Require Import Strings.String.
From Verif Require Import Base BaseLemmas UtilModel DbModel LoadModel PemModel PemProofs PemReader.
Local Open Scope list_scope.
Local Notation b_ s := (list_byte_of_string s%string).

(** * C83. A text of PEM blocks as Encode writes them, with lines without dashes around them ([good_item]), is read as the certificates of its
    CERTIFICATE blocks, in order: whatever the sizes and the end of the pieces in which it arrives ([answers], none of which fails), whatever
    the size of the storage, and however the calls divide them. *)
Theorem C83_read_partial cert parse_tbs parse_cert size s l cs wants : 0 < size -> ~ In Broken (answers s) ->
  Forall good_item l -> pending s = text_of l -> parsed cert parse_tbs parse_cert (cert_raws l) = Some cs ->
  exists r', cert_reads cert parse_tbs parse_cert wants (new_reader size s) = Some (portions cert wants cs, r').
Proof. intros Hs Hb Hl Hp P. apply (cert_reads_ok cert parse_tbs parse_cert wants _ l cs); [apply new_healthy; assumption|exact P]. Qed.
(** Only a certificate that cannot be parsed is an error, and it is one: for the call that reaches it, and for ReadAll. *)
Theorem C83_unparsable_partial cert parse_tbs parse_cert size s l want : 0 < size -> ~ In Broken (answers s) ->
  Forall good_item l -> pending s = text_of l -> parsed cert parse_tbs parse_cert (firstn want (cert_raws l)) = None ->
  exists r', cert_read cert parse_tbs parse_cert want (new_reader size s) = Some (Err, r').
Proof.
  intros Hs Hb Hl Hp P. pose proof (cert_read_ok cert parse_tbs parse_cert want _ l (new_healthy size s l Hs Hb Hl Hp)) as D. unfold done in D. rewrite P in D. exact D.
Qed.
Theorem C83_read_all_partial cert parse_tbs parse_cert fuel size s l : 0 < size -> ~ In Broken (answers s) ->
  Forall good_item l -> pending s = text_of l -> length (cert_raws l) < fuel ->
  exists r', read_all cert parse_tbs parse_cert fuel (new_reader size s) =
    Some (match parsed cert parse_tbs parse_cert (cert_raws l) with Some cs => Ok cs | None => Err end, r').
Proof. intros Hs Hb Hl Hp F. apply (read_all_ok cert parse_tbs parse_cert fuel _ l); [apply new_healthy; assumption|exact F]. Qed.

(** Certificates survive SerializeCertificates and DeserializeCertificates, keys RSAKeyToPEM and RSAKeyFromPEM; what X.509 and PKCS #1 parse
    and marshal is given. *)
Theorem C83_round_trip cert parse_tbs parse_cert size raw_of cs : 0 < size ->
  (forall c, In c cs -> match parse_tbs (raw_of c) with Some c' => c' = c | None => parse_cert (raw_of c) = Some c end) ->
  deserialize_certs cert parse_tbs parse_cert size (serialize_certs cert raw_of cs) = Some (Ok cs).
Proof.
  intros Hs H. apply round_trip; [exact Hs|]. intros c Hc. specialize (H c Hc). unfold parse. destruct (parse_tbs (raw_of c)); [now subst|exact H].
Qed.
Theorem C83_key_round_trip (key : Type) (marshal_key : key -> bytes) (parse_key : bytes -> option key) k :
  parse_key (marshal_key k) = Some k -> rsa_key_from_pem key parse_key (rsa_key_to_pem key marshal_key k) = Ok k.
Proof. exact (key_round_trip key marshal_key parse_key k). Qed.
(** Whatever block a file begins with, only one of the type RSA PRIVATE KEY whose content parses gives a key. *)
Theorem C83_key_type (key : Type) (parse_key : bytes -> option key) lines t raw rest k : lead lines -> good_type t ->
  (rsa_key_from_pem key parse_key (lines ++ pem_encode t raw ++ rest) = Ok k <-> t = b_ "RSA PRIVATE KEY" /\ parse_key raw = Some k) /\
  rsa_key_from_pem key parse_key (lines ++ pem_encode t raw ++ rest) <> Panic.
Proof.
  intros L T. unfold rsa_key_from_pem. rewrite encode_open, <- app_assoc, (decode_full lines t raw ([newline_b] ++ rest) rest L T) by (right; reflexivity).
  cbn [fst]. destruct (beqb t key_type) eqn:B.
  - apply beqb_eq in B as ->. destruct (parse_key raw); (split; [split; [intros [= ->]; auto|intros [_ [= ->]]; reflexivity]|discriminate]) || (split; [split; [discriminate|intros [_ [=]]]|discriminate]).
  - split; [|discriminate]. split; [discriminate|]. intros [-> _]. exfalso. assert (beqb key_type key_type = true) by apply beqb_refl. unfold key_type in *. congruence.
Qed.
Print Assumptions C83_key_type.
Example C83_key_type_example : lead [newline_b] /\ good_type (b_ "CERTIFICATE") /\
  rsa_key_from_pem bytes (fun b => Some b) ([newline_b] ++ pem_encode (b_ "CERTIFICATE") [x01] ++ b_ "end") = Err /\
  rsa_key_from_pem bytes (fun b => Some b) ([newline_b] ++ pem_encode (b_ "RSA PRIVATE KEY") [x01] ++ b_ "end") = Ok [x01].
Proof. split; [exact lead_nl|]. split; [exact good_cert_type|]. split; vm_compute; reflexivity. Qed.

(** Lines before, between and after the blocks, another block, pieces of 7 and 100 bytes, an empty piece, a storage of 16 bytes *)
Definition ex_cert : Type := bytes.
Definition no_tbs (raw : bytes) : option ex_cert := None.
Definition any_cert (raw : bytes) : option ex_cert := match raw with [] => None | _ => Some raw end.
Definition ex_key : bytes := key_type.
Definition ex_items : list item :=
  [Lines (b_ "two of them" ++ [newline_b]); Block cert_type (repeat x41 50); Block ex_key [x01; x02]; Lines [newline_b]; Block cert_type [x42; x43]; Lines (b_ "end" ++ [newline_b])].
Definition ex_source : source := mk_source (text_of ex_items) [Take 7 false; Take 0 false; Take 100 true].
Example ex_items_good : Forall good_item ex_items.
Proof.
  assert (K : good_type ex_key) by (unfold good_type; cbn; repeat split; intuition discriminate).
  apply Forall_cons; [split; [cbn; intuition discriminate|right; exists (b_ "two of them"); reflexivity]|].
  apply Forall_cons; [exact good_cert_type|]. apply Forall_cons; [exact K|]. apply Forall_cons; [exact lead_nl|]. apply Forall_cons; [exact good_cert_type|].
  apply Forall_cons; [split; [cbn; intuition discriminate|right; exists (b_ "end"); reflexivity]|]. apply Forall_nil.
Qed.
Example C83_example :
  cert_raws ex_items = [repeat x41 50; [x42; x43]] /\ parsed ex_cert no_tbs any_cert (cert_raws ex_items) = Some [repeat x41 50; [x42; x43]] /\
  option_map fst (cert_reads ex_cert no_tbs any_cert [1; 0; 3; 1] (new_reader 16 ex_source)) =
    Some [Ok [repeat x41 50]; Ok []; Ok [[x42; x43]]; Ok []].
Proof. vm_compute. auto. Qed.

(** ** What does not hold *)
(** A file that was cut off within its last block is not refused: the certificate is left out. *)
Theorem C83_truncated_refuted : exists cs n,
  match deserialize_certs ex_cert no_tbs any_cert 16 (firstn n (serialize_certs ex_cert (fun c => c) cs)) with
  | Some (Ok cs') => n < length (serialize_certs ex_cert (fun c => c) cs) /\ cs = cs' ++ [[x42; x43]] /\ cs' = [[x41]]
  | _ => False
  end.
Proof. exists [[x41]; [x42; x43]], 100. vm_compute. repeat split; auto. repeat constructor. Qed.
(** A block with a character that is not of base64 is not refused either. *)
Theorem C83_malformed_refuted : exists a b c,
  deserialize_certs ex_cert no_tbs any_cert 16 (pem_encode cert_type [x41] ++ a ++ b ++ pem_encode cert_type [x43]) = Some (Ok [[x41]; [x43]]) /\
  a ++ c :: skipn 1 b = pem_encode cert_type [x42] /\ length b = length (c :: skipn 1 b).
Proof.
  exists (firstn 28 (pem_encode cert_type [x42])), (x2a :: skipn 29 (pem_encode cert_type [x42])), (nth 28 (pem_encode cert_type [x42]) x00). vm_compute. auto.
Qed.
(** Where other text follows the dashes of the last line of a block, the certificates depend on the pieces in which the file arrives. *)
Theorem C83_pieces_refuted : exists text a a', ~ In Broken a /\ ~ In Broken a' /\
  option_map fst (read_all ex_cert no_tbs any_cert 9 (new_reader 200 (mk_source text a))) = Some (Ok []) /\
  option_map fst (read_all ex_cert no_tbs any_cert 9 (new_reader 200 (mk_source text a'))) = Some (Ok [[x41]]).
Proof.
  exists (open_block cert_type [x41] ++ b_ " #1"), [], [Take (length (open_block cert_type [x41])) false].
  split; [intros []|]. split; [intros [X|[]]; discriminate|]. vm_compute. auto.
Qed.
(** CertificateFromPEMFile and CertificateFromPEMBytes do not yield nil if there is no certificate: for every such text they yield, without
    an error, a certificate with no content at all. *)
Theorem C83_none_refuted cert parse_tbs parse_cert zero size s l : 0 < size -> ~ In Broken (answers s) ->
  Forall good_item l -> pending s = text_of l -> cert_raws l = [] ->
  certificate_from_pem cert parse_tbs parse_cert zero size s = Some (Ok zero).
Proof. intros Hs Hb Hl Hp R. rewrite (from_pem_ok cert parse_tbs parse_cert zero size s l Hs Hb Hl Hp), R. reflexivity. Qed.
Theorem C83_one cert parse_tbs parse_cert zero size s l raw raws c : 0 < size -> ~ In Broken (answers s) ->
  Forall good_item l -> pending s = text_of l -> cert_raws l = raw :: raws -> parse_tbs raw = None -> parse_cert raw = Some c ->
  certificate_from_pem cert parse_tbs parse_cert zero size s = Some (Ok c).
Proof. intros Hs Hb Hl Hp R T C. rewrite (from_pem_ok cert parse_tbs parse_cert zero size s l Hs Hb Hl Hp), R. unfold parse. rewrite T, C. reflexivity. Qed.
Example C83_none_example : Forall good_item [Block ex_key [x01]] /\ cert_raws [Block ex_key [x01]] = [] /\
  certificate_from_pem ex_cert no_tbs any_cert [x99] 16 (mk_source (text_of [Block ex_key [x01]]) []) = Some (Ok [x99]).
Proof. split; [|vm_compute; auto]. repeat constructor; cbn; intuition discriminate. Qed.
(** RSAKeyFromPEM panics on every text without dashes. *)
Theorem C83_key_panic_refuted (key : Type) (parse_key : bytes -> option key) text : ~ In dash text -> rsa_key_from_pem key parse_key text = Panic.
Proof. intros N. unfold rsa_key_from_pem. rewrite (decode_nodash text N). reflexivity. Qed.
Example C83_key_example : ~ In dash (b_ "no key") /\ rsa_key_from_pem bytes any_cert (b_ "no key") = Panic /\
  rsa_key_from_pem bytes any_cert (rsa_key_to_pem bytes (fun k => k) [x07; x08]) = Ok [x07; x08].
Proof. split; [cbn; intuition discriminate|vm_compute; auto]. Qed.
(** When a call fails because the source does, the bytes that were read before are lost: after the next call a certificate is missing. *)
Theorem C83_failure_refuted : exists l a, Forall good_item l /\
  match cert_reads ex_cert no_tbs any_cert [2; 2] (new_reader 200 (mk_source (text_of l) a)) with
  | Some ([Err; Ok cs], r) => cs = [[x43]] /\ pending (src r) = []
  | _ => False
  end /\ cert_raws l = [[x41]; [x43]].
Proof.
  exists [Block cert_type [x41]; Block cert_type [x43]], [Take 40 false; Broken]. split; [apply Forall_cons; [exact good_cert_type|]; apply Forall_cons; [exact good_cert_type|apply Forall_nil]|]. vm_compute. auto.
Qed.

Print Assumptions C83_read_partial.
Print Assumptions C83_unparsable_partial.
Print Assumptions C83_read_all_partial.
Print Assumptions C83_round_trip.
Print Assumptions C83_key_round_trip.
Print Assumptions C83_truncated_refuted.
Print Assumptions C83_malformed_refuted.
Print Assumptions C83_pieces_refuted.
Print Assumptions C83_none_refuted.
Print Assumptions C83_one.
Print Assumptions C83_key_panic_refuted.
Print Assumptions C83_failure_refuted.
