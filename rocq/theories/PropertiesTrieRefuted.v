(** Properties of the sparse Merkle trie that the code violates, with witnesses (real SHA-256). The conditional
    positive theorems are in PropertiesTrie.v. *)
From Verif Require Import Base Sha256 TrieModel TrieSpec TrieMaps TrieRefute ClientModel.

(** C01/C02. Three legal batches, the last deletes [k], yet Get still finds it: maybeAddShortcutToKV (trie.go:451) mangles
    the batch that deletes the only key of a subtree together with a smaller and a larger key. *)
Theorem C01_deleted_key_returns_refuted : exists b1 b2 b3 k v,
  Forall is_batch [b1; b2; b3] /\
  lookup (over (over b1 b2) b3) k = None /\
  length v = HashLength /\ get_after [b1; b2; b3] k = Ok v.
Proof.
  exists f1_1, f1_2, f1_3, f1_kA, (val1 x02). split; [exact f1_batches|]. split; [vm_compute; reflexivity|].
  split; [reflexivity | exact f1_get].
Qed.
Print Assumptions C01_deleted_key_returns_refuted.

(** C01. Writing the value a key already has loses the node. *)
Theorem C01_unchanged_value_refuted : exists b k v,
  is_batch b /\ lookup (over b b) k = Some v /\ get_after [b; b] k = Err.
Proof.
  exists f2_1, f2_kA, (val1 x01). split; [exact f2_batch|]. split; [reflexivity | exact (proj2 f2_get)].
Qed.
Print Assumptions C01_unchanged_value_refuted.

(** C01. Two keys that differ in the last bit only overwrite each other's node: byte(256) = byte(0) in leafHash. *)
Theorem C01_last_bit_siblings_refuted : exists b1 b2 k v,
  Forall is_batch [b1; b2] /\ lookup (over b1 b2) k = Some v /\ get_after [b1; b2] k = Err.
Proof.
  exists f25_1, f25_2, f25_kY, (val1 x01). split; [exact f25_batches|]. split; [reflexivity | exact f25_get].
Qed.
Print Assumptions C01_last_bit_siblings_refuted.

(** The proof MerkleProof gives after some updates of a new trie: path, included, proof key, (proof) value. *)
Definition proof_after (us : list kvmap) (k : bytes) : res (list bytes * bool * bytes * bytes) :=
  fst ((r <- updates sha256 300 false us [] ;; trie_merkle_proof 300 r k) fresh).
(** C04. After a batch that rewrites one value and adds a key there is no proof at all of the rewritten key. *)
Theorem C04_unchanged_value_refuted : exists b1 b2 k v,
  Forall is_batch [b1; b2] /\ lookup (over b1 b2) k = Some v /\ proof_after [b1; b2] k = Err.
Proof. exists f2_2, f2_3, f2_kA, (val1 x01). split; [exact f2_commit_batches|]. split; vm_compute; reflexivity. Qed.
Print Assumptions C04_unchanged_value_refuted.
(** C05. MerkleProof says that a deleted key is included, with the value it had. *)
Theorem C05_deleted_key_refuted : exists b1 b2 b3 k ap v,
  Forall is_batch [b1; b2; b3] /\ lookup (over (over b1 b2) b3) k = None /\ proof_after [b1; b2; b3] k = Ok (ap, true, [], v).
Proof.
  exists f1_1, f1_2, f1_3, f1_kA, [], (val1 x02). split; [exact f1_batches|]. split; vm_compute; reflexivity.
Qed.
Print Assumptions C05_deleted_key_refuted.

(** C02. The same execution as in the first theorem: the root after two batches is not the root of the content. *)
Theorem C02_root_depends_on_history_refuted : exists b1 b2 r,
  Forall is_batch [b1; b2] /\ fst (updates sha256 300 false [b1; b2] [] fresh) = Ok r /\
  r <> root_of sha256 (over b1 b2).
Proof.
  exists f1_1, f1_2. destruct f1_root as (r & Hr & Hne). exists r. split; [|auto].
  pose proof f1_batches as Hf. inversion Hf as [|? ? Ha Hb]; subst. inversion Hb; subst. auto.
Qed.
Print Assumptions C02_root_depends_on_history_refuted.

(** C10. After Update and Commit of a batch that also rewrites an unchanged value, a reopened trie cannot read it. *)
Theorem C10_unchanged_value_refuted : exists b1 b2 k v,
  Forall is_batch [b1; b2] /\ lookup (over b1 b2) k = Some v /\
  get_reopened [[b1]] k = Ok v /\ get_reopened [[b1]; [b2]] k = Err.
Proof.
  exists f2_2, f2_3, f2_kA, (val1 x01). split; [exact f2_commit_batches|]. split; [reflexivity|].
  exact f2_commit_get.
Qed.
Print Assumptions C10_unchanged_value_refuted.

(** C10. Two effective updates between commits that restore the committed value lose the node. *)
Theorem C10_restored_value_refuted : exists b1 b2 b3 k v,
  Forall is_batch [b1; b2; b3] /\ lookup (over (over b1 b2) b3) k = Some v /\
  get_reopened [[b1]; [b2]; [b3]] k = Ok v /\ get_reopened [[b1]; [b2; b3]] k = Err.
Proof.
  exists f2_2, f2_4, f2_1, f2_kA, (val1 x01). split; [exact f2_twice_batches|]. split; [reflexivity|].
  exact f2_twice_get.
Qed.
Print Assumptions C10_restored_value_refuted.

(** C06. With path elements of any length an absent key is "proved" present. *)
Theorem C06_long_path_element_refuted : exists m ap k v,
  is_map m /\ length k = HashLength /\ length v = HashLength /\ lookup m k = None /\
  verify_inclusion sha256 (root_of sha256 m) ap k v = Some true.
Proof.
  exists f26_m, [val1 x09 ++ [x00]], f26_key', f26_val'. split; [exact f26_map|].
  split; [reflexivity|]. split; [reflexivity|]. split; [exact (proj2 f26_accepts) | exact (proj1 f26_accepts)].
Qed.
Print Assumptions C06_long_path_element_refuted.

(** C06. With a value of any length an absent key is "proved" present, even with the empty path. *)
Theorem C06_short_value_refuted : exists m k v,
  is_map m /\ length k = HashLength /\ lookup m k = None /\
  verify_inclusion sha256 (root_of sha256 m) [] k v = Some true.
Proof.
  exists f28_m, f28_l, (firstn 31 f28_r). split; [exact f28_map|]. destruct f28_accepts as (Ha & Hl & Hn).
  split; [exact Hl|]. split; [exact Hn | exact Ha].
Qed.
Print Assumptions C06_short_value_refuted.

(** C07. An honest proof of presence, presented as a proof of absence of the same key, is accepted. *)
Theorem C07_own_leaf_refuted : exists m ap k v,
  is_map m /\ lookup m k = Some v /\
  verify_non_inclusion sha256 (Some (root_of sha256 m)) ap k v k = Some true.
Proof.
  exists f3_m, [], (key1 x10), (val1 x01). split; [exact f3_map|].
  split; [exact (proj2 f3_accepts) | exact (proj1 f3_accepts)].
Qed.
Print Assumptions C07_own_leaf_refuted.

(** C07. Refusing proof keys equal to the key would not be enough: move one byte from proof key to proof value. *)
Theorem C07_shifted_leaf_refuted : exists m ap k pv pk,
  is_map m /\ lookup m k <> None /\ pk <> k /\
  verify_non_inclusion sha256 (Some (root_of sha256 m)) ap k pv pk = Some true.
Proof.
  exists f3_m, [], (key1 x10), (x00 :: val1 x01), (firstn 31 (key1 x10)). split; [exact f3_map|].
  split; [rewrite (proj2 f3_accepts); discriminate|].
  split; [exact (proj2 f27_accepts) | exact (proj1 f27_accepts)].
Qed.
Print Assumptions C07_shifted_leaf_refuted.

(** C07. A nil root "proves" absence of everything, also of a key of the map. *)
Theorem C07_nil_root_refuted : exists m k v, is_map m /\ lookup m k = Some v /\
  forall ap pv pk, verify_non_inclusion sha256 None ap k pv pk = Some true.
Proof.
  exists f3_m, (key1 x10), (val1 x01). split; [exact f3_map|]. split; [exact (proj2 f3_accepts) | reflexivity].
Qed.
Print Assumptions C07_nil_root_refuted.

(** C07. Even with path elements of the right length and no proof key: if the only non-empty half of the trie has a
    hash that ends in a zero byte, then every key of it can be "proved" absent. One hash in 256 does. *)
Theorem C07_zero_byte_refuted : exists m ap k v, is_map m /\ lookup m k = Some v /\ legal_path ap /\
  verify_non_inclusion sha256 (Some (root_of sha256 m)) ap k [] [] = Some true.
Proof.
  exists f29_m, f29_path, (key1 x80), (val1 x00). split; [exact f29_map|]. split; [reflexivity|].
  split; [exact f29_legal | exact f29_accepts].
Qed.
Print Assumptions C07_zero_byte_refuted.

(** C08/C05 for compressed proofs. The compressed proof of absence from the empty trie is refused. *)
Theorem C08_empty_trie_refuted : exists k bm mp len inc pk pv s,
  length k = HashLength /\
  trie_merkle_proof_compressed 300 [] k fresh = (Ok (bm, mp, len, inc, pk, pv), s) /\
  verify_non_inclusion_c sha256 [] mp len bm k pv pk = Some false /\
  verify_non_inclusion sha256 (go_root []) [] k pv pk = Some true.
Proof. exists (key1 x80). do 7 eexists. split; [reflexivity|]. split; [reflexivity|]. split; reflexivity. Qed.
Print Assumptions C08_empty_trie_refuted.

(** C12. A path of 257 elements makes the verifier panic (index out of range in bitIsSet). *)
Theorem C12_long_path_panics_refuted : exists root ap k v,
  length k = HashLength /\ verify_inclusion sha256 root ap k v = None.
Proof. exists [], (repeat [] 257), (key1 x00), (val1 x00). split; [reflexivity | exact f4_panics]. Qed.
Print Assumptions C12_long_path_panics_refuted.

(** C12. A response without domain entry makes the client panic. *)
Theorem C12_missing_entry_panics_refuted : exists p, verify_proof_by_domain sha256 (mk_response None p) = Panic.
Proof. exists (mk_poi PoP [] None [] []). reflexivity. Qed.
Print Assumptions C12_missing_entry_panics_refuted.

(** C14. The client does not compare the id that is proved with the name in the response: the proof of one domain is
    accepted as the proof of another one, that is not stored. *)
Definition c14_e : domain_entry := mk_entry [x61] (key1 x10) (val1 x01).
Definition c14_p : poi := mk_poi PoP [] (Some (root_of sha256 f3_m)) [] (val1 x01).
Theorem C14_other_domain_refuted : exists m e p, is_map m /\ proof_root p = Some (root_of sha256 m) /\
  verify_proof_by_domain sha256 (mk_response (Some e) p) = Ok (PoP, true) /\
  lookup m (sha256 (de_name e)) = None.
Proof.
  exists f3_m, c14_e, c14_p. split; [exact f3_map|]. split; [reflexivity|]. split; [vm_compute; reflexivity|].
  vm_compute. reflexivity.
Qed.
Print Assumptions C14_other_domain_refuted.

(** C14. A stored domain is proved absent with its own leaf, against the right root. *)
Definition c14_id : bytes := Eval vm_compute in sha256 [x61].
Definition c14_m : kvmap := [(c14_id, val1 x01)].
Lemma c14_map : is_map c14_m.
Proof. split; repeat constructor; simpl; tauto. Qed.
Theorem C14_present_domain_absent_refuted : exists m e p v, is_map m /\ proof_root p = Some (root_of sha256 m) /\
  de_id e = sha256 (de_name e) /\ legal_path (proof_path p) /\
  lookup m (de_id e) = Some v /\ verify_proof_by_domain sha256 (mk_response (Some e) p) = Ok (PoA, true).
Proof.
  exists c14_m, (mk_entry [x61] c14_id (val1 x01)), (mk_poi PoA [] (Some (root_of sha256 c14_m)) c14_id (val1 x01)), (val1 x01).
  split; [exact c14_map|]. split; [reflexivity|]. split; [vm_compute; reflexivity|]. split; [constructor|].
  split; [vm_compute; reflexivity|]. vm_compute. reflexivity.
Qed.
Print Assumptions C14_present_domain_absent_refuted.
