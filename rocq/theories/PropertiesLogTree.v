(** C76 - C79: the verifier of the policy log (pkg/logverifier) accepts the proofs of RFC 6962 and no others. *)
From Verif Require Import Base Sha256 Sha256Length LogTreeModel LogTreeSpec LogTreeProofs LogTreeResults LogTreeCases.

(** * C76: inclusion *)
Theorem log_inclusion_accepted : forall hash leaves m,
  (forall x, length (hash x) = 32) -> m < length leaves ->
  verify_inclusion hash (N.of_nat m) (N.of_nat (length leaves)) (hash_leaf hash (nth m leaves [])) (inclusion_path hash m leaves) (log_hash hash leaves) = VOk.
Proof. intros hash leaves m Hl Hm. exact (inclusion_complete hash Hl leaves m _ Hm eq_refl). Qed.
Theorem log_inclusion_sound : forall hash leaves index leaf_hash proof,
  (forall x, length (hash x) = 32) ->
  verify_inclusion hash index (N.of_nat (length leaves)) leaf_hash proof (log_hash hash leaves) = VOk ->
  (N.to_nat index < length leaves /\ leaf_hash = hash_leaf hash (nth (N.to_nat index) leaves []) /\ proof = inclusion_path hash (N.to_nat index) leaves) \/
  collides hash (log_strings hash leaves ++ inclusion_strings hash index (N.of_nat (length leaves)) leaf_hash proof).
Proof. intros hash leaves index leaf_hash proof Hl. exact (inclusion_sound hash Hl leaves index leaf_hash proof). Qed.
Theorem log_inclusion_by_hash_sound : forall hash leaves d proofs,
  (forall x, length (hash x) = 32) ->
  verify_inclusion_by_hash hash (Some (mk_root (N.of_nat (length leaves)) (log_hash hash leaves))) (hash_leaf hash d) proofs = VOk ->
  In d leaves \/ collides hash ((x00 :: d) :: log_strings hash leaves ++ proofs_strings hash (N.of_nat (length leaves)) (hash_leaf hash d) proofs).
Proof. intros hash leaves d proofs Hl. exact (by_hash_sound hash Hl leaves d proofs). Qed.
(** The five leaves "0" ... "4": the proof for the last one has one node, that for the third one three; a proof of another leaf is refused *)
Example log_inclusion_example :
  length (inclusion_path sha256 4 ex_leaves) = 1 /\ length (inclusion_path sha256 2 ex_leaves) = 3 /\
  verify_inclusion_by_hash sha256 (Some ex_root) (hash_leaf sha256 [x32])
    [Some (mk_proof 4 (inclusion_path sha256 4 ex_leaves)); Some (mk_proof 2 (inclusion_path sha256 2 ex_leaves))] = VOk /\
  verify_inclusion_by_hash sha256 (Some ex_root) (hash_leaf sha256 [x32]) [Some (mk_proof 4 (inclusion_path sha256 4 ex_leaves))] = VMismatch.
Proof. exact inclusion_case. Qed.
Print Assumptions log_inclusion_accepted.
Print Assumptions log_inclusion_sound.
Print Assumptions log_inclusion_by_hash_sound.

(** * C77: consistency *)
Theorem log_consistency_accepted : forall hash leaves n1,
  (forall x, length (hash x) = 32) -> 0 < n1 <= length leaves ->
  verify_root hash (Some (mk_root (N.of_nat n1) (log_hash hash (firstn n1 leaves)))) (Some (mk_root (N.of_nat (length leaves)) (log_hash hash leaves)))
    (consistency_path hash n1 leaves) = VOk.
Proof. exact root_complete. Qed.
(** When every node of the proof has the size of a hash, the old root is the root of the first leaves of the new log *)
Theorem log_consistency_sound_partial : forall hash leaves t proof,
  (forall x, length (hash x) = 32) -> tree_size t <> 0%N -> Forall (fun h => length h = 32) proof ->
  verify_root hash (Some t) (Some (mk_root (N.of_nat (length leaves)) (log_hash hash leaves))) proof = VOk ->
  (N.to_nat (tree_size t) <= length leaves /\ root_hash t = log_hash hash (firstn (N.to_nat (tree_size t)) leaves)) \/
  collides hash (log_strings hash leaves ++ consistency_strings hash (tree_size t) (N.of_nat (length leaves)) proof (root_hash t)).
Proof. exact root_sound. Qed.
(** When both roots are roots of logs, the first log is the beginning of the second, whatever the sizes of the nodes *)
Theorem log_consistency_of_logs : forall hash leaves1 leaves2 proof,
  (forall x, length (hash x) = 32) -> leaves1 <> [] ->
  let n1 := N.of_nat (length leaves1) in let n2 := N.of_nat (length leaves2) in let r1 := log_hash hash leaves1 in
  verify_root hash (Some (mk_root n1 r1)) (Some (mk_root n2 (log_hash hash leaves2))) proof = VOk ->
  leaves1 = firstn (length leaves1) leaves2 \/
  collides hash (log_strings hash leaves1 ++ log_strings hash leaves2 ++ consistency_strings hash n1 n2 proof r1 ++
                 consistency_strings_right hash n1 n2 proof r1 ++ log_strings hash (firstn (length leaves1) leaves2)).
Proof. exact root_of_logs. Qed.
Example log_consistency_example :
  map (fun n1 => length (consistency_path sha256 n1 ex_leaves)) [1; 2; 3; 4; 5] = [3; 2; 4; 1; 0] /\
  Forall (fun h => length h = 32) (consistency_path sha256 3 ex_leaves) /\
  verify_root sha256 (Some (mk_root 3 (log_hash sha256 (firstn 3 ex_leaves)))) (Some ex_root) (consistency_path sha256 3 ex_leaves) = VOk /\
  verify_root sha256 (Some (mk_root 3 (log_hash sha256 [[x30]; [x31]; [x33]]))) (Some ex_root) (consistency_path sha256 3 ex_leaves) = VBad.
Proof. exact consistency_case. Qed.
(** The sizes of the nodes are not looked at: an old root that is the root of no log is accepted, and no two of the strings hashed collide *)
Theorem log_consistency_sound_refuted : exists leaves t proof,
  tree_size t <> 0%N /\
  verify_root sha256 (Some t) (Some (mk_root (N.of_nat (length leaves)) (log_hash sha256 leaves))) proof = VOk /\
  root_hash t <> log_hash sha256 (firstn (N.to_nat (tree_size t)) leaves) /\
  ~ collides sha256 (log_strings sha256 leaves ++ log_strings sha256 (firstn (N.to_nat (tree_size t)) leaves) ++
                     consistency_strings sha256 (tree_size t) (N.of_nat (length leaves)) proof (root_hash t)).
Proof. exact consistency_refuted. Qed.
Print Assumptions log_consistency_accepted.
Print Assumptions log_consistency_sound_partial.
Print Assumptions log_consistency_of_logs.
Print Assumptions log_consistency_sound_refuted.

(** * C78: inclusion in an older root *)
Theorem log_prev_root_accepted : forall hash leaves n1 m more,
  (forall x, length (hash x) = 32) -> m < n1 -> n1 <= length leaves -> (Z.of_nat m < 2 ^ 63)%Z ->
  verify_with_prev hash (Some (mk_root (N.of_nat n1) (log_hash hash (firstn n1 leaves)))) (Some (mk_root (N.of_nat (length leaves)) (log_hash hash leaves)))
    (consistency_path hash n1 leaves) (hash_leaf hash (nth m leaves [])) (Some (mk_proof (Z.of_nat m) (inclusion_path hash m (firstn n1 leaves))) :: more) = VOk.
Proof. intros hash leaves n1 m more Hl H1 H2 H3. exact (with_prev_complete hash Hl leaves n1 m _ more H1 H2 H3 eq_refl). Qed.
Theorem log_prev_root_sound_partial : forall hash leaves t consistency d proofs,
  (forall x, length (hash x) = 32) -> Forall (fun h => length h = 32) consistency -> let n := N.of_nat (length leaves) in
  verify_with_prev hash (Some t) (Some (mk_root n (log_hash hash leaves))) consistency (hash_leaf hash d) proofs = VOk ->
  (N.to_nat (tree_size t) <= length leaves /\ In d (firstn (N.to_nat (tree_size t)) leaves)) \/
  collides hash ((x00 :: d) :: log_strings hash leaves ++ log_strings hash (firstn (N.to_nat (tree_size t)) leaves) ++
                 consistency_strings hash (tree_size t) n consistency (root_hash t) ++ proofs_strings hash (tree_size t) (hash_leaf hash d) proofs).
Proof. intros hash leaves t consistency d proofs Hl Z n. exact (with_prev_sound hash Hl leaves t consistency d proofs Z). Qed.
Example log_prev_root_example :
  let good := [Some (mk_proof 2 (inclusion_path sha256 2 (firstn 3 ex_leaves)))] in
  let t := mk_root 3 (log_hash sha256 (firstn 3 ex_leaves)) in
  verify_with_prev sha256 (Some t) (Some ex_root) (consistency_path sha256 3 ex_leaves) (hash_leaf sha256 [x32]) good = VOk /\
  verify_with_prev sha256 (Some t) (Some ex_root) (consistency_path sha256 3 ex_leaves) (hash_leaf sha256 [x33]) good = VMismatch.
Proof. exact prev_case. Qed.
(** A leaf hash that is the hash of no leaf of the log is accepted, and no two of the strings hashed collide *)
Theorem log_prev_root_sound_refuted : exists leaves t consistency leaf_hash proofs,
  verify_with_prev sha256 (Some t) (Some (mk_root (N.of_nat (length leaves)) (log_hash sha256 leaves))) consistency leaf_hash proofs = VOk /\
  ~ In leaf_hash (map (hash_leaf sha256) leaves) /\
  ~ collides sha256 (log_strings sha256 leaves ++ log_strings sha256 (firstn (N.to_nat (tree_size t)) leaves) ++
                     consistency_strings sha256 (tree_size t) (N.of_nat (length leaves)) consistency (root_hash t) ++
                     proofs_strings sha256 (tree_size t) leaf_hash proofs).
Proof. exact prev_refuted. Qed.
Print Assumptions log_prev_root_accepted.
Print Assumptions log_prev_root_sound_partial.
Print Assumptions log_prev_root_sound_refuted.

(** * C79: one right proof is enough *)
(** ... when those before it have an index in the tree and as many nodes as a path to that index has *)
Theorem log_one_proof_enough_partial : forall hash leaves m before after,
  (forall x, length (hash x) = 32) -> m < length leaves -> (Z.of_nat m < 2 ^ 63)%Z ->
  Forall (fun q => exists p, q = Some p /\ N.to_nat (to_uint64 (leaf_index p)) < length leaves /\
            length (hashes p) = length (inclusion_path hash (N.to_nat (to_uint64 (leaf_index p))) leaves)) before ->
  verify_inclusion_by_hash hash (Some (mk_root (N.of_nat (length leaves)) (log_hash hash leaves))) (hash_leaf hash (nth m leaves []))
    (before ++ Some (mk_proof (Z.of_nat m) (inclusion_path hash m leaves)) :: after) = VOk.
Proof. exact one_enough. Qed.
Example log_one_proof_example :
  let before := [Some (mk_proof 4 [[]]); Some (mk_proof 1 [repeat x00 32; []; [x01; x02]])] in
  Forall (fun q => exists p, q = Some p /\ N.to_nat (to_uint64 (leaf_index p)) < length ex_leaves /\
            length (hashes p) = length (inclusion_path sha256 (N.to_nat (to_uint64 (leaf_index p))) ex_leaves)) before.
Proof. exact one_case. Qed.
(** A proof with too few nodes, with a negative index or a nil pointer before the right one: an error or a crash *)
Theorem log_one_proof_enough_refuted : exists leaves m,
  let good := Some (mk_proof (Z.of_nat m) (inclusion_path sha256 m leaves)) in
  let verify := verify_inclusion_by_hash sha256 (Some (mk_root (N.of_nat (length leaves)) (log_hash sha256 leaves))) (hash_leaf sha256 (nth m leaves [])) in
  verify [good] = VOk /\ verify [Some (mk_proof 0 []); good] = VBad /\ verify [Some (mk_proof (-1) []); good] = VBad /\ verify [None; good] = VPanic.
Proof. exact one_refuted. Qed.
Print Assumptions log_one_proof_enough_partial.
Print Assumptions log_one_proof_enough_refuted.
