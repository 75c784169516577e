(** What the verifier of the policy log is verified against: the proofs of RFC 6962, section 2.1, and the strings that are given to the
    hash function. No proofs here. *)
From Verif Require Import Base LogTreeModel.

Section Spec.
  Variable hash : bytes -> bytes.
  (** RFC 6962, 2.1.1: PATH(m, D[n]); [l]: the hashes of the leaves, [fuel]: at least their number *)
  Fixpoint rfc_path (fuel m : nat) (l : list bytes) : list bytes :=
    match fuel with
    | O => []
    | S fuel' =>
        if length l <=? 1 then [] else
        let k := 2 ^ Nat.log2 (length l - 1) in
        if m <? k then rfc_path fuel' m (firstn k l) ++ [tree_hash hash fuel' (skipn k l)]
        else rfc_path fuel' (m - k) (skipn k l) ++ [tree_hash hash fuel' (firstn k l)]
    end.
  (** RFC 6962, 2.1.2: SUBPROOF(m, D[n], b); PROOF(m, D[n]) is SUBPROOF(m, D[n], true) *)
  Fixpoint rfc_subproof (fuel m : nat) (l : list bytes) (b : bool) : list bytes :=
    match fuel with
    | O => []
    | S fuel' =>
        if m =? length l then (if b then [] else [tree_hash hash (S fuel') l]) else
        let k := 2 ^ Nat.log2 (length l - 1) in
        if m <=? k then rfc_subproof fuel' m (firstn k l) b ++ [tree_hash hash fuel' (skipn k l)]
        else rfc_subproof fuel' (m - k) (skipn k l) false ++ [tree_hash hash fuel' (firstn k l)]
    end.
  Definition inclusion_path (m : nat) (leaves : list bytes) : list bytes := rfc_path (length leaves) m (map (hash_leaf hash) leaves).
  Definition consistency_path (m : nat) (leaves : list bytes) : list bytes := rfc_subproof (length leaves) m (map (hash_leaf hash) leaves) true.

  (** The strings that are hashed to compute the root of a log: one for each leaf, one for each inner node *)
  Fixpoint tree_strings (fuel : nat) (l : list bytes) : list bytes :=
    match fuel with
    | O => []
    | S fuel' =>
        if length l <=? 1 then [] else
        let k := 2 ^ Nat.log2 (length l - 1) in
        (x01 :: tree_hash hash fuel' (firstn k l) ++ tree_hash hash fuel' (skipn k l)) :: tree_strings fuel' (firstn k l) ++ tree_strings fuel' (skipn k l)
    end.
  Definition log_strings (leaves : list bytes) : list bytes :=
    map (fun d => x00 :: d) leaves ++ tree_strings (length leaves) (map (hash_leaf hash) leaves).

  (** The strings that are hashed by chainInner and chainBorderRight *)
  Fixpoint inner_strings (seed : bytes) (proof : list bytes) (index : N) (i : nat) : list bytes :=
    match proof with
    | [] => []
    | h :: rest =>
        let x := if N.testbit index (N.of_nat i) then x01 :: h ++ seed else x01 :: seed ++ h in x :: inner_strings (hash x) rest index (S i)
    end.
  Fixpoint border_strings (seed : bytes) (proof : list bytes) : list bytes :=
    match proof with
    | [] => []
    | h :: rest => (x01 :: h ++ seed) :: border_strings (hash (x01 :: h ++ seed)) rest
    end.
  (** ... by VerifyInclusion *)
  Definition inclusion_strings (index size : N) (leaf_hash : bytes) (proof : list bytes) : list bytes :=
    let inner := inner_proof_size index size in
    inner_strings leaf_hash (firstn inner proof) index 0 ++ border_strings (chain_inner hash leaf_hash (firstn inner proof) index 0) (skipn inner proof).
  (** ... by VerifyInclusionByHash *)
  Definition proofs_strings (size : N) (leaf_hash : bytes) (proofs : list (option log_proof)) : list bytes :=
    flat_map (fun p => match p with Some p => inclusion_strings (to_uint64 (leaf_index p)) size leaf_hash (hashes p) | None => [] end) proofs.
  (** ... by VerifyConsistency, to compute the second root *)
  Definition consistency_strings (size1 size2 : N) (proof : list bytes) (root1 : bytes) : list bytes :=
    let shift := trailing_zeros size1 in
    let inner := inner_proof_size (size1 - 1) size2 - shift in
    let mask := N.shiftr (size1 - 1) (N.of_nat shift) in
    let power := (size1 =? N.shiftl 1 (N.of_nat shift))%N in
    let seed := if power then root1 else hd [] proof in
    let p := if power then proof else tl proof in
    inner_strings seed (firstn inner p) mask 0 ++ border_strings (chain_inner hash seed (firstn inner p) mask 0) (skipn inner p).
  (** ... and the first one *)
  Fixpoint inner_right_strings (seed : bytes) (proof : list bytes) (index : N) (i : nat) : list bytes :=
    match proof with
    | [] => []
    | h :: rest => if N.testbit index (N.of_nat i) then (x01 :: h ++ seed) :: inner_right_strings (hash (x01 :: h ++ seed)) rest index (S i)
                   else inner_right_strings seed rest index (S i)
    end.
  Definition consistency_strings_right (size1 size2 : N) (proof : list bytes) (root1 : bytes) : list bytes :=
    let shift := trailing_zeros size1 in
    let inner := inner_proof_size (size1 - 1) size2 - shift in
    let mask := N.shiftr (size1 - 1) (N.of_nat shift) in
    let power := (size1 =? N.shiftl 1 (N.of_nat shift))%N in
    let seed := if power then root1 else hd [] proof in
    let p := if power then proof else tl proof in
    inner_right_strings seed (firstn inner p) mask 0 ++ border_strings (chain_inner_right hash seed (firstn inner p) mask 0) (skipn inner p).

  (** Two different strings of a list that have the same hash: whoever has the list has a collision of the hash function in hand *)
  Definition collides (strings : list bytes) : Prop := exists x y, In x strings /\ In y strings /\ x <> y /\ hash x = hash y.
End Spec.
