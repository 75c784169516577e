(** Model of the verifier of the policy log, /repo/pkg/logverifier/verifier.go, with the functions of the library it calls
    (github.com/transparency-dev/merkle v0.0.2, proof/verify.go and rfc6962; written down from its published source, the library is not
    part of the repository). Sizes and indices are uint64 (N here), LeafIndex is int64. A nil slice is empty. The hash function is
    a parameter (SHA-256 in the code). Texts of errors are left out. No proofs here. *)
From Verif Require Import Base.

Definition hash_size : nat := 32.
(** What the verifier says: nil, RootMismatchError, another error, or a nil pointer dereference *)
Inductive verdict : Type := VOk | VMismatch | VBad | VPanic.

(** math/bits *)
Fixpoint ones_pos (p : positive) : nat := match p with xH => 1 | xO q => ones_pos q | xI q => S (ones_pos q) end.
Definition ones_count (n : N) : nat := match n with N0 => 0 | Npos p => ones_pos p end.
Fixpoint zeros_pos (p : positive) : nat := match p with xO q => S (zeros_pos q) | _ => 0 end.
Definition trailing_zeros (n : N) : nat := match n with N0 => 64 | Npos p => zeros_pos p end.
Definition bit_len (n : N) : nat := N.to_nat (N.size n).

Section Log.
  Variable hash : bytes -> bytes.
  (** rfc6962.Hasher: HashLeaf, HashChildren *)
  Definition hash_leaf (leaf : bytes) : bytes := hash (x00 :: leaf).
  Definition hash_children (l r : bytes) : bytes := hash (x01 :: l ++ r).

  (** proof.decompInclProof: the lengths of the inner and of the border part of a path *)
  Definition inner_proof_size (index size : N) : nat := bit_len (N.lxor index (size - 1)).
  Definition border_proof_size (index : N) (inner : nat) : nat := ones_count (N.shiftr index (N.of_nat inner)).
  (** proof.chainInner, chainInnerRight, chainBorderRight; [i]: the number of the element *)
  Fixpoint chain_inner (seed : bytes) (proof : list bytes) (index : N) (i : nat) : bytes :=
    match proof with
    | [] => seed
    | h :: rest => chain_inner (if N.testbit index (N.of_nat i) then hash_children h seed else hash_children seed h) rest index (S i)
    end.
  Fixpoint chain_inner_right (seed : bytes) (proof : list bytes) (index : N) (i : nat) : bytes :=
    match proof with
    | [] => seed
    | h :: rest => chain_inner_right (if N.testbit index (N.of_nat i) then hash_children h seed else seed) rest index (S i)
    end.
  Definition chain_border_right (seed : bytes) (proof : list bytes) : bytes := fold_left (fun s h => hash_children h s) proof seed.
  Definition verify_match (calculated expected : bytes) : verdict := if beqb calculated expected then VOk else VMismatch.

  (** proof.RootFromInclusionProof *)
  Definition root_from_inclusion (index size : N) (leaf_hash : bytes) (proof : list bytes) : option bytes :=
    if (size <=? index)%N then None else
    if negb (length leaf_hash =? hash_size) then None else
    let inner := inner_proof_size index size in
    let border := border_proof_size index inner in
    if negb (length proof =? inner + border) then None else
    Some (chain_border_right (chain_inner leaf_hash (firstn inner proof) index 0) (skipn inner proof)).
  (** proof.VerifyInclusion *)
  Definition verify_inclusion (index size : N) (leaf_hash : bytes) (proof : list bytes) (root : bytes) : verdict :=
    match root_from_inclusion index size leaf_hash proof with None => VBad | Some calc => verify_match calc root end.

  (** proof.VerifyConsistency *)
  Definition verify_consistency (size1 size2 : N) (proof : list bytes) (root1 root2 : bytes) : verdict :=
    if (size2 <? size1)%N then VBad else
    if (size1 =? size2)%N then match proof with [] => verify_match root1 root2 | _ => VBad end else
    if (size1 =? 0)%N then match proof with [] => VOk | _ => VBad end else
    match proof with
    | [] => VBad
    | first :: rest =>
        let shift := trailing_zeros size1 in
        let inner := inner_proof_size (size1 - 1) size2 in
        let border := border_proof_size (size1 - 1) inner in
        let inner := inner - shift in
        let power := (size1 =? N.shiftl 1 (N.of_nat shift))%N in
        let seed := if power then root1 else first in
        let start := if power then 0 else 1 in
        if negb (length proof =? start + inner + border) then VBad else
        let proof := if power then proof else rest in
        let mask := N.shiftr (size1 - 1) (N.of_nat shift) in
        let hash1 := chain_border_right (chain_inner_right seed (firstn inner proof) mask 0) (skipn inner proof) in
        match verify_match hash1 root1 with
        | VOk => verify_match (chain_border_right (chain_inner seed (firstn inner proof) mask 0) (skipn inner proof)) root2
        | v => v
        end
    end.

  (** types.LogRootV1, as far as it is used; trillian.Proof *)
  Record log_root : Type := mk_root { tree_size : N; root_hash : bytes }.
  Record log_proof : Type := mk_proof { leaf_index : Z; hashes : list bytes }.
  Definition to_uint64 (z : Z) : N := Z.to_N (z mod 2 ^ 64).

  (** verifier.go:83 VerifyInclusionByHash; pointers: None is nil *)
  Fixpoint verify_proofs (trusted : log_root) (leaf_hash : bytes) (proofs : list (option log_proof)) : verdict :=
    match proofs with
    | [] => VMismatch                                  (* verification failed: different hashes *)
    | None :: _ => VPanic
    | Some p :: rest =>
        match verify_inclusion (to_uint64 (leaf_index p)) (tree_size trusted) leaf_hash (hashes p) (root_hash trusted) with
        | VOk => VOk
        | VMismatch => verify_proofs trusted leaf_hash rest
        | v => v
        end
    end.
  Definition verify_inclusion_by_hash (trusted : option log_root) (leaf_hash : bytes) (proofs : list (option log_proof)) : verdict :=
    match trusted with
    | Some t => verify_proofs t leaf_hash proofs
    | None => match proofs with [] => VMismatch | _ => VPanic end
    end.
  (** verifier.go:60 VerifyRoot *)
  Definition verify_root (trusted new_root : option log_root) (consistency : list bytes) : verdict :=
    match trusted, new_root with
    | Some t, Some n => if (tree_size t =? 0)%N then VOk else
        match verify_consistency (tree_size t) (tree_size n) consistency (root_hash t) (root_hash n) with VOk => VOk | _ => VBad end
    | _, _ => VBad
    end.
  (** verifier.go:36 VerifyInclusionWithPrevLogRoot *)
  Definition verify_with_prev (trusted new_root : option log_root) (consistency : list bytes) (leaf_hash : bytes) (proofs : list (option log_proof)) : verdict :=
    match trusted, new_root with
    | Some t, Some n =>
        match verify_inclusion_by_hash trusted leaf_hash proofs with
        | VOk => verify_root trusted new_root consistency
        | v => v
        end
    | _, _ => VBad
    end.

  (** What it is verified against: the Merkle tree hash of RFC 6962, section 2.1, over the hashes of the leaves: the largest power of two below the
      number of leaves goes to the left. [fuel]: at least the number of leaves *)
  Fixpoint tree_hash (fuel : nat) (l : list bytes) : bytes :=
    match fuel with
    | O => hash []
    | S fuel' =>
        match l with
        | [] => hash []
        | [x] => x
        | _ => let k := 2 ^ Nat.log2 (length l - 1) in hash_children (tree_hash fuel' (firstn k l)) (tree_hash fuel' (skipn k l))
        end
    end.
  Definition log_hash (leaves : list bytes) : bytes := tree_hash (length leaves) (map hash_leaf leaves).
End Log.
