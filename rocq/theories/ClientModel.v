(** Model of the map server client's verification: /repo/pkg/mapserver/prover/prover.go and the response structure
    /repo/pkg/mapserver/common/structure.go. Fields the verification does not look at (certificate and policy id
    lists, tree head signature) are dropped. *)
From Verif Require Import Base TrieModel.

(** structure.go:8-11: PoA = 0, PoP = 1; any other number is treated like PoA. *)
Definition PoA : Z := 0.
Definition PoP : Z := 1.

(** pkg/mapserver/common/structure.go DomainEntry: DomainID and DomainValue are 32-byte arrays; the length is not part of
    this type, see [typed] in the theorems. *)
Record domain_entry := mk_entry { de_name : bytes; de_id : bytes; de_value : bytes }.
(** structure.go:22-28 *)
Record poi := mk_poi { proof_type : Z; proof_path : list bytes; proof_root : option bytes; proof_key : bytes;
                       proof_value : bytes }.
(** structure.go:14-19; DomainEntry is a pointer, nil is [None]. *)
Record response := mk_response { entry : option domain_entry; the_poi : poi }.

Section Client.
  Variable H : bytes -> bytes.

  (** prover.go:14 VerifyProofByDomain: (proof type, accepted). *)
  Definition verify_proof_by_domain (r : response) : res (Z * bool) :=
    match entry r with
    | None => Panic
    | Some e =>
        let p := the_poi r in
        if Z.eqb (proof_type p) PoP then
          if beqb (de_value e) (proof_value p) then
            match verify_inclusion H (match proof_root p with Some x => x | None => [] end) (proof_path p) (de_id e) (de_value e) with
            | Some b => Ok (PoP, b)
            | None => Panic
            end
          else Err
        else
          match verify_non_inclusion H (proof_root p) (proof_path p) (de_id e) (proof_value p) (proof_key p) with
          | Some b => Ok (PoA, b)
          | None => Panic
          end
    end.
End Client.

(** pkg/mapserver/responder/responder.go:63 GetProof, the loop body for one part of the domain name. [payload id] stands
    for lines 91-107: the hash of the sorted certificate and policy ids the database holds for [id]; database errors
    are not modelled. *)
Section Responder.
  Variable H : bytes -> bytes.
  Variable payload : bytes -> bytes.

  Definition get_proof_part (limit : nat) (root name : bytes) : M response :=
    let id := H name in
    '(path, included, pk, pv) <- trie_merkle_proof limit root id ;;
    ret (mk_response
           (Some (mk_entry name id (if included then payload id else repeat x00 HashLength)))
           (mk_poi (if included then PoP else PoA) path (match root with [] => None | _ :: _ => Some root end) pk pv)).

  (** The loop over the parts returned by ParseDomainName. *)
  Fixpoint get_proofs (limit : nat) (root : bytes) (names : list bytes) : M (list response) :=
    match names with
    | [] => ret []
    | n :: rest => r <- get_proof_part limit root n ;; rs <- get_proofs limit root rest ;; ret (r :: rs)
    end.
End Responder.
