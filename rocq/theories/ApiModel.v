(** Model of the answers of the map server to its two kinds of requests, from the tables: /repo/pkg/mapserver/responder/responder.go:63 GetProof
    with the lists of ids, and the queries of /repo/pkg/db/mysql/certs.go:251, policies.go:141, common.go:11. The texts are in ApiText.v. No proofs here. *)
From Verif Require PolicyModel.
From Verif Require Import Base UtilModel ApiText DbModel BundleModel.
From Verif Require Import TrieModel TrieSpec ClientModel DomainModel SmtModel.

(** mapserver.go:41 PayloadReturnType *)
Inductive which := Certificates | Policies | CertificatesAndPolicies.
Definition wanted (ids : list bytes) (t : list cert_row) : list (bytes * bytes) :=
  map (fun r => (cr_id r, cr_payload r)) (filter (fun r => existsb (beqb (cr_id r)) ids) t).
(** UNION drops repeated rows. *)
Fixpoint distinct (l : list (bytes * bytes)) : list (bytes * bytes) :=
  match l with
  | [] => []
  | r :: l' => if existsb (fun q => beqb (fst q) (fst r) && beqb (snd q) (snd r)) l' then distinct l' else r :: distinct l'
  end.
Definition selected (w : which) (d : db) (ids : list bytes) : list (bytes * bytes) :=
  match w with
  | Certificates => wanted ids (d_certs d)
  | Policies => wanted ids (d_pols d)
  | CertificatesAndPolicies => distinct (wanted ids (d_pols d) ++ wanted ids (d_certs d))
  end.
(** mysql.go:583 repeatStmt(1, n): no id gives IN (), a syntax error. [most]: the number of ids with which the statement, with its
    parameters written into it (conf.go:70 interpolateParams), is too long. *)
Definition accepted_query (most : nat) (ids : list bytes) : bool := negb (length ids =? 0) && (length ids <=? most).

(** responder.go:86-107: the row of domain_payloads goes into the entry of a present name. The arrays CertIDsID and PolicyIDsID stay zero for NULL. *)
Definition null_id (x : option bytes) : bytes := match x with Some b => b | None => zero_array end.
Definition slice_of (b : bytes) : option bytes := match b with [] => None | _ => Some b end.
Definition no_lists : pay_row := mk_pr None None None None.
Definition row_of (d : db) (id : bytes) : pay_row := match find (fun r => beqb (fst r) id) (d_pay d) with Some q => snd q | None => no_lists end.
Definition fill (d : db) (sig : bytes) (r : response) : answer :=
  mk_answer
    (option_map (fun e => let row := if (proof_type (the_poi r) =? PoP)%Z then row_of d (de_id e) else no_lists in
       mk_ef (de_name e) (de_id e) (de_value e) (null_id (pr_certs_id row)) (pr_certs row) (null_id (pr_pols_id row)) (pr_pols row)) (ClientModel.entry r))
    (mk_pf (proof_type (the_poi r)) (Some (map Some (proof_path (the_poi r)))) (proof_root (the_poi r))
       (slice_of (proof_key (the_poi r))) (slice_of (proof_value (the_poi r))))
    (Some sig).
(** mapserver.go:233 apiGetProof for the parameter [domain]: the trie of the saved root. A panic closes the connection. *)
Definition api_proof (H : bytes -> bytes) (psl : bytes -> bytes * bool) (d : db) (k : disk) (rlimit : nat) (sig domain : bytes) : reply :=
  match fst (get_proof psl H (fun id => H (snd (entry_of d id))) rlimit (load_root k) domain (new_trie k)) with
  | Ok rs => Body (chain_text (map (fill d sig) rs))
  | Err => BadRequest
  | Panic => Closed
  end.
(** What VerifyProofByDomain (prover.go:14) looks at *)
Definition client_view (a : answer) : response :=
  mk_response (option_map (fun e => mk_entry (e_name e) (e_id e) (e_value e)) (a_entry a))
    (mk_poi (p_type (a_poi a)) (map PolicyModel.content (match p_path (a_poi a) with Some l => l | None => [] end)) (p_root (a_poi a))
       (PolicyModel.content (p_key (a_poi a))) (PolicyModel.content (p_value (a_poi a)))).
