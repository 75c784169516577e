(** Model of the texts that the map server answers with over HTTP: /repo/pkg/mapserver/mapserver.go:233 apiGetProof and :255 apiGetPayloads,
    with the structures of /repo/pkg/mapserver/common/structure.go and domainEntry.go, written by json.Encoder (one line) and read into the
    same types as in /repo/tests/integration/mapserver/main.go:131 and :187. The rules of encoding/json are in JsonText.v and JsonModel.v.
    A reader here takes the whole text; json.Decoder would ignore what follows the first value. No proofs here. *)
From Coq Require Import Strings.String.
From Verif Require Import Base UtilModel DbModel LoadModel PolicyModel JsonText JsonModel.
Local Open Scope list_scope.
Local Notation b_ s := (list_byte_of_string s%string).

(** domainEntry.go:14 DomainEntry. The ids are arrays of 32 bytes; CertIDs and PolicyIDs may be nil. *)
Record entry_fields := mk_ef { e_name : bytes; e_id : bytes; e_value : bytes; e_certs_id : bytes; e_certs : slice; e_pols_id : bytes; e_pols : slice }.
(** structure.go:22 PoI; a nil Proof is [None]. *)
Record poi_fields := mk_pf { p_type : Z; p_path : option (list slice); p_root : slice; p_key : slice; p_value : slice }.
(** structure.go:14 MapServerResponse *)
Record answer := mk_answer { a_entry : option entry_fields; a_poi : poi_fields; a_sig : slice }.
Definition with_e_name x (s : entry_fields) := mk_ef x (e_id s) (e_value s) (e_certs_id s) (e_certs s) (e_pols_id s) (e_pols s).
Definition with_e_id x (s : entry_fields) := mk_ef (e_name s) x (e_value s) (e_certs_id s) (e_certs s) (e_pols_id s) (e_pols s).
Definition with_e_value x (s : entry_fields) := mk_ef (e_name s) (e_id s) x (e_certs_id s) (e_certs s) (e_pols_id s) (e_pols s).
Definition with_e_certs_id x (s : entry_fields) := mk_ef (e_name s) (e_id s) (e_value s) x (e_certs s) (e_pols_id s) (e_pols s).
Definition with_e_certs x (s : entry_fields) := mk_ef (e_name s) (e_id s) (e_value s) (e_certs_id s) x (e_pols_id s) (e_pols s).
Definition with_e_pols_id x (s : entry_fields) := mk_ef (e_name s) (e_id s) (e_value s) (e_certs_id s) (e_certs s) x (e_pols s).
Definition with_e_pols x (s : entry_fields) := mk_ef (e_name s) (e_id s) (e_value s) (e_certs_id s) (e_certs s) (e_pols_id s) x.
Definition with_p_type x (s : poi_fields) := mk_pf x (p_path s) (p_root s) (p_key s) (p_value s).
Definition with_p_path x (s : poi_fields) := mk_pf (p_type s) x (p_root s) (p_key s) (p_value s).
Definition with_p_root x (s : poi_fields) := mk_pf (p_type s) (p_path s) x (p_key s) (p_value s).
Definition with_p_key x (s : poi_fields) := mk_pf (p_type s) (p_path s) (p_root s) x (p_value s).
Definition with_p_value x (s : poi_fields) := mk_pf (p_type s) (p_path s) (p_root s) (p_key s) x.
Definition with_a_entry x (s : answer) := mk_answer x (a_poi s) (a_sig s).
Definition with_a_poi x (s : answer) := mk_answer (a_entry s) x (a_sig s).
Definition with_a_sig x (s : answer) := mk_answer (a_entry s) (a_poi s) x.

(** ** Writing. No member is dropped when empty; an array of bytes is an array of numbers, a slice of bytes is a string in base64, nil is null. *)
Definition array_json (a : bytes) : json := JArr (map (fun b => JNum (dec_N (Byte.to_N b))) a).
Definition slice_json (s : slice) : json := match s with None => JNull | Some b => JStr (b64_encode b) end.
Definition entry_json (e : entry_fields) : json :=
  JObj [(b_ "DomainName", JStr (escape (e_name e))); (b_ "DomainID", array_json (e_id e)); (b_ "DomainValue", array_json (e_value e));
        (b_ "CertIDsID", array_json (e_certs_id e)); (b_ "CertIDs", slice_json (e_certs e));
        (b_ "PolicyIDsID", array_json (e_pols_id e)); (b_ "PolicyIDs", slice_json (e_pols e))].
Definition poi_json (p : poi_fields) : json :=
  JObj [(b_ "ProofType", JNum (dec_Z (p_type p)));
        (b_ "Proof", match p_path p with None => JNull | Some l => JArr (map slice_json l) end);
        (b_ "Root", slice_json (p_root p)); (b_ "ProofKey", slice_json (p_key p)); (b_ "ProofValue", slice_json (p_value p))].
Definition answer_json (a : answer) : json :=
  JObj [(b_ "DomainEntry", match a_entry a with None => JNull | Some e => entry_json e end);
        (b_ "PoI", poi_json (a_poi a)); (b_ "TreeHeadSig", slice_json (a_sig a))].
Definition line (v : json) : bytes := print v ++ [x0a].
(** mapserver.go:243 *)
Definition chain_text (l : list answer) : bytes := line (JArr (map answer_json l)).
(** mapserver.go:294 *)
Definition payload_text (l : list slice) : bytes := line (JArr (map slice_json l)).

(** ** Reading *)
(** Into an array: further elements are skipped, missing ones are zero. *)
Fixpoint read_array_elements (old : bytes) (l : list json) : option bytes :=
  match old with
  | [] => Some []
  | o :: old' =>
      match l with
      | [] => Some (repeat x00 (length old))
      | v :: l' => obind (read_byte o v) (fun x => obind (read_array_elements old' l') (fun r => Some (x :: r)))
      end
  end.
Definition read_array (old : bytes) (v : json) : option bytes :=
  match v with JNull => Some old | JArr l => read_array_elements old l | _ => None end.
Definition read_path (old : option (list slice)) (v : json) : option (option (list slice)) :=
  match v with
  | JNull => Some None
  | JArr l => option_map Some (read_elements read_slice None (match old with Some o => o | None => [] end) l)
  | _ => None
  end.
Definition read_pointer {S} (t : table S) (zero : S) (old : option S) (v : json) : option (option S) :=
  match v with JNull => Some None | _ => option_map Some (read_struct t (match old with Some o => o | None => zero end) v) end.
Definition zero_array : bytes := repeat x00 32.
Definition zero_entry : entry_fields := mk_ef [] zero_array zero_array zero_array None zero_array None.
Definition entry_table : table entry_fields :=
  [entry (b_ "DomainName") e_name read_string with_e_name; entry (b_ "DomainID") e_id read_array with_e_id;
   entry (b_ "DomainValue") e_value read_array with_e_value; entry (b_ "CertIDsID") e_certs_id read_array with_e_certs_id;
   entry (b_ "CertIDs") e_certs read_slice with_e_certs; entry (b_ "PolicyIDsID") e_pols_id read_array with_e_pols_id;
   entry (b_ "PolicyIDs") e_pols read_slice with_e_pols].
Definition zero_poi : poi_fields := mk_pf 0 None None None None.
Definition poi_table : table poi_fields :=
  [entry (b_ "ProofType") p_type read_int with_p_type; entry (b_ "Proof") p_path read_path with_p_path;
   entry (b_ "Root") p_root read_slice with_p_root; entry (b_ "ProofKey") p_key read_slice with_p_key;
   entry (b_ "ProofValue") p_value read_slice with_p_value].
Definition zero_answer : answer := mk_answer None zero_poi None.
Definition answer_table : table answer :=
  [entry (b_ "DomainEntry") a_entry (read_pointer entry_table zero_entry) with_a_entry;
   entry (b_ "PoI") a_poi (read_struct poi_table) with_a_poi; entry (b_ "TreeHeadSig") a_sig read_slice with_a_sig].
Definition read_chain (text : bytes) : option (list answer) := obind (parse text) (read_list (read_struct answer_table) zero_answer []).
Definition read_payloads (text : bytes) : option (list slice) := obind (parse text) (read_list read_slice None []).

(** ** The parameter ids: hexadecimal digits *)
(** hex.DecodeString *)
Fixpoint hex_decode (s : bytes) : option bytes :=
  match s with
  | [] => Some []
  | [_] => None
  | a :: b :: r =>
      match hex_value a, hex_value b with
      | Some x, Some y => obind (hex_decode r) (fun t => Some (byte_at (x * 16 + y)%N :: t))
      | _, _ => None
      end
  end.
(** hex.EncodeToString *)
Definition hex_encode (s : bytes) : bytes := flat_map (fun b => [hex_digit (Byte.to_N b / 16); hex_digit (Byte.to_N b mod 16)]) s.
Definition id_digits : nat := 64.
(** mapserver.go:266-275 *)
Fixpoint read_ids (n : nat) (s : bytes) : option (list bytes) :=
  match n with
  | O => Some []
  | S n' => obind (hex_decode (firstn id_digits s)) (fun id => obind (read_ids n' (skipn id_digits s)) (fun r => Some (id :: r)))
  end.

Inductive reply := BadRequest | Closed | Body (text : bytes).
(** mapserver.go:255 apiGetPayloads for the parameter [text]. [rows ids]: the rows that the query for [ids] yields before it ends, None if the
    query fails at once; the time limit and errors of the encoder are not modelled. The columns id have 32 bytes. *)
Definition latest (rows : list (bytes * bytes)) (id : bytes) : slice :=
  fold_left (fun m r => if beqb (fst r) id then Some (snd r) else m) rows None.
Definition retrieve (rows : list bytes -> option (list (bytes * bytes))) (ids : list bytes) : option (list slice) :=
  option_map (fun rs => map (latest rs) ids) (rows ids). (* certs.go:251, policies.go:141, common.go:11; rows.Err is not asked *)
Definition api_payloads (rows : list bytes -> option (list (bytes * bytes))) (text : bytes) : reply :=
  if negb (length text mod id_digits =? 0) then BadRequest
  else match read_ids (length text / id_digits) text with
       | None => BadRequest
       | Some ids => match retrieve rows ids with None => BadRequest | Some l => Body (payload_text l) end
       end.
