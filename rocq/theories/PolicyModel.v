(** Model of /repo/pkg/common/policies.go, embedded_policies.go, policy_issuance.go, crypto/crypto.go and /repo/pkg/pca/pca.go.
    Strings are byte strings. A byte slice that may be nil is an option. *)
From Verif Require Import Base.

(** ** Time. time.Time: the instant in nanoseconds since 1970, the monotonic clock reading if the value comes from time.Now, the location. *)
Record time := mk_time { t_ns : Z; t_mono : option Z; t_loc : nat }.
(** Time.Equal, Time.Before: by the monotonic readings if both have one. *)
Definition time_equal (a b : time) : bool :=
  match t_mono a, t_mono b with Some x, Some y => Z.eqb x y | _, _ => Z.eqb (t_ns a) (t_ns b) end.
Definition time_before (a b : time) : bool :=
  match t_mono a, t_mono b with Some x, Some y => Z.ltb x y | _, _ => Z.ltb (t_ns a) (t_ns b) end.
(** The operator == on time.Time compares the representation. *)
Definition time_same (a b : time) : bool :=
  Z.eqb (t_ns a) (t_ns b) && (t_loc a =? t_loc b) &&
  match t_mono a, t_mono b with Some x, Some y => Z.eqb x y | None, None => true | _, _ => false end.

(** ** Objects *)
Definition slice := option bytes.
Definition content (s : slice) : bytes := match s with None => [] | Some b => b end.
(** bytes.Equal *)
Definition slice_equal (a b : slice) : bool := beqb (content a) (content b).

(** policies.go:88 *)
Record attributes := mk_attr { a_cas : list bytes; a_allowed : list bytes; a_disallowed : list bytes; a_excluded : list bytes }.
(** policies.go:48 with the bases; [f_raw] is JSONField. *)
Record fields := mk_fields {
  f_raw : slice; f_version : Z; f_serial : Z; f_domain : bytes; f_not_before : time; f_not_after : time; f_can_issue : bool; f_can_own : bool;
  f_key : slice; f_key_alg : Z; f_sig_alg : Z; f_stamp : time; f_attr : attributes; f_owner_sig : slice; f_owner_hash : slice }.
(** embedded_policies.go:17 *)
Record timestamp := mk_ts { ts_raw : slice; ts_version : Z; ts_log : slice; ts_added : time; ts_sig : slice }.
(** policies.go:77 *)
Record cert := mk_cert { c_fields : fields; c_issuer_sig : slice; c_issuer_hash : slice; c_spcts : list timestamp }.
(** policies.go:114 and :121 *)
Record revocation := mk_rev {
  r_raw : slice; r_version : Z; r_serial : Z; r_domain : bytes; r_stamp : time; r_owner_sig : slice; r_owner_hash : slice;
  r_issuer_sig : slice; r_issuer_hash : slice; r_spcrts : list timestamp }.

(** ** Equality *)
(** policies.go:396 equalStringSlices, :413 equalSlices *)
Fixpoint equal_slices {A} (eq : A -> A -> bool) (a b : list A) : bool :=
  match a, b with
  | [], [] => true
  | x :: a', y :: b' => eq x y && equal_slices eq a' b'
  | _, _ => false
  end.
(** policies.go:325 *)
Definition attr_equal (s o : attributes) : bool :=
  equal_slices beqb (a_cas s) (a_cas o) && equal_slices beqb (a_allowed s) (a_allowed o) &&
  equal_slices beqb (a_disallowed s) (a_disallowed o) && equal_slices beqb (a_excluded s) (a_excluded o).
(** policies.go:245 *)
Definition fields_equal (c x : fields) : bool :=
  Z.eqb (f_version c) (f_version x) && Z.eqb (f_serial c) (f_serial x) && beqb (f_domain c) (f_domain x) &&
  Z.eqb (f_key_alg c) (f_key_alg x) && slice_equal (f_key c) (f_key x) &&
  time_equal (f_not_before c) (f_not_before x) && time_equal (f_not_after c) (f_not_after x) &&
  Bool.eqb (f_can_issue c) (f_can_issue x) && Bool.eqb (f_can_own c) (f_can_own x) && Z.eqb (f_sig_alg c) (f_sig_alg x) &&
  time_equal (f_stamp c) (f_stamp x) && slice_equal (f_owner_sig c) (f_owner_sig x) && slice_equal (f_owner_hash c) (f_owner_hash x) &&
  attr_equal (f_attr c) (f_attr x).
(** embedded_policies.go:60 *)
Definition ts_equal (s x : timestamp) : bool :=
  Z.eqb (ts_version s) (ts_version x) && slice_equal (ts_log s) (ts_log x) && time_equal (ts_added s) (ts_added x) && slice_equal (ts_sig s) (ts_sig x).
(** policies.go:318 *)
Definition cert_equal (c x : cert) : bool :=
  fields_equal (c_fields c) (c_fields x) && slice_equal (c_issuer_sig c) (c_issuer_sig x) && slice_equal (c_issuer_hash c) (c_issuer_hash x) &&
  equal_slices ts_equal (c_spcts c) (c_spcts x).
(** policies.go:354 and :389 *)
Definition rev_equal (r x : revocation) : bool :=
  Z.eqb (r_version r) (r_version x) && Z.eqb (r_serial r) (r_serial x) && beqb (r_domain r) (r_domain x) && time_same (r_stamp r) (r_stamp x) &&
  slice_equal (r_owner_sig r) (r_owner_sig x) && slice_equal (r_owner_hash r) (r_owner_hash x) &&
  slice_equal (r_issuer_sig r) (r_issuer_sig x) && slice_equal (r_issuer_hash r) (r_issuer_hash x) && equal_slices ts_equal (r_spcrts r) (r_spcrts x).

(** ** Attributes *)
Definition contains (l : list bytes) (x : bytes) : bool := existsb (beqb x) l.
(** The keys of a map filled with the elements of [l]. *)
Fixpoint add_all (m l : list bytes) : list bytes :=
  match l with [] => m | x :: l' => add_all (if contains m x then m else x :: m) l' end.
(** policies.go:142 ValidateAttributes *)
Definition validate_attributes (a : attributes) : bool :=
  if length (add_all [] (a_cas a)) <? length (a_cas a) then false
  else
    let labels := add_all (add_all (add_all [] (a_allowed a)) (a_disallowed a)) (a_excluded a) in
    negb (length labels <? length (a_allowed a) + length (a_disallowed a) + length (a_excluded a)).

(** strings.CutSuffix *)
Fixpoint cut_suffix (s suffix : bytes) : option bytes :=
  if beqb s suffix then Some []
  else match s with
       | [] => None
       | c :: s' => match cut_suffix s' suffix with None => None | Some r => Some (c :: r) end
       end.
Definition drop_dot (s : bytes) : bytes := match cut_suffix s [x2e] with Some r => r | None => s end.
(** strings.Split(s, "."), for which only the last part matters. *)
Fixpoint split_dots (s : bytes) : list bytes :=
  match s with
  | [] => [[]]
  | c :: s' => if Byte.eqb c x2e then [] :: split_dots s'
               else match split_dots s' with [] => [[c]] | p :: r => (c :: p) :: r end
  end.
Inductive validity := Allowed | Disallowed | Excluded | NotApplicable.
Definition star : bytes := [x2a].
(** policies.go:172 CheckDomainValidity *)
Definition check_domain (a : attributes) (policy_domain domain : bytes) : validity :=
  let pd := drop_dot policy_domain in
  let d := drop_dot domain in
  match cut_suffix d (x2e :: pd) with
  | None => NotApplicable
  | Some target =>
      let label := last (split_dots target) [] in
      if contains (a_allowed a) label then Allowed
      else if contains (a_disallowed a) label then Disallowed
      else if contains (a_excluded a) label then Excluded
      else if contains (a_allowed a) star then Allowed
      else if contains (a_disallowed a) star then Disallowed
      else if contains (a_excluded a) star then Excluded
      else Allowed
  end.

(** ** Signatures *)
(** policies.go:293 NewPolicyCertificateFromRequest (a request has the same fields; JSONField is not copied) *)
Definition no_raw (f : fields) : fields :=
  mk_fields None (f_version f) (f_serial f) (f_domain f) (f_not_before f) (f_not_after f) (f_can_issue f) (f_can_own f) (f_key f) (f_key_alg f)
    (f_sig_alg f) (f_stamp f) (f_attr f) (f_owner_sig f) (f_owner_hash f).
Definition cert_of_request (req : fields) : cert := mk_cert (no_raw req) None None [].
Definition set_owner (f : fields) (sig hash : slice) : fields :=
  mk_fields (f_raw f) (f_version f) (f_serial f) (f_domain f) (f_not_before f) (f_not_after f) (f_can_issue f) (f_can_own f) (f_key f) (f_key_alg f)
    (f_sig_alg f) (f_stamp f) (f_attr f) sig hash.

Definition no_mono (t : time) : time := mk_time (t_ns t) None (t_loc t).
(** What the JSON text is made of. *)
Definition fields_view (f : fields) : fields :=
  mk_fields None (f_version f) (f_serial f) (f_domain f) (no_mono (f_not_before f)) (no_mono (f_not_after f)) (f_can_issue f) (f_can_own f)
    (f_key f) (f_key_alg f) (f_sig_alg f) (no_mono (f_stamp f)) (f_attr f) (f_owner_sig f) (f_owner_hash f).
Definition ts_view (t : timestamp) : timestamp := mk_ts None (ts_version t) (ts_log t) (no_mono (ts_added t)) (ts_sig t).
Definition json_view (c : cert) : cert :=
  mk_cert (fields_view (c_fields c)) (c_issuer_sig c) (c_issuer_hash c) (map ts_view (c_spcts c)).

Section Crypto.
  (** SHA-256; the JSON text of a certificate, if there is one (JsonModel.v has the text); RSA keys. *)
  Variable H : bytes -> bytes.
  Variable enc : cert -> option bytes.
  Variables priv pub : Type.
  Variable rsa_sign : priv -> bytes -> option bytes.
  Variable rsa_verify : pub -> bytes -> bytes -> bool.
  Variable parse_key : bytes -> option pub.

  (** json.go:19 ToJSON on a policy certificate. JSONField and the monotonic readings are not written. *)
  Definition to_json (c : cert) : option bytes := enc (json_view c).
  (** crypto.go:47 SignBytes, :308 signStructRSASHA256 *)
  Definition sign_struct (c : cert) (k : priv) : option bytes :=
    match to_json c with None => None | Some b => rsa_sign k (H b) end.
  (** crypto.go:319 ComputeHashAsSigner *)
  Definition as_signer (c : cert) : cert := mk_cert (c_fields c) None (c_issuer_hash c) [].
  Definition hash_as_signer (c : cert) : option bytes :=
    match to_json (as_signer c) with None => None | Some b => Some (H b) end.

  Definition is_nil (s : slice) : bool := match s with None => true | Some _ => false end.
  (** crypto.go:69 SignAsOwner: the request afterwards, and whether it succeeded. *)
  Definition sign_as_owner (owner : cert) (k : priv) (req : fields) : fields * bool :=
    if negb (is_nil (f_owner_sig req)) || negb (is_nil (f_owner_hash req)) then (req, false)
    else if negb (f_can_own (c_fields owner)) then (req, false)
    else match hash_as_signer owner with
         | None => (req, false)
         | Some h =>
             let req1 := set_owner req (f_owner_sig req) (Some h) in
             match sign_struct (cert_of_request req1) k with
             | None => (set_owner req1 (f_owner_sig req1) None, false)
             | Some s => (set_owner req1 (Some s) (f_owner_hash req1), true)
             end
         end.
  (** crypto.go:112 VerifyOwnerSignatureInPolicyCertificate: the certificate afterwards, and whether it verified. On a serialization error
      the removed fields are not restored. *)
  Definition strip_for_owner (c : cert) : cert :=
    mk_cert (set_owner (c_fields c) None (f_owner_hash (c_fields c))) None None [].
  Definition verify_owner_cert (owner c : cert) : cert * bool :=
    match hash_as_signer owner with
    | None => (c, false)
    | Some h =>
        if negb (beqb (content (f_owner_hash (c_fields c))) h) then (c, false)
        else match parse_key (content (f_key (c_fields owner))) with
             | None => (c, false)
             | Some pk =>
                 match to_json (strip_for_owner c) with
                 | None => (strip_for_owner c, false)
                 | Some b => (c, rsa_verify pk (H b) (content (f_owner_sig (c_fields c))))
                 end
             end
    end.
  (** crypto.go:102 VerifyOwnerSignature *)
  Definition verify_owner (owner : cert) (req : fields) : bool := snd (verify_owner_cert owner (cert_of_request req)).
  (** crypto.go:194 SignPolicyCertificateAsIssuer *)
  Definition sign_cert_as_issuer (issuer : cert) (k : priv) (c : cert) : cert * bool :=
    if negb (is_nil (c_issuer_sig c)) || negb (is_nil (c_issuer_hash c)) then (c, false)
    else match hash_as_signer issuer with
         | None => (c, false)
         | Some h =>
             let c1 := mk_cert (c_fields c) (c_issuer_sig c) (Some h) (c_spcts c) in
             match sign_struct c1 k with
             | None => (mk_cert (c_fields c1) (c_issuer_sig c1) None (c_spcts c1), false)
             | Some s => (mk_cert (c_fields c1) (Some s) (c_issuer_hash c1) (c_spcts c1), true)
             end
         end.
  (** crypto.go:157 SignRequestAsIssuer *)
  Definition sign_request_as_issuer (issuer : cert) (k : priv) (req : fields) : cert * bool :=
    sign_cert_as_issuer issuer k (cert_of_request req).
  (** crypto.go:264 VerifyIssuerSignature *)
  Definition verify_issuer (issuer c : cert) : cert * bool :=
    match hash_as_signer issuer with
    | None => (c, false)
    | Some h =>
        if negb (beqb (content (c_issuer_hash c)) h) then (c, false)
        else match parse_key (content (f_key (c_fields issuer))) with
             | None => (c, false)
             | Some pk =>
                 let c1 := mk_cert (c_fields c) None (c_issuer_hash c) (c_spcts c) in
                 match to_json c1 with
                 | None => (c1, false)
                 | Some b => (c, rsa_verify pk (H b) (content (c_issuer_sig c)))
                 end
             end
    end.
  (** crypto.go:226 VerifyIssuerConstraints. The expression for domain names is not anchored and matches every string. *)
  Definition verify_constraints (issuer child : cert) : bool :=
    let i := c_fields issuer in let c := c_fields child in
    if time_before (f_not_before c) (f_not_before i) then false
    else if time_before (f_not_after i) (f_not_after c) then false
    else match f_domain i with
         | _ :: _ => true
         | [] => if beqb (f_domain i) (f_domain c) then true
                 else match cut_suffix (f_domain c) (x2e :: f_domain i) with Some _ => true | None => false end
         end.

  (** ** pca.go *)
  Record pca := mk_pca { p_root : cert; p_key : priv; p_db : list (bytes * cert) }.
  Fixpoint db_get (k : bytes) (m : list (bytes * cert)) : option cert :=
    match m with [] => None | (k', c) :: m' => if beqb k k' then Some c else db_get k m' end.
  (** pca.go:190 canSkipCoolOffPeriod *)
  Definition can_skip (p : pca) (req : fields) : res bool :=
    match content (f_owner_sig req) with
    | [] => Ok false
    | _ =>
        if negb (length (content (f_owner_hash req)) =? 32) then Err
        else match db_get (content (f_owner_hash req)) (p_db p) with
             | None => Ok false
             | Some stored => if verify_owner stored req then Ok true else Err
             end
    end.
  (** pca.go:263 storeInDb: the key is the hash of the public key. *)
  Definition store_in_db (p : pca) (c : cert) : pca := mk_pca (p_root p) (p_key p) ((H (content (f_key (c_fields c))), c) :: p_db p).
  (** pca.go:148 SignAndLogRequest. [spts]: what the log servers answer, None if one fails; [sent]: whether all accept the final certificate. *)
  Definition sign_and_log (p : pca) (req : fields) (spts : option (list timestamp)) (sent : bool) : pca * option cert :=
    match can_skip p req with
    | Ok _ =>
        let (c1, ok1) := sign_request_as_issuer (p_root p) (p_key p) req in
        if ok1 then
          match spts with
          | None => (p, None)
          | Some l =>
              let (c2, ok2) := sign_cert_as_issuer (p_root p) (p_key p) (mk_cert (c_fields c1) None None l) in
              if ok2 && sent then (store_in_db p c2, Some c2) else (p, None)
          end
        else (p, None)
    | _ => (p, None)
    end.
End Crypto.
