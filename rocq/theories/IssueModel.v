(** Model of /repo/pkg/domainowner/domainowner.go and of the parts of /repo/pkg/pca/pca.go and /repo/pkg/common/crypto/crypto.go around
    [PolicyModel]: loading a PCA, its requests and serial numbers, the calls to the log servers, and the timestamps of the logs.
    Not modelled: a LogServerRequester that changes the certificate it is given (only its answers matter here). *)
From Coq Require Import Strings.String.
From Verif Require Import Base UtilModel DbModel LoadModel PolicyModel JsonText JsonModel JsonUse ConfModel.
Local Open Scope list_scope.

(** Time.Add *)
Definition later (t : time) (ns : Z) : time := mk_time (t_ns t + ns) (option_map (fun m => (m + ns)%Z) (t_mono t)) (t_loc t).
Definition microsecond : Z := 1000.
(** common/crypto.go:8 and :15 *)
Definition alg_sha256 : Z := 0.
Definition alg_rsa : Z := 0.

(** pca.go:33 LogServerRequester: the calls that were made, with the certificate as it was *)
Inductive call := Asked (url : bytes) (c : cert) | Registered (url : bytes) (c : cert).

Section Issue.
  Variable zs : zones.
  (** SHA-256 and RSA as in [PolicyModel]; util.RSAPublicToDERBytes of the public half of a key; util.RSAKeyFromPEM; util.PolicyCertificateFromBytes. *)
  Variable H : bytes -> bytes.
  Variables priv pub : Type.
  Variable rsa_sign : priv -> bytes -> option bytes.
  Variable rsa_verify : pub -> bytes -> bytes -> bool.
  Variable parse_key : bytes -> option pub.
  Variable der : priv -> option bytes.
  Variable read_key : bytes -> option priv.
  Variable read_cert : bytes -> option cert.
  Notation enc := (enc_json zs).

  (** ** domainowner.go *)
  (** :20 DomainRoots *)
  Definition roots := list (bytes * (cert * priv)).
  Fixpoint root_of (domain : bytes) (o : roots) : option (cert * priv) :=
    match o with [] => None | (d, x) :: o' => if beqb domain d then Some x else root_of domain o' end.
  (** :38 GeneratePolCertSignRequest. [fresh]: what rsa.GenerateKey returns; [now1], [now2], [now3]: the three readings of the clock. None: an error. *)
  Definition generate (o : roots) (domain : bytes) (version : Z) (fresh : option priv) (now1 now2 now3 : time) : option fields :=
    obind fresh (fun k => obind (der k) (fun key =>
      let req := mk_fields None version 0 domain now1 (later now2 microsecond) false false (Some key) alg_rsa alg_sha256 now3 (mk_attr [] [] [] [])
                   None None in
      match root_of domain o with
      | None => Some req
      | Some (c, ck) => let (req', ok) := sign_as_owner H enc priv rsa_sign c ck req in if ok then Some req' else None
      end)).

  (** ** pca.go *)
  (** :24 PCA: [au_logs] is the map CtLogServers, [au_requester] says whether LogServerRequester is set. *)
  Record authority := mk_authority { au_pca : pca priv; au_logs : list (bytes * log_conf); au_requester : bool; au_serial : Z }.
  Fixpoint put_log (h : bytes) (s : log_conf) (m : list (bytes * log_conf)) : list (bytes * log_conf) :=
    match m with [] => [(h, s)] | (h', s') :: m' => if beqb h h' then (h, s) :: m' else (h', s') :: put_log h s m' end.
  (** :74 *)
  Definition log_map (l : list log_conf) : list (bytes * log_conf) := fold_left (fun m s => put_log (H (content (l_key s))) s m) l [].
  (** :46 NewPCA on the text of the configuration file *)
  Definition new_authority (text : bytes) : option authority :=
    obind (read_pca zero_pca text) (fun config =>
    obind (read_cert (content (pc_cert config))) (fun root =>
    obind (read_key (content (pc_key config))) (fun k =>
    obind (der k) (fun d =>
      if beqb (content (f_key (c_fields root))) d
      then Some (mk_authority (PolicyModel.mk_pca _ root k []) (log_map (pc_logs config)) false 0) else None)))).
  (** Assigning LogServerRequester, as the caller has to *)
  Definition with_requester (a : authority) : authority := mk_authority (au_pca a) (au_logs a) true (au_serial a).

  (** :92 NewPolicyCertificateSigningRequest. [sign]: ownerSigningFunction; [now]: the clock. The PCA afterwards, and the request, None: an error. *)
  Definition new_request (a : authority) (version : Z) (domain : bytes) (not_before not_after : time) (can_issue can_own : bool) (key : slice)
      (key_alg sig_alg : Z) (attr : attributes) (sign : bytes -> slice) (owner_hash : slice) (now : time) : authority * option fields :=
    let root := c_fields (p_root _ (au_pca a)) in
    if time_before not_before (f_not_before root) then (a, None)
    else if time_before (f_not_after root) not_after then (a, None)
    else
      let a' := mk_authority (au_pca a) (au_logs a) (au_requester a) (au_serial a + 1) in
      let req := mk_fields None version (au_serial a') domain not_before not_after can_issue can_own key key_alg sig_alg now attr None owner_hash in
      match to_json enc (cert_of_request req) with
      | None => (a', None)
      | Some b => (a', Some (set_owner req (sign b) owner_hash))
      end.

  (** The answers of the log servers to the n-th call: a timestamp or an error; accepted or an error *)
  Variable obtain : nat -> bytes -> cert -> option timestamp.
  Variable send : nat -> bytes -> cert -> bool.
  (** :223 sendRequestToAllLogServers, in the order of the iteration over the map *)
  Fixpoint ask (n : nat) (set : bool) (l : list log_conf) (c : cert) : list call * res (list timestamp) :=
    match l with
    | [] => ([], Ok [])
    | s :: l' =>
        if negb set then ([], Panic)
        else match obtain n (l_url s) c with
             | None => ([Asked (l_url s) c], Err)
             | Some t => let (calls, r) := ask (S n) set l' c in
                         (Asked (l_url s) c :: calls, match r with Ok ts => Ok (t :: ts) | e => e end)
             end
    end.
  (** :253 sendFinalPolCertToAllLogServers *)
  Fixpoint register (n : nat) (set : bool) (l : list log_conf) (c : cert) : list call * res unit :=
    match l with
    | [] => ([], Ok tt)
    | s :: l' =>
        if negb set then ([], Panic)
        else if send n (l_url s) c then let (calls, r) := register (S n) set l' c in (Registered (l_url s) c :: calls, r)
        else ([Registered (l_url s) c], Err)
    end.
  (** :148 SignAndLogRequest. [l1], [l2]: the log servers in the orders of the two iterations over the map. The PCA afterwards, the calls made, the result. *)
  Definition issue (a : authority) (req : fields) (l1 l2 : list log_conf) : authority * list call * res cert :=
    let p := au_pca a in
    match can_skip H enc priv pub rsa_verify parse_key p req with
    | Ok _ =>
        let (c1, ok1) := sign_request_as_issuer H enc priv rsa_sign (p_root _ p) (p_key _ p) req in
        if ok1 then
          let (calls, answer) := ask 0 (au_requester a) l1 c1 in
          match answer with
          | Ok spts =>
              let (c2, ok2) := sign_cert_as_issuer H enc priv rsa_sign (p_root _ p) (p_key _ p) (mk_cert (c_fields c1) None None spts) in
              if ok2 then
                let (calls', sent) := register (List.length l1) (au_requester a) l2 c2 in
                match sent with
                | Ok _ => (mk_authority (store_in_db H priv p c2) (au_logs a) (au_requester a) (au_serial a), calls ++ calls', Ok c2)
                | Err => (a, calls ++ calls', Err)
                | Panic => (a, calls ++ calls', Panic)
                end
              else (a, calls, Err)
          | Err => (a, calls, Err)
          | Panic => (a, calls, Panic)
          end
        else (a, [], Err)
    | Err => (a, [], Err)
    | Panic => (a, [], Panic)
    end.

  (** ** crypto.go: timestamps *)
  (** embedded_policies.go:77 NewSignedEntryTimestampSignatureInput, and its JSON text *)
  Definition stamp_text (t : timestamp) (entry : bytes) : option bytes :=
    match to_text zs (OPtr (Some (OSig (mk_ts None (ts_version t) (ts_log t) (ts_added t) (ts_sig t)) (Some entry)))) with Ok b => Some b | _ => None end.
  (** crypto.go:19 SignPolicyCertificateTimestamp; [now]: the clock *)
  Definition sign_timestamp (c : cert) (version : Z) (log : slice) (k : priv) (now : time) : option timestamp :=
    obind (to_json enc c) (fun entry =>
      let t := mk_ts None version log now None in
      obind (stamp_text t entry) (fun b => obind (rsa_sign k (H b)) (fun s => Some (mk_ts None version log now (Some s))))).
End Issue.
