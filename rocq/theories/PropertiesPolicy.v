(** Properties of policy objects: C48-C53. *)
From Coq Require Import Strings.String.
From Verif Require Import Base BaseLemmas PolicyModel PolicyProofs.
Local Open Scope list_scope.
Local Notation b_ s := (list_byte_of_string s%string).

(** ** C48. [undot], [last_label], [decides] are in PolicyProofs. *)
Theorem C48_not_applicable a policy_domain domain pd d : undot policy_domain pd -> undot domain d ->
  check_domain a policy_domain domain = NotApplicable <-> forall t, d <> t ++ x2e :: pd.
Proof. exact (check_not_applicable a policy_domain domain pd d). Qed.
Theorem C48_decided a policy_domain domain pd t label : undot policy_domain pd -> undot domain (t ++ x2e :: pd) -> last_label t label ->
  decides a label (check_domain a policy_domain domain).
Proof. exact (check_decides a policy_domain domain pd t label). Qed.
(** The relation [decides] has one result: an exact entry wins over a wildcard. *)
Theorem C48_exact_entry_wins a policy_domain domain pd t label : undot policy_domain pd -> undot domain (t ++ x2e :: pd) -> last_label t label ->
  validate_attributes a = true ->
  (In label (a_allowed a) -> check_domain a policy_domain domain = Allowed) /\
  (In label (a_disallowed a) -> check_domain a policy_domain domain = Disallowed) /\
  (In label (a_excluded a) -> check_domain a policy_domain domain = Excluded).
Proof.
  intros Hp Hd Hl Hv. pose proof (check_decides a policy_domain domain pd t label Hp Hd Hl) as Hc.
  destruct (one_list a label Hv) as (H1 & H2 & H3).
  repeat split; intros Hi; inversion Hc; subst; try reflexivity; tauto.
Qed.
Theorem C48_one_list a label : validate_attributes a = true ->
  ~ (In label (a_allowed a) /\ In label (a_disallowed a)) /\ ~ (In label (a_allowed a) /\ In label (a_excluded a)) /\
  ~ (In label (a_disallowed a) /\ In label (a_excluded a)).
Proof. exact (one_list a label). Qed.
Theorem C48_default a policy_domain domain pd t label : undot policy_domain pd -> undot domain (t ++ x2e :: pd) -> last_label t label ->
  (forall x, In x (a_allowed a ++ a_disallowed a ++ a_excluded a) -> x <> label /\ x <> b_ "*") ->
  check_domain a policy_domain domain = Allowed.
Proof.
  intros Hp Hd Hl Hn. pose proof (check_decides a policy_domain domain pd t label Hp Hd Hl) as Hc.
  assert (Hx : forall x, x = label \/ x = star -> ~ In x (a_allowed a) /\ ~ In x (a_disallowed a) /\ ~ In x (a_excluded a)).
  { intros x Hx. repeat split; intros Hi; destruct (Hn x) as [N1 N2]; rewrite ?in_app_iff; auto; destruct Hx; auto. }
  destruct (Hx label) as (A1 & A2 & A3); [auto|]. destruct (Hx star) as (B1 & B2 & B3); [auto|].
  inversion Hc as [Q|? Q|? ? Q|v ? ? ? Q E]; try contradiction; try reflexivity. inversion Q; subst; try contradiction; congruence.
Qed.
Definition ex_attr : attributes := mk_attr [b_ "CA1"; b_ "CA2"] [b_ "www"] [b_ "*"] [b_ "mail"].
Example C48_example :
  undot (b_ "a.com.") (b_ "a.com") /\ undot (b_ "x.www.a.com") (b_ "x.www" ++ x2e :: b_ "a.com") /\ last_label (b_ "x.www") (b_ "www") /\
  validate_attributes ex_attr = true /\
  map (check_domain ex_attr (b_ "a.com.")) [b_ "x.www.a.com"; b_ "mail.a.com."; b_ "www.mail.a.com"; b_ "shop.a.com"; b_ "a.com"; b_ "wwwa.com"] =
    [Allowed; Excluded; Excluded; Disallowed; NotApplicable; NotApplicable].
Proof.
  repeat split.
  - left. reflexivity.
  - right. split; [reflexivity|]. intros u E. apply (f_equal (fun l => List.last l x00)) in E. rewrite List.last_last in E. discriminate.
  - cbn. intuition discriminate.
  - right. exists [x78]. reflexivity.
Qed.
Print Assumptions C48_not_applicable.
Print Assumptions C48_decided.
Print Assumptions C48_exact_entry_wins.
Print Assumptions C48_one_list.
Print Assumptions C48_default.

(** ** C49 *)
Theorem C49_validate a : validate_attributes a = true <-> NoDup (a_cas a) /\ NoDup (a_allowed a ++ a_disallowed a ++ a_excluded a).
Proof. exact (validate_iff a). Qed.
Example C49_example : validate_attributes ex_attr = true /\
  validate_attributes (mk_attr [] [b_ "www"] [] [b_ "www"]) = false /\ validate_attributes (mk_attr [b_ "CA"; b_ "CA"] [] [] []) = false.
Proof. repeat split. Qed.
Print Assumptions C49_validate.

(** ** C50. Equal on certificates. Full statement: an equivalence, true exactly if all fields are the same. It holds if no time has a monotonic
    reading (values of time.Now have one), and comparing with a decoded object needs no such condition. For revocations it is false. *)
Theorem C50_reflexive c : cert_equal c c = true.
Proof. exact (cert_equal_refl c). Qed.
Theorem C50_symmetric a b : cert_equal a b = cert_equal b a.
Proof. exact (cert_equal_sym a b). Qed.
Theorem C50_content_partial a b : cert_wall a \/ cert_wall b -> cert_equal a b = true <-> same_cert a b.
Proof. exact (cert_equal_spec a b). Qed.
Theorem C50_transitive_partial a b c : cert_wall a -> cert_wall b \/ cert_wall c -> cert_equal a b = true -> cert_equal b c = true -> cert_equal a c = true.
Proof.
  intros Ha Hb H1 H2. apply cert_equal_spec; [auto|]. apply cert_equal_spec in H1; [|auto]. apply cert_equal_spec in H2; [|exact Hb].
  exact (same_cert_trans a b c H1 H2).
Qed.
(** A request is compared by its fields. *)
Theorem C50_requests_partial a b : fields_wall a \/ fields_wall b -> fields_equal a b = true <-> same_fields a b.
Proof. exact (fields_equal_spec a b). Qed.
(** What decoding the JSON text gives: the values, times without monotonic reading in some location, some JSONField. *)
Definition decoded_copy (c d : cert) : Prop := same_cert c d /\ cert_wall d.
Theorem C50_decoded_copy c d : decoded_copy c d -> cert_equal c d = true /\ cert_equal d c = true.
Proof. intros [Hs Hw]. rewrite (cert_equal_sym d c). assert (E : cert_equal c d = true) by (apply cert_equal_spec; auto). auto. Qed.
Definition wall_time (n : Z) : time := mk_time n None 0.
Definition ex_fields (domain key : bytes) (own : bool) : fields :=
  mk_fields None 1 7 domain (wall_time 100) (wall_time 900) true own (Some key) 1 1 (wall_time 150) ex_attr None None.
Definition ex_cert (domain key : bytes) : cert := mk_cert (ex_fields domain key true) (Some [x01]) None [mk_ts None 1 (Some [x05]) (wall_time 160) (Some [x06])].
(** The time stamp comes from time.Now and the copy is in another location, with empty instead of nil slices. *)
Example C50_example :
  let c := mk_cert (mk_fields None 1 7 (b_ "a.com") (wall_time 100) (wall_time 900) true true (Some [x01]) 1 1 (mk_time 150 (Some 33%Z) 1) ex_attr None None) None None
             [mk_ts None 1 (Some [x05]) (mk_time 160 (Some 34%Z) 1) (Some [x06])] in
  let d := mk_cert (mk_fields (Some [x7b]) 1 7 (b_ "a.com") (wall_time 100) (wall_time 900) true true (Some [x01]) 1 1 (mk_time 150 None 2) ex_attr (Some []) None) None None
             [mk_ts (Some []) 1 (Some [x05]) (mk_time 160 None 0) (Some [x06])] in
  decoded_copy c d /\ cert_equal c d = true /\ cert_equal c (ex_cert (b_ "a.com") [x01]) = false.
Proof.
  cbn zeta. split; [|split; reflexivity]. split.
  - split; [unfold same_fields, same_attr; repeat split; reflexivity|]. split; [reflexivity|]. split; [reflexivity|].
    constructor; [|constructor]. unfold same_ts. auto.
  - split; [unfold fields_wall; auto|]. constructor; [reflexivity|constructor].
Qed.
(** Two values of time.Now with the same wall clock but different monotonic readings (the clock was set back), and a decoded copy of one. *)
Theorem C50_transitive_refuted : exists a b c, cert_equal a b = true /\ cert_equal b c = true /\ cert_equal a c = false.
Proof.
  pose (mk := fun m => mk_cert (mk_fields None 1 7 (b_ "a.com") (wall_time 100) (wall_time 900) true true (Some [x01]) 1 1 (mk_time 150 m 0) ex_attr None None) None None []).
  exists (mk (Some 1%Z)), (mk None), (mk (Some 2%Z)). repeat split; reflexivity.
Qed.
(** A revocation in UTC and its copy in the same instant with another location; a revocation stamped with time.Now and its copy. *)
Theorem C50_revocation_refuted : exists r d, same_rev r d /\ t_mono (r_stamp r) = None /\ t_mono (r_stamp d) = None /\ rev_equal r d = false.
Proof.
  pose (mk := fun t => mk_rev None 1 7 (b_ "a.com") t None None None None []).
  exists (mk (mk_time 5 None 0)), (mk (mk_time 5 None 1)). repeat split; try reflexivity. constructor.
Qed.
Theorem C50_revocation_partial r d :
  Forall (fun t => t_mono (ts_added t) = None) (r_spcrts r) \/ Forall (fun t => t_mono (ts_added t) = None) (r_spcrts d) ->
  rev_equal r d = true <-> same_rev r d /\ r_stamp r = r_stamp d.
Proof. exact (rev_equal_spec r d). Qed.
Example C50_revocation_example : exists r d, r <> d /\ rev_equal r d = true.
Proof.
  exists (mk_rev None 1 7 (b_ "a.com") (wall_time 3) None None None None [mk_ts None 1 None (wall_time 4) None]),
         (mk_rev (Some []) 1 7 (b_ "a.com") (wall_time 3) (Some []) None None None [mk_ts None 1 None (mk_time 4 None 1) None]).
  split; [discriminate|reflexivity].
Qed.
Print Assumptions C50_reflexive.
Print Assumptions C50_symmetric.
Print Assumptions C50_content_partial.
Print Assumptions C50_transitive_partial.
Print Assumptions C50_requests_partial.
Print Assumptions C50_decoded_copy.
Print Assumptions C50_transitive_refuted.
Print Assumptions C50_revocation_refuted.
Print Assumptions C50_revocation_partial.

(** ** C51. The section variables are SHA-256, the JSON text and RSA; [key_pair k owner]: what [k] signs verifies with the key in [owner]. *)
(** [made_of req c]: the fields of [c] are those of [req]; issuer signature, issuer hash and timestamps are arbitrary.
    [same_owner]: the same certificate up to the issuer signature and the timestamps. *)
Theorem C51_owner_signature_stays H enc priv pub rsa_sign rsa_verify parse_key owner k req req' owner' c :
  sign_as_owner H enc priv rsa_sign owner k req = (req', true) -> key_pair priv pub rsa_sign rsa_verify parse_key k owner ->
  same_owner owner owner' -> made_of req' c ->
  verify_owner_cert H enc pub rsa_verify parse_key owner' c = (c, true).
Proof. exact (owner_verifies H enc priv pub rsa_sign rsa_verify parse_key owner k req req' owner' c). Qed.
Theorem C51_request_verifies H enc priv pub rsa_sign rsa_verify parse_key owner k req req' :
  sign_as_owner H enc priv rsa_sign owner k req = (req', true) -> key_pair priv pub rsa_sign rsa_verify parse_key k owner ->
  verify_owner H enc pub rsa_verify parse_key owner req' = true.
Proof. exact (owner_verifies_request H enc priv pub rsa_sign rsa_verify parse_key owner k req req'). Qed.
(** The way of the certificate through the PCA: issued, timestamps added, issued again. *)
Theorem C51_through_issuance H enc priv pub rsa_sign rsa_verify parse_key owner k req req' issuer ki c1 spts c2 :
  sign_as_owner H enc priv rsa_sign owner k req = (req', true) -> key_pair priv pub rsa_sign rsa_verify parse_key k owner ->
  sign_request_as_issuer H enc priv rsa_sign issuer ki req' = (c1, true) ->
  sign_cert_as_issuer H enc priv rsa_sign issuer ki (mk_cert (c_fields c1) None None spts) = (c2, true) ->
  verify_owner_cert H enc pub rsa_verify parse_key owner c1 = (c1, true) /\ verify_owner_cert H enc pub rsa_verify parse_key owner c2 = (c2, true) /\
  (key_pair priv pub rsa_sign rsa_verify parse_key ki issuer ->
   verify_issuer H enc pub rsa_verify parse_key issuer c1 = (c1, true) /\ verify_issuer H enc pub rsa_verify parse_key issuer c2 = (c2, true)).
Proof.
  intros Hs Hk H1 H2. assert (Ho : same_owner owner owner) by (split; reflexivity). assert (Hi : same_owner issuer issuer) by (split; reflexivity).
  destruct (issuer_changes _ _ _ _ _ _ _ _ _ H1) as [F1 _]. destruct (issuer_changes _ _ _ _ _ _ _ _ _ H2) as [F2 _].
  cbn [c_fields] in F2. split; [|split].
  - apply (owner_verifies _ _ _ _ _ _ _ _ _ _ _ _ _ Hs Hk Ho). unfold made_of. rewrite F1. reflexivity.
  - apply (owner_verifies _ _ _ _ _ _ _ _ _ _ _ _ _ Hs Hk Ho). unfold made_of. rewrite F2, F1. reflexivity.
  - intros Hki. split; [exact (issuer_verifies _ _ _ _ _ _ _ _ _ _ _ _ H1 Hki Hi)|exact (issuer_verifies _ _ _ _ _ _ _ _ _ _ _ _ H2 Hki Hi)].
Qed.
Theorem C51_signing_changes_nothing_else H enc priv rsa_sign owner k req req' b :
  sign_as_owner H enc priv rsa_sign owner k req = (req', b) ->
  (b = false -> req' = req) /\ req' = set_owner req (f_owner_sig req') (f_owner_hash req').
Proof. exact (sign_owner_changes H enc priv rsa_sign owner k req req' b). Qed.
Theorem C51_issuing_changes_nothing_else H enc priv rsa_sign issuer k c c' b :
  sign_cert_as_issuer H enc priv rsa_sign issuer k c = (c', b) -> c_fields c' = c_fields c /\ c_spcts c' = c_spcts c /\ (b = false -> c' = c).
Proof. exact (issuer_changes H enc priv rsa_sign issuer k c c' b). Qed.
(** Full statement: for every certificate. Missing: certificates without a JSON text (those with a time outside the years 0 to 9999), for which it
    is false. *)
Theorem C51_verifying_changes_nothing_partial H enc pub rsa_verify parse_key owner c c' b :
  to_json enc (strip_for_owner c) <> None -> verify_owner_cert H enc pub rsa_verify parse_key owner c = (c', b) -> c' = c.
Proof. exact (verify_owner_keeps H enc pub rsa_verify parse_key owner c c' b). Qed.
Theorem C51_verified_changes_nothing H enc pub rsa_verify parse_key owner c c' :
  verify_owner_cert H enc pub rsa_verify parse_key owner c = (c', true) -> c' = c.
Proof. exact (verify_true_keeps H enc pub rsa_verify parse_key owner c c'). Qed.
(** A signature is good for one text. What the text says about the certificate is C72_signature. *)
Theorem C51_signature_binds H enc pub rsa_verify parse_key (G : bytes -> Prop) owner c c' :
  (forall x y, G x -> G y -> H x = H y -> x = y) ->
  (forall (pk : pub) h h' s, rsa_verify pk h s = true -> rsa_verify pk h' s = true -> h = h') ->
  (forall b, to_json enc (strip_for_owner c) = Some b -> G b) -> (forall b, to_json enc (strip_for_owner c') = Some b -> G b) ->
  snd (verify_owner_cert H enc pub rsa_verify parse_key owner c) = true -> snd (verify_owner_cert H enc pub rsa_verify parse_key owner c') = true ->
  content (f_owner_sig (c_fields c)) = content (f_owner_sig (c_fields c')) ->
  exists b, to_json enc (strip_for_owner c) = Some b /\ to_json enc (strip_for_owner c') = Some b.
Proof. exact (signature_binds H enc pub rsa_verify parse_key G owner c c'). Qed.

(** Toy instances for the examples: 32 bytes of digest, keys are byte strings, a signature is key and digest. *)
Definition ex_H (b : bytes) : bytes := firstn 32 (b ++ repeat x00 32).
Definition year_10000 : Z := 253402300800000000000%Z.
Definition ex_enc (c : cert) : option bytes :=
  if Z.leb year_10000 (t_ns (f_not_after (c_fields c))) then None else Some (x7b :: firstn 9 (f_domain (c_fields c)) ++ content (f_key (c_fields c)) ++ content (f_owner_hash (c_fields c)) ++ content (c_issuer_hash c)).
Definition ex_sign (k h : bytes) : option bytes := Some (k ++ h).
Definition ex_verify (pk h s : bytes) : bool := beqb s (pk ++ h).
Definition ex_parse (b : bytes) : option bytes := match b with x7b :: _ => None | _ => Some b end.
Definition ex_owner : cert := ex_cert (b_ "own.com") (b_ "k1").
Definition ex_request : fields := ex_fields (b_ "new.com") (b_ "k2") true.
Definition ex_signed : fields := fst (sign_as_owner ex_H ex_enc bytes ex_sign ex_owner (b_ "k1") ex_request).
Example C51_example :
  sign_as_owner ex_H ex_enc bytes ex_sign ex_owner (b_ "k1") ex_request = (ex_signed, true) /\
  key_pair bytes bytes ex_sign ex_verify ex_parse (b_ "k1") ex_owner /\
  let c1 := fst (sign_request_as_issuer ex_H ex_enc bytes ex_sign (ex_cert [] (b_ "k0")) (b_ "k0") ex_signed) in
  verify_owner_cert ex_H ex_enc bytes ex_verify ex_parse ex_owner c1 = (c1, true) /\ verify_owner ex_H ex_enc bytes ex_verify ex_parse ex_owner ex_signed = true /\
  verify_owner ex_H ex_enc bytes ex_verify ex_parse ex_owner (set_owner ex_signed (Some [x00]) (f_owner_hash ex_signed)) = false.
Proof.
  split; [reflexivity|]. split; [|repeat split; reflexivity]. exists (b_ "k1"). split; [reflexivity|].
  intros h s [= <-]. unfold ex_verify. apply beqb_refl.
Qed.
(** A failed verification that loses the signatures and the timestamps of the certificate: NotAfter is in the year 10000. *)
Theorem C51_failed_verification_refuted : exists H enc pub rsa_verify parse_key owner c,
  c_spcts c <> [] /\ verify_owner_cert H enc pub rsa_verify parse_key owner c = (strip_for_owner c, false) /\ c_spcts (strip_for_owner c) = [] /\
  strip_for_owner c <> c.
Proof.
  exists ex_H, ex_enc, bytes, ex_verify, ex_parse, ex_owner.
  exists (mk_cert (mk_fields None 1 7 (b_ "a.com") (wall_time 100) (wall_time year_10000) true true (Some [x01]) 1 1 (wall_time 150) ex_attr (Some [x01])
            (hash_as_signer ex_H ex_enc ex_owner)) (Some [x01]) None [mk_ts None 1 None (wall_time 1) None]).
  split; [discriminate|]. split; [vm_compute; reflexivity|]. split; [reflexivity|]. discriminate.
Qed.
Print Assumptions C51_owner_signature_stays.
Print Assumptions C51_request_verifies.
Print Assumptions C51_through_issuance.
Print Assumptions C51_signing_changes_nothing_else.
Print Assumptions C51_issuing_changes_nothing_else.
Print Assumptions C51_verifying_changes_nothing_partial.
Print Assumptions C51_verified_changes_nothing.
Print Assumptions C51_signature_binds.
Print Assumptions C51_failed_verification_refuted.

(** ** C52. Full statement: accepted only if the validity period lies within the issuer's, and the domain is the issuer's or a subdomain of it,
    any domain being fine if the issuer has none. The period is enforced, the domain is not, and issuers without a domain are refused. *)
Theorem C52_period_partial issuer child : cert_wall issuer \/ cert_wall child -> verify_constraints issuer child = true ->
  (t_ns (f_not_before (c_fields issuer)) <= t_ns (f_not_before (c_fields child)))%Z /\
  (t_ns (f_not_after (c_fields child)) <= t_ns (f_not_after (c_fields issuer)))%Z.
Proof. intros Hw Hv. apply (constraints_spec issuer child Hw) in Hv as [Hi _]. exact Hi. Qed.
(** Exactly what is accepted. *)
Theorem C52_what_is_accepted issuer child : cert_wall issuer \/ cert_wall child ->
  verify_constraints issuer child = true <->
  inside issuer child /\
  (f_domain (c_fields issuer) <> [] \/ f_domain (c_fields child) = [] \/ exists u, f_domain (c_fields child) = u ++ [x2e]).
Proof. exact (constraints_spec issuer child). Qed.
Theorem C52_accepts_refuted : exists issuer child,
  verify_constraints issuer child = true /\ f_domain (c_fields issuer) <> [] /\ f_domain (c_fields child) <> f_domain (c_fields issuer) /\
  forall t, f_domain (c_fields child) <> t ++ x2e :: f_domain (c_fields issuer).
Proof.
  exists (ex_cert (b_ "own.com") [x01]), (ex_cert (b_ "evil.org") [x02]). split; [reflexivity|]. split; [discriminate|]. split; [discriminate|].
  intros t E. cbn in E. apply (f_equal (fun l => List.last l x00)) in E.
  change (x2e :: [x6f; x77; x6e; x2e; x63; x6f; x6d])%byte with ([x2e; x6f; x77; x6e; x2e; x63; x6f] ++ [x6d]) in E.
  rewrite app_assoc, List.last_last in E. discriminate.
Qed.
Theorem C52_refuses_refuted : exists issuer child, inside issuer child /\ f_domain (c_fields issuer) = [] /\ verify_constraints issuer child = false.
Proof. exists (ex_cert [] [x01]), (ex_cert (b_ "own.com") [x02]). repeat split; cbn; lia. Qed.
Example C52_example : cert_wall (ex_cert (b_ "own.com") [x01]) /\ verify_constraints (ex_cert (b_ "own.com") [x01]) (ex_cert (b_ "a.own.com") [x02]) = true /\
  verify_constraints (mk_cert (mk_fields None 1 7 (b_ "own.com") (wall_time 101) (wall_time 900) true true None 1 1 (wall_time 150) ex_attr None None) None None [])
    (ex_cert (b_ "a.own.com") [x02]) = false.
Proof. split; [|split; reflexivity]. split; [unfold fields_wall; auto|]. constructor; [reflexivity|constructor]. Qed.
Print Assumptions C52_period_partial.
Print Assumptions C52_what_is_accepted.
Print Assumptions C52_accepts_refuted.
Print Assumptions C52_refuses_refuted.

(** ** C53. Full statement: skipped exactly if the request is signed by a certificate issued before. The direction "only if" holds; the other fails
    for every history, since certificates are stored under the hash of their key and looked up by the hash of their text. *)
Theorem C53_skip_sound_partial H enc priv pub rsa_verify parse_key p req :
  can_skip H enc priv pub rsa_verify parse_key p req = Ok true ->
  exists stored, In (content (f_owner_hash req), stored) (p_db _ p) /\ verify_owner H enc pub rsa_verify parse_key stored req = true.
Proof. exact (skip_sound H enc priv pub rsa_verify parse_key p req). Qed.
(** For every history of requests: never skipped, if no two of the hashed texts collide and no JSON text is a key. *)
Theorem C53_never_skips H enc priv pub rsa_sign rsa_verify parse_key (G : bytes -> Prop) root k p req :
  (forall x y, G x -> G y -> H x = H y -> x = y) ->
  (forall e, In e (p_db _ p) -> (forall b, to_json enc (as_signer (snd e)) = Some b -> G b) /\ G (content (f_key (c_fields (snd e))))) ->
  (forall c b, to_json enc c = Some b -> parse_key b = None) ->
  reachable H enc priv pub rsa_sign rsa_verify parse_key root k p ->
  can_skip H enc priv pub rsa_verify parse_key p req <> Ok true.
Proof. exact (never_skips H enc priv pub rsa_sign rsa_verify parse_key G root k p req). Qed.
(** The certificate issued last for a key is stored under the hash of the key. *)
Theorem C53_stored_by_key H enc priv pub rsa_sign rsa_verify parse_key p req spts sent p' c :
  sign_and_log H enc priv pub rsa_sign rsa_verify parse_key p req spts sent = (p', Some c) ->
  db_get (H (content (f_key (c_fields c)))) (p_db _ p') = Some c.
Proof.
  intros E. pose proof (sign_and_log_db H enc priv pub rsa_sign rsa_verify parse_key p req spts sent) as Hd. cbn in Hd. unfold sign_and_log in *.
  destruct (can_skip _ _ _ _ _ _ p req); try discriminate. destruct (sign_request_as_issuer _ _ _ _ _ _ _) as [c1 [|]]; try discriminate.
  destruct spts as [l|]; try discriminate. destruct (sign_cert_as_issuer _ _ _ _ _ _ _) as [c2 [|]]; try discriminate.
  destruct sent; cbn in E; try discriminate. injection E as <- <-. cbn. rewrite beqb_refl. reflexivity.
Qed.
Definition ex_pca0 : pca bytes := mk_pca bytes (ex_cert [] (b_ "k0")) (b_ "k0") [].
Definition ex_step := sign_and_log ex_H ex_enc bytes bytes ex_sign ex_verify ex_parse.
Definition ex_pca1 : pca bytes := fst (ex_step ex_pca0 (ex_fields (b_ "own.com") (b_ "k1") true) (Some []) true).
Theorem C53_refuted : exists H enc priv pub rsa_sign rsa_verify parse_key root k p e req,
  reachable H enc priv pub rsa_sign rsa_verify parse_key root k p /\ In e (p_db _ p) /\
  (exists ko, sign_as_owner H enc priv rsa_sign (snd e) ko (set_owner req None None) = (req, true)) /\
  verify_owner H enc pub rsa_verify parse_key (snd e) req = true /\
  can_skip H enc priv pub rsa_verify parse_key p req = Ok false.
Proof.
  exists ex_H, ex_enc, bytes, bytes, ex_sign, ex_verify, ex_parse, (ex_cert [] (b_ "k0")), (b_ "k0"), ex_pca1.
  pose (stored := match p_db _ ex_pca1 with e :: _ => e | [] => ([], ex_owner) end).
  exists stored, (fst (sign_as_owner ex_H ex_enc bytes ex_sign (snd stored) (b_ "k1") ex_request)).
  split; [apply reach_sign; apply reach_new|]. split; [left; reflexivity|]. split; [exists (b_ "k1"); vm_compute; reflexivity|].
  split; vm_compute; reflexivity.
Qed.
Example C53_example : exists e c, p_db _ ex_pca1 = [e] /\
  (forall c b, to_json ex_enc c = Some b -> ex_parse b = None) /\
  (let G x := to_json ex_enc (as_signer (snd e)) = Some x \/ x = content (f_key (c_fields (snd e))) in forall x y, G x -> G y -> ex_H x = ex_H y -> x = y) /\
  ex_step ex_pca0 (ex_fields (b_ "own.com") (b_ "k1") true) (Some []) true = (ex_pca1, Some c) /\ db_get (ex_H (b_ "k1")) (p_db _ ex_pca1) = Some c.
Proof.
  eexists. eexists. split; [reflexivity|].
  split; [unfold to_json, ex_enc; intros c b; destruct (Z.leb _ _); [discriminate|intros [= <-]; reflexivity]|]. split; [|split; reflexivity].
  assert (Q : forall x, to_json ex_enc (as_signer (snd (hd ([], ex_owner) (p_db _ ex_pca1)))) = Some x -> hd x00 x = x7b).
  { unfold to_json, ex_enc. intros x. destruct (Z.leb _ _); [discriminate|intros [= <-]; reflexivity]. }
  intros G x y [Hx| ->] [Hy| ->] E; try reflexivity.
  - rewrite Hx in Hy. injection Hy as ->. reflexivity.
  - apply Q in Hx. destruct x as [|a x]; [discriminate|]. cbn in Hx. subst a. discriminate E.
  - apply Q in Hy. destruct y as [|a y]; [discriminate|]. cbn in Hy. subst a. discriminate E.
Qed.
Print Assumptions C53_skip_sound_partial.
Print Assumptions C53_never_skips.
Print Assumptions C53_stored_by_key.
Print Assumptions C53_refuted.
