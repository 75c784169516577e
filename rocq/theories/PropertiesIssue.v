(** Issuing policy certificates: C89. *)
From Coq Require Import Strings.String Sorting.Permutation.
From Verif Require Import Base BaseLemmas UtilModel DbModel LoadModel PolicyModel PolicyProofs JsonText JsonModel JsonProofs JsonStable JsonUse ConfModel IssueModel IssueProofs PropertiesJson.
Local Open Scope list_scope.
Local Notation b_ s := (list_byte_of_string s%string).

(** Full statement: a certificate that SignAndLogRequest returns has the values of the request, lies within the constraints of the PCA, carries the
    PCA's signature and one timestamp of each configured log, each of which can be checked; it is registered in all logs if and only if it is returned;
    its serial number is unique; and a domain owner renews it with a request signed with it. False in several parts, see the refutations.
    What is returned: signed by the PCA, the values of the request, the timestamps are the answers of the logs about a certificate with these values and
    without timestamps, each log in the list was asked and then given the final certificate, which is stored under the hash of its key. *)
Theorem C89_issued_partial zs H priv pub rsa_sign rsa_verify parse_key obtain send a req l1 l2 a' calls c (p := au_pca _ a) :
  issue zs H priv pub rsa_sign rsa_verify parse_key obtain send a req l1 l2 = (a', calls, Ok c) ->
  key_pair priv pub rsa_sign rsa_verify parse_key (p_key _ p) (p_root _ p) ->
  c_fields c = no_raw req /\ verify_issuer H (enc_json zs) pub rsa_verify parse_key (p_root _ p) c = (c, true) /\
  List.length (c_spcts c) = List.length l1 /\
  (exists c1, c_fields c1 = no_raw req /\ c_spcts c1 = [] /\ verify_issuer H (enc_json zs) pub rsa_verify parse_key (p_root _ p) c1 = (c1, true) /\
     (forall i s t, nth_error l1 i = Some s -> nth_error (c_spcts c) i = Some t -> obtain i (l_url s) c1 = Some t) /\
     calls = map (fun s => Asked (l_url s) c1) l1 ++ map (fun s => Registered (l_url s) c) l2) /\
  (forall i s, nth_error l2 i = Some s -> send (List.length l1 + i) (l_url s) c = true) /\
  p_db _ (au_pca _ a') = (H (content (f_key req)), c) :: p_db _ p /\ p_root _ (au_pca _ a') = p_root _ p /\ p_key _ (au_pca _ a') = p_key _ p /\
  au_logs _ a' = au_logs _ a /\ au_requester _ a' = au_requester _ a /\ au_serial _ a' = au_serial _ a.
Proof.
  intros E K. destruct (issued _ _ _ _ _ _ _ _ _ _ _ _ _ _ _ _ E) as (c1 & S1 & S2 & F1 & P1 & F & Ca & Le & An & Sd & ->).
  assert (O : same_owner (p_root _ p) (p_root _ p)) by (split; reflexivity).
  split; [exact F|]. split; [exact (issuer_verifies _ _ _ _ _ _ _ _ _ _ _ _ S2 K O)|]. split; [exact Le|]. split.
  - exists c1. split; [exact F1|]. split; [exact P1|]. split; [exact (issuer_verifies _ _ _ _ _ _ _ _ _ _ _ _ S1 K O)|]. split; [exact An|exact Ca].
  - split; [exact Sd|]. repeat split.
Qed.
(** A signature of an owner on the request is good for the issued certificate: one made with SignAsOwner, and one made by the signing function given to
    NewPolicyCertificateSigningRequest. *)
Theorem C89_owner_signature zs H priv pub rsa_sign rsa_verify parse_key obtain send a req l1 l2 a' calls c owner k :
  issue zs H priv pub rsa_sign rsa_verify parse_key obtain send a req l1 l2 = (a', calls, Ok c) -> key_pair priv pub rsa_sign rsa_verify parse_key k owner ->
  (exists req0, sign_as_owner H (enc_json zs) priv rsa_sign owner k req0 = (req, true)) \/
  (exists h a0 a1 v d nb na ci co key ka sa attr sign now, hash_as_signer H (enc_json zs) owner = Some h /\
     new_request zs priv a0 v d nb na ci co key ka sa attr sign (Some h) now = (a1, Some req) /\
     forall b, exists s, sign b = Some s /\ rsa_sign k (H b) = Some s) ->
  verify_owner_cert H (enc_json zs) pub rsa_verify parse_key owner c = (c, true).
Proof.
  intros E K Q. destruct (issued _ _ _ _ _ _ _ _ _ _ _ _ _ _ _ _ E) as (c1 & _ & _ & _ & _ & F & _). destruct Q as [(req0 & S)|Q].
  - apply (owner_verifies _ _ _ _ _ _ _ _ _ _ _ _ _ S K); [split; reflexivity|]. unfold made_of. rewrite F. reflexivity.
  - destruct Q as (h & a0 & a1 & v & d & nb & na & ci & co & key & ka & sa & attr & sign & now & Hh & R & Sg).
    eapply request_verifies; eauto. rewrite F. reflexivity.
Qed.
(** A PCA loaded from a file whose logs have different keys asks each configured log once, and registers in each once. *)
Theorem C89_all_logs_partial zs H priv pub rsa_sign rsa_verify parse_key der read_key read_cert obtain send text config a a0 req l1 l2 a' calls c :
  read_pca zero_pca text = Some config -> NoDup (map (fun s => H (content (l_key s))) (pc_logs config)) ->
  new_authority H priv der read_key read_cert text = Some a0 -> au_logs _ a = au_logs _ a0 ->
  Permutation l1 (map snd (au_logs _ a)) -> Permutation l2 (map snd (au_logs _ a)) ->
  issue zs H priv pub rsa_sign rsa_verify parse_key obtain send a req l1 l2 = (a', calls, Ok c) ->
  exists c1, Permutation calls (map (fun s => Asked (l_url s) c1) (pc_logs config) ++ map (fun s => Registered (l_url s) c) (pc_logs config)) /\
    List.length (c_spcts c) = List.length (pc_logs config).
Proof.
  intros R N L Q P1 P2 E. destruct (loads _ _ _ _ _ _ _ L) as (config' & R' & _ & _ & _ & A). rewrite R in R'. injection R' as <-.
  assert (M : map snd (au_logs _ a) = pc_logs config) by (rewrite Q, A; cbn; now apply log_map_all). rewrite M in *.
  destruct (issued _ _ _ _ _ _ _ _ _ _ _ _ _ _ _ _ E) as (c1 & _ & _ & _ & _ & _ & Ca & Le & _). exists c1. split.
  - rewrite Ca. apply Permutation_app; now apply Permutation_map.
  - rewrite Le. now apply Permutation_length.
Qed.
(** However it ends: an error or a panic leaves the PCA as it was; no log sees a final certificate before all have given their timestamps. *)
Theorem C89_no_certificate zs H priv pub rsa_sign rsa_verify parse_key obtain send a req l1 l2 a' calls r :
  issue zs H priv pub rsa_sign rsa_verify parse_key obtain send a req l1 l2 = (a', calls, r) -> (forall c, r <> Ok c) -> a' = a.
Proof. exact (not_issued _ _ _ _ _ _ _ _ _ _ _ _ _ _ _ _). Qed.
Theorem C89_calls zs H priv pub rsa_sign rsa_verify parse_key obtain send a req l1 l2 a' calls r :
  issue zs H priv pub rsa_sign rsa_verify parse_key obtain send a req l1 l2 = (a', calls, r) ->
  (exists c1 n, calls = map (fun s => Asked (l_url s) c1) (firstn n l1) /\ c_fields c1 = no_raw req /\ c_spcts c1 = []) \/
  exists c1 c n, calls = map (fun s => Asked (l_url s) c1) l1 ++ map (fun s => Registered (l_url s) c) (firstn n l2) /\
    c_fields c1 = no_raw req /\ c_spcts c1 = [] /\ c_fields c = no_raw req /\ List.length (c_spcts c) = List.length l1 /\
    forall i s t, nth_error l1 i = Some s -> nth_error (c_spcts c) i = Some t -> obtain i (l_url s) c1 = Some t.
Proof.
  intros E. destruct (all_calls _ _ _ _ _ _ _ _ _ _ _ _ _ _ _ _ E) as [Q|(c1 & c & n & A & _ & _ & B)]; [left; exact Q|right].
  exists c1, c, n. split; [exact A|exact B].
Qed.
(** The database changes as in the model of C51 and C53, whose theorems hold for this one. *)
Theorem C89_database zs H priv pub rsa_sign rsa_verify parse_key obtain send a req l1 l2 a' calls r :
  issue zs H priv pub rsa_sign rsa_verify parse_key obtain send a req l1 l2 = (a', calls, r) ->
  exists spts sent, sign_and_log H (enc_json zs) priv pub rsa_sign rsa_verify parse_key (au_pca _ a) req spts sent =
    (au_pca _ a', match r with Ok c => Some c | _ => None end).
Proof. exact (issue_refines _ _ _ _ _ _ _ _ _ _ _ _ _ _ _ _). Qed.

(** ** Loading *)
(** A loaded PCA holds a key that belongs to its certificate, an empty database, one server for each hash of a key, and no requester. *)
Theorem C89_loaded H priv pub rsa_sign rsa_verify parse_key der read_key read_cert text a :
  (forall k d, der k = Some d -> exists pk : pub, parse_key d = Some pk /\ forall h s, rsa_sign k h = Some s -> rsa_verify pk h s = true) ->
  new_authority H priv der read_key read_cert text = Some a ->
  key_pair priv pub rsa_sign rsa_verify parse_key (p_key _ (au_pca _ a)) (p_root _ (au_pca _ a)) /\
  p_db _ (au_pca _ a) = [] /\ au_serial _ a = 0%Z /\ au_requester _ a = false /\ NoDup (map fst (au_logs _ a)) /\
  exists config, read_pca zero_pca text = Some config /\ read_cert (content (pc_cert config)) = Some (p_root _ (au_pca _ a)) /\
    read_key (content (pc_key config)) = Some (p_key _ (au_pca _ a)) /\
    forall h, In h (map fst (au_logs _ a)) <-> In h (map (fun s => H (content (l_key s))) (pc_logs config)).
Proof.
  intros D L. destruct (loads _ _ _ _ _ _ _ L) as (config & R & C & K & Dk & A).
  split; [destruct (D _ _ Dk) as (pk & P & V); exists pk; auto|].
  assert (Q : forall l m, NoDup (map fst m) -> NoDup (map fst (fold_left (fun m s => put_log (H (content (l_key s))) s m) l m)) /\
            forall h, In h (map fst (fold_left (fun m s => put_log (H (content (l_key s))) s m) l m)) <-> In h (map fst m) \/ In h (map (fun s => H (content (l_key s))) l)).
  { induction l as [|s l IH]; intros m N; cbn; [split; [exact N|tauto]|]. destruct (put_log_keys (H (content (l_key s))) s m N) as [N' I].
    destruct (IH _ N') as [N'' I']. split; [exact N''|]. intros h. rewrite I', I. intuition. }
  destruct (Q (pc_logs config) [] (NoDup_nil _)) as [N I].
  rewrite A. cbn [au_pca p_db au_serial au_requester au_logs p_root p_key]. do 3 (split; [reflexivity|]). split; [exact N|]. exists config.
  split; [exact R|]. split; [exact C|]. split; [exact K|]. intros h. unfold log_map. rewrite I. cbn. tauto.
Qed.
(** A certificate that does not belong to the key is refused. *)
Theorem C89_foreign_key H priv der read_key read_cert text config root k :
  read_pca zero_pca text = Some config -> read_cert (content (pc_cert config)) = Some root -> read_key (content (pc_key config)) = Some k ->
  der k <> Some (content (f_key (c_fields root))) -> new_authority H priv der read_key read_cert text = None.
Proof.
  intros R C K D. destruct (new_authority _ _ _ _ _ _) as [a|] eqn:L; [|reflexivity]. exfalso.
  destruct (loads _ _ _ _ _ _ _ L) as (config' & R' & C' & K' & Dk & _). congruence.
Qed.
(** NewPCA sets no requester: with a log in the list nothing is ever issued, and if the request can be signed the process panics. *)
Theorem C89_not_ready zs H priv pub rsa_sign rsa_verify parse_key der read_key read_cert obtain send text a req l1 l2 :
  new_authority H priv der read_key read_cert text = Some a -> l1 <> [] ->
  exists r, issue zs H priv pub rsa_sign rsa_verify parse_key obtain send a req l1 l2 = (a, [], r) /\ (forall c, r <> Ok c) /\
    (forall b c1, can_skip H (enc_json zs) priv pub rsa_verify parse_key (au_pca _ a) req = Ok b ->
       sign_request_as_issuer H (enc_json zs) priv rsa_sign (p_root _ (au_pca _ a)) (p_key _ (au_pca _ a)) req = (c1, true) -> r = Panic).
Proof.
  intros L N. destruct (loads _ _ _ _ _ _ _ L) as (config & _ & _ & _ & _ & A). assert (Q : au_requester _ a = false) by (rewrite A; reflexivity).
  unfold issue. rewrite Q. destruct (can_skip _ _ _ _ _ _ _ _) as [b| |].
  - destruct (sign_request_as_issuer _ _ _ _ _ _ _) as [c1 [|]]; [|exists Err; repeat split; discriminate].
    destruct l1 as [|s l1]; [congruence|]. cbn [ask negb]. exists Panic. repeat split. discriminate.
  - exists Err. repeat split; discriminate.
  - exists Panic. repeat split; discriminate.
Qed.

(** ** The requests of the PCA *)
(** A request it makes has the given values, lies within the period of its certificate and has the next serial number. Times without a monotonic reading,
    as they are in every certificate that was read. *)
Theorem C89_request zs priv a v d nb na ci co key ka sa attr sign h now a' req (root := c_fields (p_root _ (au_pca priv a))) :
  new_request zs priv a v d nb na ci co key ka sa attr sign h now = (a', Some req) -> t_mono (f_not_before root) = None -> t_mono (f_not_after root) = None ->
  (t_ns (f_not_before root) <= t_ns nb)%Z /\ (t_ns na <= t_ns (f_not_after root))%Z /\
  au_pca _ a' = au_pca _ a /\ au_logs _ a' = au_logs _ a /\ au_requester _ a' = au_requester _ a /\ au_serial _ a' = (au_serial _ a + 1)%Z /\
  exists b, to_json (enc_json zs) (cert_of_request (mk_fields None v (au_serial _ a + 1) d nb na ci co key ka sa now attr None h)) = Some b /\
    req = mk_fields None v (au_serial _ a + 1) d nb na ci co key ka sa now attr (sign b) h.
Proof.
  intros E W1 W2. destruct (requested _ _ _ _ _ _ _ _ _ _ _ _ _ _ _ _ _ _ E) as ((A1 & A2 & A3) & _ & R). destruct (R req eq_refl) as (S1 & B1 & B2 & b & J & Q).
  fold root in B1, B2. unfold time_before in B1, B2. rewrite W1 in B1. rewrite W2 in B2.
  assert (B1' : (t_ns nb <? t_ns (f_not_before root))%Z = false) by (destruct (t_mono nb); exact B1). apply Z.ltb_ge in B1', B2.
  split; [exact B1'|]. split; [exact B2|]. split; [exact A1|]. split; [exact A2|]. split; [exact A3|]. split; [exact S1|]. exists b. split; [|exact Q].
  rewrite Q in J. exact J.
Qed.
(** A period outside of the PCA's is refused, without using up a number. *)
Theorem C89_request_refused zs priv a v d nb na ci co key ka sa attr sign h now (root := c_fields (p_root _ (au_pca priv a))) :
  t_mono (f_not_before root) = None -> t_mono (f_not_after root) = None -> (t_ns nb < t_ns (f_not_before root) \/ t_ns (f_not_after root) < t_ns na)%Z ->
  new_request zs priv a v d nb na ci co key ka sa attr sign h now = (a, None).
Proof.
  intros W1 W2 O. unfold new_request. fold root.
  destruct (time_before nb (f_not_before root)) eqn:B1; [reflexivity|]. destruct (time_before (f_not_after root) na) eqn:B2; [reflexivity|]. exfalso.
  unfold time_before in B1, B2. rewrite W1 in B1. rewrite W2 in B2.
  assert (B1' : (t_ns nb <? t_ns (f_not_before root))%Z = false) by (destruct (t_mono nb); exact B1). apply Z.ltb_ge in B1', B2. lia.
Qed.
(** For every history of a PCA: its requests have different numbers, from 1 on if it was loaded. *)
Theorem C89_serial_numbers zs H priv pub rsa_sign rsa_verify parse_key obtain send a0 l a :
  history zs H priv pub rsa_sign rsa_verify parse_key obtain send a0 l a ->
  NoDup (map f_serial l) /\ Forall (fun r => au_serial _ a0 < f_serial r <= au_serial _ a)%Z l.
Proof. intros Q. destruct (serials _ _ _ _ _ _ _ _ _ _ _ _ Q) as (_ & A & B). auto. Qed.

(** ** The domain owner *)
(** A request has the domain, the fresh key, number 0, may neither issue nor own, and ends a microsecond after the second reading of the clock. It is
    signed exactly if there is a certificate for the domain, and then verifies with it. [o] is a map: no domain has two. *)
Theorem C89_owner_request zs H priv pub rsa_sign rsa_verify parse_key der o d v fresh t1 t2 t3 req : NoDup (map fst o) ->
  generate zs H priv rsa_sign der o d v fresh t1 t2 t3 = Some req ->
  f_domain req = d /\ f_version req = v /\ f_serial req = 0%Z /\ f_can_issue req = false /\ f_can_own req = false /\
  f_not_before req = t1 /\ t_ns (f_not_after req) = (t_ns t2 + 1000)%Z /\ f_stamp req = t3 /\ (exists k, fresh = Some k /\ f_key req = der k /\ der k <> None) /\
  (~ In d (map fst o) -> f_owner_sig req = None /\ f_owner_hash req = None) /\
  (forall c ck, In (d, (c, ck)) o -> key_pair priv pub rsa_sign rsa_verify parse_key ck c ->
     verify_owner H (enc_json zs) pub rsa_verify parse_key c req = true /\ f_can_own (c_fields c) = true).
Proof.
  intros ND E. destruct (generated _ _ _ _ _ _ _ _ _ _ _ _ _ E) as (k & key & Fr & D & Se & Ve & Do & Ke & Ci & Co & Nb & Na & St & _ & _ & _ & R).
  do 6 (split; [assumption|]). split; [rewrite Na; reflexivity|]. split; [assumption|]. split; [exists k; rewrite D; repeat split; [exact Fr|exact Ke|discriminate]|].
  split; [intros N; apply root_none in N; rewrite N in R; exact R|]. intros c ck Q K. apply root_in in Q; [|exact ND]. rewrite Q in R. destruct R as [O S]. split; [|exact O].
  exact (owner_verifies_request _ _ _ _ _ _ _ _ _ _ _ S K).
Qed.
(** Renewing is impossible: with a certificate that any PCA issued for a request of a domain owner, every later request for the domain fails. *)
Theorem C89_never_renews zs H priv pub rsa_sign rsa_verify parse_key der obtain send o d v fresh t1 t2 t3 req a l1 l2 a' calls c :
  generate zs H priv rsa_sign der o d v fresh t1 t2 t3 = Some req ->
  issue zs H priv pub rsa_sign rsa_verify parse_key obtain send a req l1 l2 = (a', calls, Ok c) ->
  forall o' d' ck v' fresh' u1 u2 u3, NoDup (map fst o') -> In (d', (c, ck)) o' -> generate zs H priv rsa_sign der o' d' v' fresh' u1 u2 u3 = None.
Proof.
  intros E I o' d' ck v' fresh' u1 u2 u3 ND R. apply root_in in R; [|exact ND]. destruct (generated _ _ _ _ _ _ _ _ _ _ _ _ _ E) as (k & key & _ & _ & _ & _ & _ & _ & _ & Co & _).
  destruct (issued _ _ _ _ _ _ _ _ _ _ _ _ _ _ _ _ I) as (c1 & _ & _ & _ & _ & F & _).
  apply (never_owner _ _ _ _ _ _ _ _ _ _ _ _ _ _ R). rewrite F. exact Co.
Qed.

(** ** The timestamps of the logs *)
(** A timestamp made by SignPolicyCertificateTimestamp verifies for one certificate only: with its issuer signature, and with its timestamps. *)
Theorem C89_timestamp_partial zs H priv pub rsa_sign rsa_verify (G : bytes -> Prop) c v log k now t pk d e b :
  (forall x y, G x -> G y -> H x = H y -> x = y) ->
  (forall (pk : pub) h h' s, rsa_verify pk h s = true -> rsa_verify pk h' s = true -> h = h') ->
  (forall h s, rsa_sign k h = Some s -> rsa_verify pk h s = true) ->
  sign_timestamp zs H priv rsa_sign c v log k now = Some t ->
  cert_int c -> cert_plain zs c -> cert_int d -> cert_plain zs d -> ts_int t -> ts_plain zs t ->
  to_json (enc_json zs) d = Some e -> stamp_text zs (mk_ts None (ts_version t) (ts_log t) (ts_added t) None) e = Some b ->
  rsa_verify pk (H b) (content (ts_sig t)) = true -> G b ->
  (forall e1 b1, to_json (enc_json zs) c = Some e1 -> stamp_text zs (mk_ts None (ts_version t) (ts_log t) (ts_added t) None) e1 = Some b1 -> G b1) ->
  same_cert c d.
Proof. exact (stamp_says _ _ _ _ _ _ _ _ _ _ _ _ _ _ _ _ _). Qed.
Theorem C89_timestamp_verifies zs H priv pub rsa_sign (rsa_verify : pub -> bytes -> bytes -> bool) c v log k now t pk :
  sign_timestamp zs H priv rsa_sign c v log k now = Some t -> (forall h s, rsa_sign k h = Some s -> rsa_verify pk h s = true) ->
  ts_version t = v /\ ts_log t = log /\ ts_added t = now /\
  exists e b, to_json (enc_json zs) c = Some e /\ stamp_text zs (mk_ts None v log now None) e = Some b /\ rsa_verify pk (H b) (content (ts_sig t)) = true.
Proof.
  unfold sign_timestamp. intros E V. destruct (to_json _ c) as [e|]; cbn [obind] in E; [|discriminate].
  destruct (stamp_text zs _ e) as [b|] eqn:B; cbn [obind] in E; [|discriminate]. destruct (rsa_sign k (H b)) as [s|] eqn:S; cbn [obind] in E; [|discriminate].
  injection E as <-. repeat split. exists e, b. cbn. auto.
Qed.
(** With logs that sign so, no timestamp of an issued certificate verifies with it, whether or not its issuer signature and its timestamps are left out:
    each is about the certificate as the log saw it, with the first signature of the PCA, which the second replaced.
    [In (Asked u c1) calls]: c1 is this certificate. *)
Theorem C89_timestamps_lost zs H priv pub rsa_sign rsa_verify parse_key obtain send (G : bytes -> Prop) (key_of : bytes -> priv) (pub_of : bytes -> pub)
    a req l1 l2 a' calls c u c1 i s t d e b :
  (forall x y, G x -> G y -> H x = H y -> x = y) ->
  (forall (pk : pub) h h' s, rsa_verify pk h s = true -> rsa_verify pk h' s = true -> h = h') ->
  (forall k h s, rsa_sign k h = Some s -> s <> []) ->
  key_pair priv pub rsa_sign rsa_verify parse_key (p_key _ (au_pca _ a)) (p_root _ (au_pca _ a)) ->
  (forall u h s, rsa_sign (key_of u) h = Some s -> rsa_verify (pub_of u) h s = true) ->
  (forall n u x t, obtain n u x = Some t -> exists v log now, sign_timestamp zs H priv rsa_sign x v log (key_of u) now = Some t) ->
  issue zs H priv pub rsa_sign rsa_verify parse_key obtain send a req l1 l2 = (a', calls, Ok c) -> In (Asked u c1) calls ->
  (forall x e, c_fields x = c_fields c -> c_issuer_hash x = c_issuer_hash c -> In (c_issuer_sig x) [c_issuer_sig c1; c_issuer_sig c; None] ->
     In (c_spcts x) [[]; c_spcts c] -> to_json (enc_json zs) x = Some e ->
     G e /\ forall t b, In t (c_spcts c) -> stamp_text zs (mk_ts None (ts_version t) (ts_log t) (ts_added t) None) e = Some b -> G b) ->
  cert_int c -> cert_plain zs c ->
  nth_error l1 i = Some s -> nth_error (c_spcts c) i = Some t ->
  c_fields d = c_fields c /\ c_issuer_hash d = c_issuer_hash c /\ (c_issuer_sig d = c_issuer_sig c \/ c_issuer_sig d = None) /\
    (c_spcts d = c_spcts c \/ c_spcts d = []) ->
  to_json (enc_json zs) d = Some e -> stamp_text zs (mk_ts None (ts_version t) (ts_log t) (ts_added t) None) e = Some b ->
  rsa_verify (pub_of (l_url s)) (H b) (content (ts_sig t)) = false.
Proof. exact (stamps_lost zs H priv pub rsa_sign rsa_verify parse_key obtain send G key_of pub_of a req l1 l2 a' calls c u c1 i s t d e b). Qed.

(** ** Examples: the digest is the text, a key is its own DER form, a signature is key and digest; two logs with the keys k1 and k2. *)
Definition is_sign (k h : bytes) : option bytes := Some (x01 :: k ++ h).
Definition is_verify (pk h s : bytes) : bool := beqb s (x01 :: pk ++ h).
Definition is_wall (secs : Z) : time := mk_time (secs * giga) None 0.
Definition is_root : cert :=
  mk_cert (mk_fields None 1 1 (b_ "pca") (is_wall 1600000000) (is_wall 1900000000) true false (Some (b_ "k0")) 0 0 (is_wall 1600000000) (mk_attr [] [] [] []) None None) None None [].
Definition is_log (n u k : string) : log_conf := mk_log (b_ n) (b_ u) (Some (b_ k)).
Definition is_conf : pca_conf := ConfModel.mk_pca (b_ "pca") [is_log "one" "u1" "k1"; is_log "two" "u2" "k2"] (Some (b_ "k0")) (Some (b_ "cert")).
Definition is_read_cert (b : bytes) : option cert := if beqb b (b_ "cert") then Some is_root else None.
Definition is_a0 : authority bytes := mk_authority _ (PolicyModel.mk_pca _ is_root (b_ "k0") []) [(b_ "k1", is_log "one" "u1" "k1"); (b_ "k2", is_log "two" "u2" "k2")] false 0.
Definition is_a : authority bytes := with_requester _ is_a0.
Definition is_key (u : bytes) : bytes := x6b :: skipn 1 u.
Definition is_obtain (n : nat) (u : bytes) (c : cert) : option timestamp :=
  sign_timestamp ex_zones ex_hash bytes is_sign c 0 (Some (is_key u)) (is_key u) (is_wall 1700000000).
Definition is_send (_ : nat) (_ : bytes) (_ : cert) : bool := true.
Local Notation is_issue := (issue ex_zones ex_hash bytes bytes is_sign is_verify Some).
Definition is_logs : list log_conf := pc_logs is_conf.
Definition is_gen (o : roots bytes) (d : bytes) := generate ex_zones ex_hash bytes is_sign Some o d 1 (Some (b_ "fresh")) (is_wall 1700000000) (is_wall 1700000000) (is_wall 1700000000).
Definition is_req : fields := match is_gen [] (b_ "a.com") with Some r => r | None => ex_doc [] (is_wall 0) end.
Definition is_done := is_issue is_obtain is_send is_a is_req is_logs (rev is_logs).
Definition is_cert : cert := match is_done with (_, _, Ok c) => c | _ => is_root end.
Definition is_first : cert := match is_done with (_, Asked _ c :: _, _) => c | _ => is_root end.
Example C89_example :
  new_authority ex_hash bytes Some Some is_read_cert (write_pca is_conf) = Some is_a0 /\ NoDup (map (fun s => ex_hash (content (l_key s))) (pc_logs is_conf)) /\
  read_pca zero_pca (write_pca is_conf) = Some is_conf /\
  (forall k d, Some k = Some d -> exists pk : bytes, Some d = Some pk /\ forall h s, is_sign k h = Some s -> is_verify pk h s = true) /\
  Permutation (rev is_logs) (map snd (au_logs _ is_a)) /\
  is_gen [] (b_ "a.com") = Some is_req /\ snd is_done = Ok is_cert /\
  snd (fst is_done) = [Asked (b_ "u1") is_first; Asked (b_ "u2") is_first; Registered (b_ "u2") is_cert; Registered (b_ "u1") is_cert] /\
  List.length (c_spcts is_cert) = 2 /\ c_spcts is_first = [] /\
  is_gen [(b_ "a.com", (is_cert, b_ "fresh"))] (b_ "a.com") = None /\ is_gen [(b_ "a.com", (is_cert, b_ "fresh"))] (b_ "b.com") <> None.
Proof.
  split; [vm_compute; reflexivity|]. split; [vm_compute; repeat constructor; cbn; intuition discriminate|]. split; [vm_compute; reflexivity|].
  split; [intros k d [= <-]; exists k; split; [reflexivity|]; intros h s [= <-]; apply beqb_refl|].
  split; [exact (perm_swap (is_log "one" "u1" "k1") (is_log "two" "u2" "k2") [])|].
  split; [vm_compute; reflexivity|]. split; [vm_compute; reflexivity|]. split; [vm_compute; reflexivity|]. split; [vm_compute; reflexivity|].
  split; [vm_compute; reflexivity|]. split; [vm_compute; reflexivity|]. vm_compute. discriminate.
Qed.
(** All conditions of C89_timestamps_lost, with every text in G since the digest is the text. *)
Example C89_timestamps_example :
  (forall x y : bytes, True -> True -> ex_hash x = ex_hash y -> x = y) /\
  (forall pk h h' s, is_verify pk h s = true -> is_verify pk h' s = true -> h = h') /\ (forall k h s, is_sign k h = Some s -> s <> []) /\
  key_pair bytes bytes is_sign is_verify Some (p_key _ (au_pca _ is_a)) (p_root _ (au_pca _ is_a)) /\
  (forall u h s, is_sign (is_key u) h = Some s -> is_verify (is_key u) h s = true) /\
  (forall n u x t, is_obtain n u x = Some t -> exists v log now, sign_timestamp ex_zones ex_hash bytes is_sign x v log (is_key u) now = Some t) /\
  In (Asked (b_ "u1") is_first) (snd (fst is_done)) /\ cert_int is_cert /\ cert_plain ex_zones is_cert /\
  match nth_error (c_spcts is_cert) 0, to_json (enc_json ex_zones) is_first with
  | Some t, Some e => match stamp_text ex_zones (mk_ts None (ts_version t) (ts_log t) (ts_added t) None) e with
                      | Some b => is_verify (b_ "k1") (ex_hash b) (content (ts_sig t)) | None => false end
  | _, _ => false
  end = true.
Proof.
  assert (A : forall k h s, is_sign k h = Some s -> is_verify k h s = true) by (intros k h s [= <-]; apply beqb_refl).
  assert (F : c_fields is_cert = mk_fields None 1 0 (b_ "a.com") (is_wall 1700000000) (later (is_wall 1700000000) microsecond) false false (Some (b_ "fresh")) alg_rsa alg_sha256
                (is_wall 1700000000) (mk_attr [] [] [] []) None None) by (vm_compute; reflexivity).
  assert (T : map (fun t => (ts_version t, ts_added t)) (c_spcts is_cert) = [(0%Z, is_wall 1700000000); (0%Z, is_wall 1700000000)]) by (vm_compute; reflexivity).
  assert (S : forall t, In t (c_spcts is_cert) -> ts_version t = 0%Z /\ ts_added t = is_wall 1700000000).
  { intros t I. apply (in_map (fun t => (ts_version t, ts_added t))) in I. rewrite T in I. destruct I as [I|[I|[]]]; injection I as Q1 Q2; auto. }
  split; [intros x y _ _ E; exact E|].
  split; [unfold is_verify; intros pk h h' s E1 E2; apply beqb_eq in E1, E2; rewrite E1 in E2; injection E2 as E2; now apply app_inv_head in E2|].
  split; [intros k h s [= <-]; discriminate|]. split; [exists (b_ "k0"); split; [reflexivity|apply A]|]. split; [intros u h s; apply A|].
  split; [unfold is_obtain; intros n u x t E; exists 0%Z, (Some (is_key u)), (is_wall 1700000000); exact E|]. split; [vm_compute; left; reflexivity|].
  split; [split; [rewrite F; repeat split|apply Forall_forall; intros t I; unfold ts_int; rewrite (proj1 (S t I)); reflexivity]|].
  split; [split; [rewrite F; split; [apply JsonTextProofs.ascii_valid; reflexivity|]; repeat split; constructor|]|].
  { apply Forall_forall. intros t I. unfold ts_plain. rewrite (proj2 (S t I)). reflexivity. }
  vm_compute. reflexivity.
Qed.

(** ** What is false *)
(** Two certificates of one PCA, for different domains, with the same serial number. *)
Theorem C89_serial_refuted : exists zs H priv pub rsa_sign rsa_verify parse_key der obtain send a v fresh t1 t2 t3 r1 r2 l a1 a2 calls1 calls2 c1 c2,
  generate zs H priv rsa_sign der [] (b_ "a.com") v fresh t1 t2 t3 = Some r1 /\ generate zs H priv rsa_sign der [] (b_ "b.com") v fresh t1 t2 t3 = Some r2 /\
  issue zs H priv pub rsa_sign rsa_verify parse_key obtain send a r1 l l = (a1, calls1, Ok c1) /\
  issue zs H priv pub rsa_sign rsa_verify parse_key obtain send a1 r2 l l = (a2, calls2, Ok c2) /\
  f_domain (c_fields c1) <> f_domain (c_fields c2) /\ f_serial (c_fields c1) = f_serial (c_fields c2).
Proof.
  pose (X1 := is_issue is_obtain is_send is_a is_req is_logs is_logs).
  pose (r2 := match is_gen [] (b_ "b.com") with Some r => r | None => is_req end).
  pose (X2 := is_issue is_obtain is_send (fst (fst X1)) r2 is_logs is_logs).
  exists ex_zones, ex_hash, bytes, bytes, is_sign, is_verify, Some, Some, is_obtain, is_send, is_a, 1%Z, (Some (b_ "fresh")), (is_wall 1700000000), (is_wall 1700000000),
    (is_wall 1700000000), is_req, r2, is_logs, (fst (fst X1)), (fst (fst X2)), (snd (fst X1)), (snd (fst X2)),
    (match snd X1 with Ok c => c | _ => is_root end), (match snd X2 with Ok c => c | _ => is_root end).
  split; [vm_compute; reflexivity|]. split; [vm_compute; reflexivity|]. split; [vm_compute; reflexivity|]. split; [vm_compute; reflexivity|].
  split; [vm_compute; discriminate|vm_compute; reflexivity].
Qed.
(** SignAndLogRequest checks nothing of an unsigned request: the certificate may issue, is valid longer than that of the PCA and breaks the constraints that
    VerifyIssuerConstraints checks. *)
Definition is_greedy : fields :=
  mk_fields None 1 7 (b_ "com") (is_wall 0) (is_wall 2500000000) true true (Some (b_ "fresh")) 0 0 (is_wall 0) (mk_attr [] [] [] []) None None.
Theorem C89_constraints_refuted : exists zs H priv pub rsa_sign rsa_verify parse_key obtain send a req l a' calls c,
  issue zs H priv pub rsa_sign rsa_verify parse_key obtain send a req l l = (a', calls, Ok c) /\ l = map snd (au_logs _ a) /\ 1 < List.length l /\
  f_owner_sig req = None /\ f_can_issue (c_fields c) = true /\ f_can_own (c_fields c) = true /\
  (t_ns (f_not_after (c_fields (p_root _ (au_pca _ a)))) < t_ns (f_not_after (c_fields c)))%Z /\
  (t_ns (f_not_before (c_fields c)) < t_ns (f_not_before (c_fields (p_root _ (au_pca _ a)))))%Z /\
  verify_constraints (p_root _ (au_pca _ a)) c = false.
Proof.
  pose (X1 := is_issue is_obtain is_send is_a is_greedy is_logs is_logs).
  exists ex_zones, ex_hash, bytes, bytes, is_sign, is_verify, Some, is_obtain, is_send, is_a, is_greedy, is_logs, (fst (fst X1)), (snd (fst X1)),
    (match snd X1 with Ok c => c | _ => is_root end).
  split; [vm_compute; reflexivity|]. split; [reflexivity|]. split; [cbn; lia|]. split; [reflexivity|]. split; [vm_compute; reflexivity|].
  split; [vm_compute; reflexivity|]. split; [vm_compute; reflexivity|]. split; [vm_compute; reflexivity|]. vm_compute. reflexivity.
Qed.
(** The second log fails: an error is returned and nothing is stored, but the first log has the certificate with all signatures. *)
Definition is_send_once (n : nat) (_ : bytes) (_ : cert) : bool := Nat.eqb n 2.
Theorem C89_registered_refuted : exists zs H priv pub rsa_sign rsa_verify parse_key obtain send a req l a' calls u c,
  issue zs H priv pub rsa_sign rsa_verify parse_key obtain send a req l l = (a', calls, Err) /\ a' = a /\ In (Registered u c) calls /\
  send 2 u c = true /\ verify_issuer H (enc_json zs) pub rsa_verify parse_key (p_root _ (au_pca _ a)) c = (c, true) /\ List.length (c_spcts c) = List.length l.
Proof.
  pose (X1 := is_issue is_obtain is_send_once is_a is_req is_logs is_logs).
  pose (c := match snd (fst X1) with [_; _; Registered _ c; _] => c | _ => is_root end).
  exists ex_zones, ex_hash, bytes, bytes, is_sign, is_verify, Some, is_obtain, is_send_once, is_a, is_req, is_logs, is_a, (snd (fst X1)), (b_ "u1"), c.
  split; [vm_compute; reflexivity|]. split; [reflexivity|]. split; [vm_compute; right; right; left; reflexivity|]. split; [reflexivity|].
  split; [vm_compute; reflexivity|vm_compute; reflexivity].
Qed.
(** Two servers with one key in the configuration, as in the test configuration of the repository: only the last is asked. *)
Definition is_twins : pca_conf := ConfModel.mk_pca (b_ "pca") [is_log "one" "u1" "k1"; is_log "two" "u2" "k1"] (Some (b_ "k0")) (Some (b_ "cert")).
Theorem C89_servers_refuted : exists H priv der read_key read_cert config a,
  new_authority H priv der read_key read_cert (write_pca config) = Some a /\ read_pca zero_pca (write_pca config) = Some config /\
  map l_url (pc_logs config) = [b_ "u1"; b_ "u2"] /\ map (fun e => l_url (snd e)) (au_logs _ a) = [b_ "u2"].
Proof.
  exists ex_hash, bytes, Some, Some, is_read_cert, is_twins, (mk_authority _ (PolicyModel.mk_pca _ is_root (b_ "k0") []) [(b_ "k1", is_log "two" "u2" "k1")] false 0%Z).
  split; [vm_compute; reflexivity|]. split; [vm_compute; reflexivity|]. split; vm_compute; reflexivity.
Qed.
(** The renewal of C89_never_renews, with values. *)
Theorem C89_renewal_refuted : exists zs H priv pub rsa_sign rsa_verify parse_key der obtain send a v k t req l a' calls c,
  generate zs H priv rsa_sign der [] (b_ "a.com") v (Some k) t t t = Some req /\
  issue zs H priv pub rsa_sign rsa_verify parse_key obtain send a req l l = (a', calls, Ok c) /\
  generate zs H priv rsa_sign der [(b_ "a.com", (c, k))] (b_ "a.com") v (Some k) t t t = None.
Proof.
  pose (X1 := is_issue is_obtain is_send is_a is_req is_logs is_logs).
  exists ex_zones, ex_hash, bytes, bytes, is_sign, is_verify, Some, Some, is_obtain, is_send, is_a, 1%Z, (b_ "fresh"), (is_wall 1700000000),
    is_req, is_logs, (fst (fst X1)), (snd (fst X1)), (match snd X1 with Ok c => c | _ => is_root end).
  split; [vm_compute; reflexivity|]. split; vm_compute; reflexivity.
Qed.
(** A request of the PCA, and a history with a certificate for it. *)
Definition is_new := new_request ex_zones bytes is_a 1 (b_ "a.com") (is_wall 1700000000) (is_wall 1800000000) false true (Some (b_ "k3")) 0 0 (mk_attr [] [] [] []).
Definition is_request : authority bytes * option fields := is_new (fun b => is_sign (b_ "ko") b) (Some (b_ "hash")) (is_wall 1700000000).
Example C89_request_example :
  exists a' req a'' c, is_request = (a', Some req) /\ au_serial _ a' = 1%Z /\ f_serial req = 1%Z /\
    snd (is_issue is_obtain is_send a' (set_owner req None None) is_logs is_logs) = Ok c /\ a'' = fst (fst (is_issue is_obtain is_send a' (set_owner req None None) is_logs is_logs)) /\
    history ex_zones ex_hash bytes bytes is_sign is_verify Some is_obtain is_send is_a [req] a''.
Proof.
  pose (r := match snd is_request with Some r => r | None => is_req end). pose (X := is_issue is_obtain is_send (fst is_request) (set_owner r None None) is_logs is_logs).
  assert (Q : is_request = (fst is_request, Some r)) by (vm_compute; reflexivity).
  exists (fst is_request), r, (fst (fst X)), (match snd X with Ok c => c | _ => is_root end).
  split; [exact Q|]. split; [vm_compute; reflexivity|]. split; [vm_compute; reflexivity|]. split; [vm_compute; reflexivity|]. split; [reflexivity|].
  assert (E : forall a0 l a req l1 l2, history ex_zones ex_hash bytes bytes is_sign is_verify Some is_obtain is_send a0 l a ->
            history ex_zones ex_hash bytes bytes is_sign is_verify Some is_obtain is_send a0 l (fst (fst (is_issue is_obtain is_send a req l1 l2)))).
  { intros a0 l a req l1 l2 Y. destruct (is_issue is_obtain is_send a req l1 l2) as [[y z] w] eqn:Z. exact (h_issue _ _ _ _ _ _ _ _ _ _ _ _ _ _ _ _ _ _ Y Z). }
  apply E. eapply h_request; [apply h_new|exact Q].
Qed.
Print Assumptions C89_issued_partial.
Print Assumptions C89_owner_signature.
Print Assumptions C89_all_logs_partial.
Print Assumptions C89_no_certificate.
Print Assumptions C89_calls.
Print Assumptions C89_database.
Print Assumptions C89_loaded.
Print Assumptions C89_foreign_key.
Print Assumptions C89_not_ready.
Print Assumptions C89_request.
Print Assumptions C89_request_refused.
Print Assumptions C89_serial_numbers.
Print Assumptions C89_owner_request.
Print Assumptions C89_never_renews.
Print Assumptions C89_timestamp_partial.
Print Assumptions C89_timestamp_verifies.
Print Assumptions C89_timestamps_lost.
Print Assumptions C89_example.
Print Assumptions C89_timestamps_example.
Print Assumptions C89_serial_refuted.
Print Assumptions C89_constraints_refuted.
Print Assumptions C89_registered_refuted.
Print Assumptions C89_servers_refuted.
Print Assumptions C89_renewal_refuted.
Print Assumptions C89_request_example.
