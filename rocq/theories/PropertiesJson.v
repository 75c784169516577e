(** C72: the JSON text of policy objects, in both directions. *)
From Coq Require Import Strings.String.
From Verif Require Import Base BaseLemmas UtilModel DbModel LoadModel PolicyModel PolicyProofs JsonText JsonTextProofs JsonModel JsonProofs JsonRead JsonEvery JsonGrammar JsonStable JsonUse.
Local Open Scope list_scope.
Local Notation b_ s := (list_byte_of_string s%string).

(** Full statement: for every policy object, FromJSON of the text that ToJSON gives is the same object, with the text as its Raw, and its text is the
    same again; an object read from any text keeps that text; no text makes the reader fail in another way than with an error.
    False for strings that are not UTF-8, for times at an offset with seconds, for pointers to pointers; nil pointers panic. Proved for all others.
    [object_ok]: integers of 64 bits, no nil and no pointer to a pointer. [object_plain]: strings in UTF-8, offsets of whole minutes. [zones_law]: the
    locations that reading chooses have the offset read. [same_object]: the same values in all fields; JSONField, the location of times, and nil
    or empty slices may differ. *)
Theorem C72_round_trip_partial zs skip o text : object_ok o -> object_plain zs o -> to_text zs o = Ok text ->
  exists d, from_text zs skip text = Some (Ok d) /\ same_object o d /\ (zones_law zs -> to_text zs d = Ok text).
Proof. exact (object_back zs skip o text). Qed.
(** Without the condition on strings and offsets: what is read is the object with each byte that is not UTF-8 replaced and each offset cut to minutes. *)
Theorem C72_what_is_read zs skip o text : object_ok o -> to_text zs o = Ok text -> from_text zs skip text = Some (Ok (normal zs skip o)).
Proof. exact (round_trip zs skip o text). Qed.
(** A certificate, also through a file; its Raw is the text. *)
Theorem C72_certificate_partial zs c text : cert_int c -> cert_plain zs c -> to_text zs (OPtr (Some (OCert c))) = Ok text ->
  exists d, from_text zs false text = Some (Ok (OPtr (Some (OCert d)))) /\ file_cert zs text = Some (Ok d) /\ same_cert c d /\ cert_wall d /\
    f_raw (c_fields d) = Some text /\ (zones_law zs -> to_text zs (OPtr (Some (OCert d))) = Ok text).
Proof. exact (certificate_back zs c text). Qed.
(** Every text: an object or an error, no panic, and no text is too long for the model. *)
Theorem C72_every_text zs skip text : exists r, from_text zs skip text = Some r /\ r <> Panic.
Proof. exact (from_total zs skip text). Qed.
(** The texts are those of the grammar of RFC 8259 ([is_text], which also gives the value of a text): the reader reads each of them as its value, and no
    other text. What ToJSON writes is an object of this grammar, and only objects of this grammar are read. *)
Theorem C72_grammar text v : parse text = Some v <-> is_text text v.
Proof. exact (parse_iff text v). Qed.
Theorem C72_only_json zs skip text o : from_text zs skip text = Some (Ok o) -> exists l, is_text text (JObj l).
Proof.
  unfold from_text. cbn [from_text_upto]. unfold raw_members. destruct (parse text) as [[]|] eqn:P; try discriminate. intros _. exists l. apply parse_iff, P.
Qed.
Theorem C72_writes_json zs o text : object_ok o -> to_text zs o = Ok text -> exists l, is_text text (JObj l).
Proof. intros K E. apply (C72_only_json zs false text (normal zs false o)). exact (round_trip zs false o text K E). Qed.
Example C72_grammar_example : is_text (b_ " { ""a"" :[ 0,-1.5e+3 ],""é"":null} ") (JObj [(b_ "a", JArr [JNum (b_ "0"); JNum (b_ "-1.5e+3")]); (b_ "é", JNull)]) /\
  (forall v, ~ is_text (b_ "[01]") v) /\ (forall v, ~ is_text (b_ "[1,]") v) /\ (forall v, ~ is_text (b_ "{a:1}") v) /\ forall v, ~ is_text (b_ "+1") v.
Proof. split; [apply parse_iff; vm_compute; reflexivity|]. repeat split; intros v H; apply parse_iff in H; vm_compute in H; discriminate H. Qed.
(** White space around a text has no effect at all. *)
Theorem C72_white_space zs skip text : from_text zs skip (trim text) = from_text zs skip text.
Proof. exact (from_trim zs skip text). Qed.
Theorem C72_trim text : exists p q, text = p ++ trim text ++ q /\ forallb json_space p = true /\ forallb json_space q = true.
Proof. exact (trim_split text). Qed.
(** A document read from any text, ours or not, keeps the text, and the text it keeps reads as this document. *)
Theorem C72_keeps_text zs text d x : from_text zs false text = Some (Ok (OPtr (Some d))) -> document d -> raw_of zs d = Ok x ->
  x = trim text /\ from_text zs false x = Some (Ok (OPtr (Some d))).
Proof. exact (from_raw zs text d x). Qed.
(** What is read from any text can be written; this text is read as the same object and never changes again. *)
Theorem C72_settles zs skip text o : zones_law zs -> from_text zs skip text = Some (Ok o) ->
  exists x d, to_text zs o = Ok x /\ from_text zs skip x = Some (Ok d) /\ same_object o d /\ to_text zs d = Ok x.
Proof.
  intros L E. pose proof (upto_good zs L _ skip text o E) as (A & B & x & X). destruct (object_back zs skip o x A B X) as (d & D & S & T). exists x, d. auto.
Qed.
(** One text, one object: also the type of the object is told by its text. *)
Theorem C72_one_text_one_object_partial zs o1 o2 text : object_ok o1 -> object_ok o2 -> object_plain zs o1 -> object_plain zs o2 ->
  to_text zs o1 = Ok text -> to_text zs o2 = Ok text -> same_object o1 o2.
Proof. exact (object_text zs o1 o2 text). Qed.
(** With C51: two certificates that verify with the same owner signature have the same values in everything that is signed. *)
Theorem C72_signature_partial zs H pub rsa_verify parse_key (G : bytes -> Prop) owner c c' :
  (forall x y, G x -> G y -> H x = H y -> x = y) ->
  (forall (pk : pub) h h' s, rsa_verify pk h s = true -> rsa_verify pk h' s = true -> h = h') ->
  (forall b, to_json (enc_json zs) (strip_for_owner c) = Some b -> G b) -> (forall b, to_json (enc_json zs) (strip_for_owner c') = Some b -> G b) ->
  cert_int c -> cert_int c' -> cert_plain zs c -> cert_plain zs c' ->
  snd (verify_owner_cert H (enc_json zs) pub rsa_verify parse_key owner c) = true ->
  snd (verify_owner_cert H (enc_json zs) pub rsa_verify parse_key owner c') = true ->
  content (f_owner_sig (c_fields c)) = content (f_owner_sig (c_fields c')) -> same_fields (c_fields c) (c_fields c').
Proof.
  intros Hc Hu Hg Hg' [K1 _] [K2 _] [P1 _] [P2 _] V1 V2 E. destruct (signature_binds H (enc_json zs) pub rsa_verify parse_key G owner c c' Hc Hu Hg Hg' V1 V2 E) as (b & B1 & B2).
  assert (S : same_cert (strip_for_owner c) (strip_for_owner c')).
  { apply (text_says zs _ _ b); try assumption; (split; [assumption|constructor]). }
  destruct S as [F _]. unfold same_fields in *. cbn in F. tauto.
Qed.
(** A signature that verifies does so after any of the two certificates went through a text, and one that does not still does not. *)
Theorem C72_decoded_signatures_partial zs H pub rsa_verify parse_key owner owner' c c' : zones_law zs ->
  cert_int owner -> cert_int c -> cert_plain zs owner -> cert_plain zs c -> reads_as zs owner owner' -> reads_as zs c c' ->
  snd (verify_owner_cert H (enc_json zs) pub rsa_verify parse_key owner' c') = snd (verify_owner_cert H (enc_json zs) pub rsa_verify parse_key owner c) /\
  snd (verify_issuer H (enc_json zs) pub rsa_verify parse_key owner' c') = snd (verify_issuer H (enc_json zs) pub rsa_verify parse_key owner c).
Proof.
  intros L K1 K2 P1 P2 R1 R2. split; [exact (owner_read zs L H pub rsa_verify parse_key owner owner' c c' K1 K2 P1 P2 R1 R2)|].
  exact (issuer_read zs L H pub rsa_verify parse_key owner owner' c c' K1 K2 P1 P2 R1 R2).
Qed.
(** ** Examples. Location 0 is UTC, 1 is 34 minutes and 8 seconds east (Zurich before 1894 has this offset), the others have whole minutes. *)
Definition minutes_code (z : Z) : nat := Z.to_nat (if Z.ltb z 0 then 2 * - z - 1 else 2 * z)%Z.
Definition minutes_of (n : nat) : Z := let z := Z.of_nat n in if Z.odd z then (- ((z + 1) / 2))%Z else (z / 2)%Z.
Definition ex_zones : zones :=
  mk_zones (fun l _ => match l with O => 0%Z | S O => 2048%Z | S (S n) => (60 * minutes_of n)%Z end) O (fun off _ => S (S (minutes_code (off / 60)))).
Lemma ex_zones_law : zones_law ex_zones.
Proof.
  split; [reflexivity|]. intros off ns M. cbn [zone with_offset ex_zones]. unfold minutes_of, minutes_code. set (m := (off / 60)%Z).
  assert (E : off = (60 * m)%Z) by (unfold m; Z.to_euclidean_division_equations; lia). rewrite E. f_equal. destruct (Z.ltb_spec m 0).
  - rewrite Z2Nat.id by lia. replace (2 * - m - 1)%Z with (1 + 2 * (- m - 1))%Z by lia. rewrite Z.odd_add_mul_2. cbn [Z.odd]. Z.to_euclidean_division_equations; lia.
  - rewrite Z2Nat.id by lia. replace (2 * m)%Z with (0 + 2 * m)%Z by lia. rewrite Z.odd_add_mul_2. cbn [Z.odd]. Z.to_euclidean_division_equations; lia.
Qed.
Definition ex_at (secs : Z) (loc : nat) : time := mk_time (secs * giga + 500000000) (Some 7%Z) loc.
Definition ex_doc (domain : bytes) (t : time) : fields :=
  mk_fields None 1 (-42) domain t (ex_at 1800000000 122) true false (Some [x01; xff; x80]) 1 0 (ex_at 1600000000 0)
    (mk_attr [b_ "CA <1>"] [b_ "www"] [] [b_ "*"]) None (Some []).
(** One hour east is location 122, half an hour west is 61. *)
Definition ex_pc : cert := mk_cert (ex_doc (b_ "a.com") (ex_at 1700000000 122)) (Some [x61]) None [mk_ts None 0 (Some [x05]) (ex_at 0 61) None].
Definition ex_text : bytes := b_ "{""T"":""*pc"",""O"":{""Version"":1,""SerialNumber"":-42,""Domain"":""a.com"",""NotBefore"":""2023-11-14T23:13:20.5+01:00"",""NotAfter"":""2027-01-15T09:00:00.5+01:00"",""CanIssue"":true,""PublicKey"":""Af+A"",""PublicKeyAlgorithm"":1,""TimeStamp"":""2020-09-13T12:26:40.5Z"",""PolicyAttributes"":{""AllowedCAs"":[""CA \u003c1\u003e""],""AllowedSubdomains"":[""www""],""ExcludedSubdomains"":[""*""]},""IssuerSignature"":""YQ=="",""SPCTs"":[{""LogID"":""BQ=="",""AddedTS"":""1969-12-31T23:30:00.5-00:30""}]}}".
Example C72_example : cert_int ex_pc /\ cert_plain ex_zones ex_pc /\ object_ok (OPtr (Some (OCert ex_pc))) /\ object_plain ex_zones (OPtr (Some (OCert ex_pc))) /\
  zones_law ex_zones /\ to_text ex_zones (OPtr (Some (OCert ex_pc))) = Ok ex_text.
Proof.
  assert (A : cert_int ex_pc) by (split; [repeat split|repeat constructor]).
  assert (B : cert_plain ex_zones ex_pc) by (split; [|repeat constructor]; repeat split; try (repeat constructor); apply ascii_valid; reflexivity).
  split; [exact A|]. split; [exact B|]. split; [exact A|]. split; [exact B|]. split; [exact ex_zones_law|]. vm_compute. reflexivity.
Qed.
(** A slice, with a slice and a pointer in it. *)
Example C72_slice_example :
  let o := OSlice [OPtr (Some (ORevReq (Some [x01]))); OSlice []; OSpct (mk_ts None 3 None (ex_at 0 0) None)] in
  object_ok o /\ object_plain ex_zones o /\ to_text ex_zones o =
    Ok (b_ "{""T"":""[]"",""O"":[{""T"":""*pcrevsr"",""O"":{""PolicyCertificateHash"":""AQ==""}},{""T"":""[]"",""O"":[]},{""T"":""spct"",""O"":{""Version"":3,""AddedTS"":""1970-01-01T00:00:00.5Z""}}]}").
Proof. cbv zeta. split; [repeat split|]. split; [repeat split|]. vm_compute. reflexivity. Qed.
(** A text that is not ours: space, the members in another order and in other letters, an unknown member. *)
Example C72_other_text_example : let text := b_ " { ""o"" : {""version"": 2, ""x"":[null]} , ""t"":""*spct"" } " in
  exists d, from_text ex_zones false text = Some (Ok (OPtr (Some d))) /\ document d /\ raw_of ex_zones d = Ok (trim text) /\
    to_text ex_zones (OPtr (Some d)) = Ok (b_ "{""T"":""*spct"",""O"":{""Version"":2,""AddedTS"":""0001-01-01T00:00:00Z""}}").
Proof. cbv zeta. eexists. split; [vm_compute; reflexivity|]. split; [exact I|]. split; vm_compute; reflexivity. Qed.
(** Toy instances for the signatures: the digest is the text, a signature is key and digest. *)
Definition ex_sign (k h : bytes) : option bytes := Some (k ++ h).
Definition ex_verify (pk h s : bytes) : bool := beqb s (pk ++ h).
Definition ex_parse (b : bytes) : option bytes := Some b.
Definition ex_hash (b : bytes) : bytes := b.
Definition ex_owner : cert := mk_cert (with_f_can_own true (ex_doc (b_ "a.com") (ex_at 1700000000 122))) None None [].
Definition ex_signed (domain : bytes) (t : time) : cert :=
  cert_of_request (fst (sign_as_owner ex_hash (enc_json ex_zones) bytes ex_sign ex_owner [x01; xff; x80] (with_f_owner_hash None (ex_doc domain t)))).
Definition ex_verifies (c : cert) : bool := snd (verify_owner_cert ex_hash (enc_json ex_zones) bytes ex_verify ex_parse ex_owner c).
Example C72_signature_example : let c := ex_signed (b_ "b.com") (ex_at 1650000000 0) in
  cert_int c /\ cert_plain ex_zones c /\ cert_int ex_owner /\ cert_plain ex_zones ex_owner /\ ex_verifies c = true /\
  (exists d, reads_as ex_zones c d) /\ (forall (pk h h' s : bytes), ex_verify pk h s = true -> ex_verify pk h' s = true -> h = h').
Proof.
  assert (P : forall l t, forallb ascii l = true -> whole_minutes ex_zones t -> fields_plain ex_zones (ex_doc l t)).
  { intros l t A W. repeat split; try assumption; try (repeat constructor); try (apply ascii_valid; reflexivity). now apply ascii_valid. }
  cbv zeta. split; [split; [vm_compute; auto|constructor]|]. split; [split; [exact (P (b_ "b.com") (ex_at 1650000000 0) eq_refl eq_refl)|constructor]|].
  split; [split; [vm_compute; auto|constructor]|]. split; [split; [exact (P (b_ "a.com") (ex_at 1700000000 122) eq_refl eq_refl)|constructor]|].
  split; [vm_compute; reflexivity|]. split.
  - eexists. eexists. split; [vm_compute; reflexivity|vm_compute; reflexivity].
  - unfold ex_verify. intros pk h h' s H1 H2. apply beqb_eq in H1, H2. rewrite H1 in H2. now apply app_inv_head in H2.
Qed.

(** ** What is false *)
(** Two requests for different domains with one text, neither read back as what was written, and the text changes with the second writing. *)
Theorem C72_not_utf8_refuted : exists zs f g text f' text', zones_law zs /\ object_ok (OReq f) /\ object_ok (OReq g) /\ f_domain f <> f_domain g /\
  to_text zs (OReq f) = Ok text /\ to_text zs (OReq g) = Ok text /\ from_text zs false text = Some (Ok (OReq f')) /\
  f_domain f' <> f_domain f /\ f_domain f' <> f_domain g /\ to_text zs (OReq f') = Ok text' /\ text' <> text.
Proof.
  exists ex_zones, (ex_doc [x61; xff] (ex_at 0 0)), (ex_doc [x61; xfe] (ex_at 0 0)). eexists. eexists. eexists. split; [exact ex_zones_law|].
  split; [repeat split|]. split; [repeat split|]. split; [discriminate|]. split; [vm_compute; reflexivity|]. split; [vm_compute; reflexivity|].
  split; [vm_compute; reflexivity|]. split; [vm_compute; discriminate|]. split; [vm_compute; discriminate|]. split; [vm_compute; reflexivity|]. vm_compute. discriminate.
Qed.
(** A certificate whose owner signature verifies, and no longer does after it was written and read. *)
Theorem C72_not_utf8_signature_refuted : exists zs H priv pub rsa_sign rsa_verify parse_key owner k c d, zones_law zs /\
  key_pair priv pub rsa_sign rsa_verify parse_key k owner /\ (exists req, sign_as_owner H (enc_json zs) priv rsa_sign owner k req = (c_fields c, true)) /\
  snd (verify_owner_cert H (enc_json zs) pub rsa_verify parse_key owner c) = true /\ reads_as zs c d /\
  snd (verify_owner_cert H (enc_json zs) pub rsa_verify parse_key owner d) = false.
Proof.
  exists ex_zones, ex_hash, bytes, bytes, ex_sign, ex_verify, ex_parse, ex_owner, [x01; xff; x80], (ex_signed [x61; xff] (ex_at 0 0)). eexists.
  split; [exact ex_zones_law|].
  split; [exists [x01; xff; x80]; split; [reflexivity|]; intros h s [= <-]; apply beqb_refl|].
  split; [exists (with_f_owner_hash None (ex_doc [x61; xff] (ex_at 0 0))); vm_compute; reflexivity|]. split; [vm_compute; reflexivity|].
  split; [eexists; split; [vm_compute; reflexivity|vm_compute; reflexivity]|]. vm_compute. reflexivity.
Qed.
(** A time with an offset of 34 minutes and 8 seconds: the instant read is 8 seconds later, and Equal tells the certificates apart. *)
Theorem C72_offset_refuted : exists zs c d, zones_law zs /\ cert_int c /\ reads_as zs c d /\
  t_ns (f_not_before (c_fields d)) = (t_ns (f_not_before (c_fields c)) + 8 * giga)%Z /\ cert_equal c d = false.
Proof.
  exists ex_zones, (mk_cert (ex_doc (b_ "a.com") (ex_at (-3000000000) 1)) None None []). eexists. split; [exact ex_zones_law|].
  split; [split; [repeat split|constructor]|]. split; [eexists; split; [vm_compute; reflexivity|vm_compute; reflexivity]|]. split; vm_compute; reflexivity.
Qed.
(** A pointer to a pointer is written, and what is written is not read. *)
Theorem C72_pointers_refuted : exists zs o text, to_text zs (OPtr (Some (OPtr (Some o)))) = Ok text /\ document o /\
  from_text zs false text = Some Err /\ from_text zs true text = Some Err.
Proof. exists ex_zones, (OSpct (mk_ts None 1 None (ex_at 0 0) None)). eexists. split; [vm_compute; reflexivity|]. split; [exact I|]. split; vm_compute; reflexivity. Qed.
(** A nil pointer, also inside a slice. *)
Theorem C72_nil_refuted : forall zs, to_text zs (OPtr None) = Panic /\ to_text zs (OSlice [OPtr None]) = Panic.
Proof. intros zs. split; reflexivity. Qed.
(** Two texts that give the same certificate timestamp with different Raw: a hash of Raw, such as the ID of a policy, is none of the object. *)
Theorem C72_two_texts_refuted : exists zs t1 t2 d1 d2 o, t1 <> t2 /\ from_text zs true t1 = Some (Ok (OPtr (Some o))) /\ from_text zs true t2 = Some (Ok (OPtr (Some o))) /\
  from_text zs false t1 = Some (Ok (OPtr (Some d1))) /\ from_text zs false t2 = Some (Ok (OPtr (Some d2))) /\ document o /\ raw_of zs d1 = Ok t1 /\ raw_of zs d2 = Ok t2.
Proof.
  exists ex_zones, (b_ "{""T"":""*spct"",""O"":{""Version"":2}}"), (b_ "{""T"":""*spct"",""O"":{""version"":7, ""Version"":2}}"). eexists. eexists. eexists.
  split; [discriminate|]. split; [vm_compute; reflexivity|]. split; [vm_compute; reflexivity|]. split; [vm_compute; reflexivity|]. split; [vm_compute; reflexivity|].
  split; [exact I|]. split; vm_compute; reflexivity.
Qed.
(** The text of a certificate itself, not of a pointer to one, is not taken from a file. *)
Theorem C72_file_needs_pointer zs c text : cert_int c -> to_text zs (OCert c) = Ok text -> file_cert zs text = Some Err.
Proof. intros K T. unfold file_cert. rewrite (round_trip zs false (OCert c) text K T). reflexivity. Qed.
(** A member may be repeated: the last one counts, and null makes a slice nil but leaves a number as it was. *)
Theorem C72_repeated_member : forall zs,
  from_text zs false (b_ "{""T"":""pcrevsr"",""O"":{""PolicyCertificateHash"":""AQI="",""policycertificatehash"":null}}") = Some (Ok (ORevReq None)) /\
  from_text zs false (b_ "{""T"":""pcrevsr"",""O"":{""PolicyCertificateHash"":null,""PolicyCertificateHash"":""AQI=""}}") = Some (Ok (ORevReq (Some [x01; x02]))) /\
  from_text zs true (b_ "{""T"":""pcsr"",""O"":{""Version"":7,""Version"":null}}") = Some (Ok (OReq (with_f_version 7 (zero_fields zs)))).
Proof. intros zs. repeat split; vm_compute; reflexivity. Qed.
Print Assumptions C72_repeated_member.
Print Assumptions C72_round_trip_partial.
Print Assumptions C72_what_is_read.
Print Assumptions C72_certificate_partial.
Print Assumptions C72_every_text.
Print Assumptions C72_grammar.
Print Assumptions C72_only_json.
Print Assumptions C72_writes_json.
Print Assumptions C72_white_space.
Print Assumptions C72_trim.
Print Assumptions C72_keeps_text.
Print Assumptions C72_settles.
Print Assumptions C72_one_text_one_object_partial.
Print Assumptions C72_signature_partial.
Print Assumptions C72_decoded_signatures_partial.
Print Assumptions C72_not_utf8_refuted.
Print Assumptions C72_not_utf8_signature_refuted.
Print Assumptions C72_offset_refuted.
Print Assumptions C72_pointers_refuted.
Print Assumptions C72_nil_refuted.
Print Assumptions C72_two_texts_refuted.
Print Assumptions C72_file_needs_pointer.
