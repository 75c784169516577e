(** Times of day as text and configuration files: C86, C87. *)
From Coq Require Import Strings.String.
From Verif Require Import Base BaseLemmas UtilModel DbModel LoadModel PolicyModel JsonText JsonTextProofs JsonModel JsonGrammar ApiText ConfModel ConfProofs.
Local Open Scope list_scope.
Local Notation b_ s := (list_byte_of_string s%string).

(** ** C86. Times of day. [spells_tod] is the grammar: one or two digits for the hour, two for minute and second, then at most one fraction
    after a point or a comma. *)
Theorem C86_read s t : parse_tod s = Some t <-> spells_tod s t.
Proof. exact (parse_tod_iff s t). Qed.
Example C86_read_example :
  parse_tod (b_ "3:04:05,25") = Some (mk_tod 0 (((3 * 60 + 4) * 60 + 5) * 10 ^ 9 + 250000000)) /\
  map parse_tod [b_ "24:00:00"; b_ "12:60:00"; b_ "23:59:60"; b_ "12:5:00"; b_ "12:00"; b_ "12:00:00."; b_ "12:00:00 "; b_ ""; b_ "-1:00:00"] = repeat None 9.
Proof. split; vm_compute; reflexivity. Qed.
(** Written with two digits each and with 0, 3, 6 or 9 decimals; it reads back as the same time, and no such text for it is shorter. *)
Theorem C86_write t : (0 <= td_ns t < 24 * 3600 * 10 ^ 9)%Z ->
  exists s k, tod_text t = Some s /\ In k [0; 3; 6; 9] /\ layout s k /\ parse_tod s = Some (mk_tod 0 (td_ns t)) /\
  forall s' k', In k' [0; 3; 6; 9] -> layout s' k' -> parse_tod s' = Some (mk_tod 0 (td_ns t)) -> length s <= length s'.
Proof.
  intros B. destruct (tod_written t B) as (s & k & W & Sp & K & L & _ & Min). exists s, k. repeat split; auto; [now apply parse_tod_iff|].
  intros s' k' K' L' P. assert (Q : k <= k').
  { apply Min; [exact K'|]. apply (layout_exact s' k' _ L') in P; [exact P|]. cbn in K'. lia. }
  rewrite (layout_length _ _ L), (layout_length _ _ L'). destruct k, k'; lia.
Qed.
Example C86_write_example :
  tod_text (mk_tod 0 0) = Some (b_ "00:00:00") /\ tod_text (mk_tod 0 (86399 * 10 ^ 9 + 999999999)) = Some (b_ "23:59:59.999999999") /\
  tod_text (mk_tod 0 (3661 * 10 ^ 9 + 20000)) = Some (b_ "01:01:01.000020") /\ tod_text (mk_tod 0 (3661 * 10 ^ 9 + 20000000)) = Some (b_ "01:01:01.020").
Proof. repeat split; vm_compute; reflexivity. Qed.
(** The arguments are cut to the largest allowed; the result is read back exactly. *)
Theorem C86_new h m s n : exists text,
  td_ns (new_tod h m s n) = (((Z.min (Z.of_N h) 23 * 60 + Z.min (Z.of_N m) 59) * 60 + Z.min (Z.of_N s) 59) * 10 ^ 9 + Z.min (Z.of_N n) (10 ^ 9 - 1))%Z /\
  tod_text (new_tod h m s n) = Some text /\ parse_tod text = Some (new_tod h m s n).
Proof.
  assert (M : forall (a : N) b, Z.of_N (if (b <? a)%N then b else a) = Z.min (Z.of_N a) (Z.of_N b)) by (intros a b; destruct (N.ltb_spec b a); lia).
  assert (V : td_ns (new_tod h m s n) = (((Z.min (Z.of_N h) 23 * 60 + Z.min (Z.of_N m) 59) * 60 + Z.min (Z.of_N s) 59) * 10 ^ 9 + Z.min (Z.of_N n) (10 ^ 9 - 1))%Z).
  { unfold new_tod, clock, giga. cbn [td_ns]. rewrite !M. reflexivity. }
  destruct (C86_write (new_tod h m s n)) as (text & k & W & _ & _ & P & _); [rewrite V; lia|]. exists text. split; [exact V|]. split; [exact W|]. rewrite P. reflexivity.
Qed.
Example C86_new_example : new_tod 3 0 0 0 = mk_tod 0 (3 * 3600 * 10 ^ 9) /\ new_tod 99 99 99 (10 ^ 12) = mk_tod 0 (24 * 3600 * 10 ^ 9 - 1).
Proof. split; vm_compute; reflexivity. Qed.
(** Only the time of day survives: an unset UpdateAt, the begin of the year 1, is read back as the begin of the year 0. Decimals after the
    ninth are dropped without an error. *)
Theorem C86_exact_refuted :
  (exists t s t', tod_text t = Some s /\ parse_tod s = Some t' /\ t' <> t /\ t = zero_tod) /\
  (exists s s', s <> s' /\ parse_tod s <> None /\ parse_tod s = parse_tod s' /\ s = b_ "12:00:00.9999999999" /\ s' = b_ "12:00:00.999999999").
Proof.
  split.
  - exists zero_tod, (b_ "00:00:00"), (mk_tod 0 0). repeat split; try (vm_compute; reflexivity). discriminate.
  - exists (b_ "12:00:00.9999999999"), (b_ "12:00:00.999999999"). repeat split; try (vm_compute; reflexivity); vm_compute; discriminate.
Qed.
Print Assumptions C86_read.
Print Assumptions C86_write.
Print Assumptions C86_new.
Print Assumptions C86_exact_refuted.

(** ** C87. Configuration files. [same_conf]: all members equal, maps by their entries. *)
Theorem C87_round_trip c : in_ranges c -> utf8_conf c -> td_days (c_at c) = 0%Z ->
  exists text c', write_conf (Some c) = Some text /\ read_conf text = Some c' /\ same_conf c' c.
Proof. exact (conf_round_trip c). Qed.
(** What is written can always be read, also if a path is not UTF-8; only paths, names and the day of UpdateAt may change. *)
Theorem C87_readable c : in_ranges c -> exists text c', write_conf (Some c) = Some text /\ read_conf text = Some c' /\
  c_port c' = c_port c /\ c_rows c' = c_rows c /\ c_timer c' = c_timer c /\ td_ns (c_at c') = td_ns (c_at c) /\
  option_map (@length bytes) (c_urls c') = option_map (@length bytes) (c_urls c) /\ option_map d_check (c_db c') = option_map d_check (c_db c).
Proof.
  intros R. destruct (conf_reads c R) as (text & W & E). exists text, (n_conf c). repeat split; auto.
  - unfold n_conf. cbn [c_urls]. destruct (c_urls c) as [l|]; [|reflexivity]. cbn [option_map]. now rewrite map_length.
  - unfold n_conf. cbn [c_db]. now destruct (c_db c).
Qed.
Definition sample : conf :=
  mk_conf (Some [b_ "https://ct.googleapis.com/logs/xenon2023/"]) (Some [(b_ "https://b.org/", b_ "/b<&>"); (b_ "https://a.org/", b_ "")])
    (Some (mk_db [] [] (Some [(b_ "MYSQL_USER", b_ "root"); (b_ "DBNAME", b_ "fpki")]) true))
    (b_ "servercert.pem") (b_ "key ""1"".pem") 8443 1000000 (new_tod 3 0 0 0) (24 * 3600 * 10 ^ 9).
Example C87_example :
  in_ranges sample /\ utf8_conf sample /\ td_days (c_at sample) = 0%Z /\
  write_conf (Some sample) = Some (b_ "{""CTLogServerURLs"":[""https://ct.googleapis.com/logs/xenon2023/""],""CertificateFolders"":{""https://a.org/"":"""",""https://b.org/"":""/b\u003c\u0026\u003e""},""DBConfig"":{""Dsn"":"""",""DBName"":"""",""Values"":{""DBNAME"":""fpki"",""MYSQL_USER"":""root""},""CheckSchema"":true},""CertificatePemFile"":""servercert.pem"",""PrivateKeyPemFile"":""key \""1\"".pem"",""HttpAPIPort"":8443,""CsvIngestionMaxRows"":1000000,""UpdateAt"":""03:00:00"",""UpdateTimer"":""1d""}").
Proof.
  assert (A : forall s, forallb ascii s = true -> valid_utf8 s) by exact ascii_valid.
  split; [vm_compute; intuition discriminate|]. split.
  { unfold utf8_conf, utf8_db, map_ok. cbn [sample c_urls c_folders c_db c_cert c_key d_dsn d_name d_values].
    assert (N : forall a b : bytes, a <> b -> NoDup [a; b]) by (intros a b N; constructor; [intros [E|[]]; congruence|constructor; [intros []|constructor]]).
    repeat split; try (apply A; reflexivity); try (apply N; discriminate);
      repeat (apply Forall_cons; [try split; apply A; reflexivity|]); constructor. }
  split; [reflexivity|]. vm_compute. reflexivity.
Qed.
(** A nil configuration is written as null, which is read as the empty one. *)
Theorem C87_nil : exists text, write_conf None = Some text /\ read_conf text = Some (mk_conf None None None [] [] 0 0 zero_tod 0).
Proof. exists (b_ "null"). split; vm_compute; reflexivity. Qed.
(** Members that are missing keep the zero value. Names are compared without case. *)
Theorem C87_missing text l c : is_text text (JObj l) -> read_conf text = Some c ->
  (no_member (b_ "CTLogServerURLs") l -> c_urls c = None) /\ (no_member (b_ "CertificateFolders") l -> c_folders c = None) /\
  (no_member (b_ "DBConfig") l -> c_db c = None) /\ (no_member (b_ "CertificatePemFile") l -> c_cert c = []) /\
  (no_member (b_ "PrivateKeyPemFile") l -> c_key c = []) /\ (no_member (b_ "HttpAPIPort") l -> c_port c = 0%Z) /\
  (no_member (b_ "CsvIngestionMaxRows") l -> c_rows c = 0%Z) /\ (no_member (b_ "UpdateAt") l -> c_at c = zero_tod) /\
  (no_member (b_ "UpdateTimer") l -> c_timer c = 0%Z).
Proof.
  intros T R. apply parse_iff in T. unfold read_conf in R. rewrite T in R. cbn [obind read_struct] in R.
  repeat split; intros N;
    match goal with |- ?g c = ?z => change z with (g zero_conf) end;
    (eapply missing_member; [|exact N|exact R]); frames.
Qed.
(** Members with other names are ignored, so a misspelled member goes unnoticed. *)
Definition conf_names : list bytes :=
  [b_ "CTLogServerURLs"; b_ "CertificateFolders"; b_ "DBConfig"; b_ "CertificatePemFile"; b_ "PrivateKeyPemFile"; b_ "HttpAPIPort"; b_ "CsvIngestionMaxRows"; b_ "UpdateAt"; b_ "UpdateTimer"].
Theorem C87_unknown text text' l1 k v x l2 : is_text text (JObj (l1 ++ (k, v) :: l2)) -> is_text text' (JObj (l1 ++ l2)) -> unquote k = Some x ->
  Forall (fun n => fold_name n <> fold_name x) conf_names -> read_conf text = read_conf text'.
Proof.
  intros T T' U F. apply parse_iff in T. apply parse_iff in T'. unfold read_conf. rewrite T, T'. cbn [obind read_struct]. apply (unknown_member _ _ _ x); [exact U|].
  change conf_names with (map fst conf_table) in F. exact (proj1 (Forall_map fst _ conf_table) F).
Qed.
Example C87_unknown_example :
  exists c, read_conf (b_ "{""UpdateTime"":""24h"",""httpapiport"":1}") = Some c /\ c_timer c = 0%Z /\ c_port c = 1%Z.
Proof. eexists. split; [vm_compute; reflexivity|]. split; reflexivity. Qed.
(** A member that is null, alone, is like a missing one, except UpdateAt (C87_null_refuted). *)
Theorem C87_null text k x : is_text text (JObj [(k, JNull)]) -> unquote k = Some x -> fold_name (b_ "UpdateAt") <> fold_name x ->
  read_conf text = Some (mk_conf None None None [] [] 0 0 zero_tod 0).
Proof.
  intros T U N. apply parse_iff in T. unfold read_conf. rewrite T. cbn [obind read_struct read_members]. rewrite U. cbn [obind].
  exact (null_member _ _ _ _ _ _ _ _ _ x N).
Qed.
Example C87_null_example : is_text (b_ "{""dbconfig"":null}") (JObj [(b_ "dbconfig", JNull)]) /\ fold_name (b_ "UpdateAt") <> fold_name (b_ "dbconfig").
Proof. split; [apply parse_iff; vm_compute; reflexivity|vm_compute; discriminate]. Qed.
(** PCA: written with three spaces of indentation, read into an empty configuration *)
Theorem C87_pca_round_trip p : valid_utf8 (pc_name p) -> Forall (fun l => valid_utf8 (l_name l) /\ valid_utf8 (l_url l) /\ l_key l <> Some []) (pc_logs p) ->
  pc_key p <> Some [] -> pc_cert p <> Some [] -> read_pca (mk_pca [] [] None None) (write_pca p) = Some p.
Proof. intros V F K C. change (mk_pca [] [] None None) with zero_pca. rewrite pca_reads. now rewrite n_pca_same. Qed.
Definition sample_pca : pca_conf := mk_pca (b_ "pca") [mk_log (b_ "log") [] (Some [x01; x02]); mk_log [] [] None] (Some [x03]) None.
Definition lines (l : list string) : bytes := removelast (flat_map (fun s => list_byte_of_string s ++ [x0a]) l).
Example C87_pca_example :
  write_pca sample_pca = lines ["{"; "   ""CAName"": ""pca"","; "   ""CTLogServers"": ["; "      {"; "         ""Name"": ""log"",";
    "         ""PublicKeyDER"": ""AQI="""; "      },"; "      {}"; "   ],"; "   ""KeyPEM"": ""Aw=="""; "}"]%string /\
  read_pca (mk_pca [] [] None None) (write_pca sample_pca) = Some sample_pca.
Proof. split; vm_compute; reflexivity. Qed.
(** Refuted: a folder whose path is not UTF-8 is another folder after reading, and two of them become one entry. Members that were empty when
    written are left out, so reading into a configuration that is in use keeps its key. null is an error for UpdateAt, not for UpdateTimer. *)
Definition two_folders : conf := mk_conf None (Some [([xfe], [x61]); ([xff], [x62])]) None [] [] 0 0 (mk_tod 0 0) 0.
Theorem C87_utf8_refuted : exists c text c', in_ranges c /\ write_conf (Some c) = Some text /\ read_conf text = Some c' /\
  c_folders c = Some [([xfe], [x61]); ([xff], [x62])] /\ c_folders c' = Some [([xef; xbf; xbd], [x62])].
Proof.
  exists two_folders, (b_ "{""CTLogServerURLs"":null,""CertificateFolders"":{""\ufffd"":""a"",""\ufffd"":""b""},""DBConfig"":null,""CertificatePemFile"":"""",""PrivateKeyPemFile"":"""",""HttpAPIPort"":0,""CsvIngestionMaxRows"":0,""UpdateAt"":""00:00:00"",""UpdateTimer"":""0s""}"),
    (mk_conf None (Some [([xef; xbf; xbd], [x62])]) None [] [] 0 0 (mk_tod 0 0) 0).
  split; [vm_compute; intuition discriminate|]. repeat split; vm_compute; reflexivity.
Qed.
Theorem C87_stale_refuted : exists old p q, read_pca old (write_pca p) = Some q /\ pc_key p = None /\ pc_key q = Some [x01] /\ pc_name q = pc_name p.
Proof.
  exists (mk_pca [] [] (Some [x01]) None), (mk_pca [x61] [] None None), (mk_pca [x61] [] (Some [x01]) None). repeat split; vm_compute; reflexivity.
Qed.
Theorem C87_null_refuted : read_conf (b_ "{""UpdateAt"":null}") = None /\
  option_map c_timer (read_conf (b_ "{""UpdateTimer"":null}")) = Some 0%Z /\ option_map c_at (read_conf (b_ "{}")) = Some zero_tod.
Proof. repeat split; vm_compute; reflexivity. Qed.
Print Assumptions C87_round_trip.
Print Assumptions C87_readable.
Print Assumptions C87_nil.
Print Assumptions C87_missing.
Print Assumptions C87_unknown.
Print Assumptions C87_null.
Print Assumptions C87_pca_round_trip.
Print Assumptions C87_utf8_refuted.
Print Assumptions C87_stale_refuted.
Print Assumptions C87_null_refuted.
