(** C71: what the database stores through the CSV files is what was written. *)
From Coq Require Import String ZArith.
From Verif Require Import Base BaseLemmas UtilModel DbModel LoadModel LoadProofs LoadBase64.
Local Open Scope list_scope.
Definition lb (s : string) : bytes := list_byte_of_string s.

(** ** Base64 text is read back by the server, for every content; dates of the years 1000 to 9999 as well. *)
Theorem C71_base64 l : from_base64 (b64_encode l) = Some l.
Proof. exact (from_b64 l). Qed.
(** [text64]: groups of four letters of the standard alphabet for three bytes; one or two '=' only at the end. *)
Theorem C71_base64_text s l : b64_decode s = Some l <-> text64 s l.
Proof. exact (text64_spec (length s) s l (le_n _)). Qed.
Example C71_base64_text_example : text64 (lb "TW+/TQ==") [x4d; x6f; xbf; x4d].
Proof. apply C71_base64_text. vm_compute. reflexivity. Qed.
Theorem C71_date t : (-30610224000 <= t < 253402300800)%Z -> parse_time (format_time t) = Some t.
Proof. exact (time_round_trip t). Qed.
Example C71_text_example :
  b64_encode (lb "Man") = lb "TWFu" /\ b64_encode (lb "Ma") = lb "TWE=" /\ b64_encode (lb "M") = lb "TQ==" /\
  format_time 1700000000 = lb "2023-11-14 22:13:20" /\ format_time 951782399 = lb "2000-02-28 23:59:59" /\ format_time 951868799 = lb "2000-02-29 23:59:59" /\
  format_time (-2203891200) = lb "1900-03-01 00:00:00" /\ parse_time (lb "1900-02-29 00:00:00") = None.
Proof. vm_compute. auto 10. Qed.
Print Assumptions C71_base64.
Print Assumptions C71_base64_text.
Print Assumptions C71_date.

(** ** The files of certificates, dirty domains and pairs, with the writer of the ingestion (raw) and with encoding/csv. [load_certs], [load_dirty],
    [load_dc] and [load_domains] are the statements with the rows given directly, which all other theorems use. *)
Theorem C71_certs space rows d : Forall good_cert rows ->
  load_certs_csv (raw_file (map cert_fields rows)) d = Some (load_certs rows d) /\
  load_certs_csv (csv_file space (map cert_fields rows)) d = Some (load_certs rows d).
Proof. intros Hg. split; [exact (certs_back _ simple_raw rows d Hg) | exact (certs_back _ (simple_csv space) rows d Hg)]. Qed.
Theorem C71_dirty space ids d : Forall (fun i => length i = 32) ids ->
  load_dirty_csv (raw_file (map dirty_fields ids)) d = Some (load_dirty ids d) /\
  load_dirty_csv (csv_file space (map dirty_fields ids)) d = Some (load_dirty ids d).
Proof. intros Hg. split; [exact (dirty_back _ simple_raw ids d Hg) | exact (dirty_back _ (simple_csv space) ids d Hg)]. Qed.
Theorem C71_pairs space rows d : Forall (fun r => length (fst r) = 32 /\ length (snd r) = 32) rows ->
  load_dc_csv (raw_file (map dc_fields rows)) d = Some (load_dc rows d) /\
  load_dc_csv (csv_file space (map dc_fields rows)) d = Some (load_dc rows d).
Proof. intros Hg. split; [exact (dc_back _ simple_raw rows d Hg) | exact (dc_back _ (simple_csv space) rows d Hg)]. Qed.

(** Names. Partial: the raw writer needs names without comma, line break and backslash that do not begin with a quote; encoding/csv needs names
    without backslash; and no name may be the word NULL. *)
Theorem C71_domains_partial space rows d : Forall (fun r => length (fst r) = 32) rows ->
  (Forall (fun r => raw_name (snd r)) rows ->
   domains_csv (raw_file (map domain_fields rows)) = Some (map (fun r => (fst r, Some (snd r))) rows) /\
   load_domains_csv (raw_file (map domain_fields rows)) d = Some (load_domains rows d)) /\
  (Forall (fun r => csv_name (snd r)) rows ->
   domains_csv (csv_file space (map domain_fields rows)) = Some (map (fun r => (fst r, Some (snd r))) rows) /\
   load_domains_csv (csv_file space (map domain_fields rows)) d = Some (load_domains rows d)).
Proof.
  intros Hl. split; intros Hn.
  - assert (Hg : Forall (fun r => length (fst r) = IDSize /\ readable (fun f => f) (snd r)) rows).
    { rewrite Forall_forall in *. intros r Hr. split; [exact (Hl r Hr) | exact (raw_name_ok _ (Hn r Hr))]. }
    split; [exact (domains_read _ simple_raw rows Hg) | exact (domains_back _ simple_raw rows d Hg)].
  - assert (Hg : Forall (fun r => length (fst r) = IDSize /\ readable (csv_field space) (snd r)) rows).
    { rewrite Forall_forall in *. intros r Hr. split; [exact (Hl r Hr) | exact (csv_name_ok space _ (Hn r Hr))]. }
    split; [exact (domains_read _ (simple_csv space) rows Hg) | exact (domains_back _ (simple_csv space) rows d Hg)].
Qed.
Definition id1 : bytes := repeat x01 32.
Definition id2 : bytes := repeat xff 31 ++ [x02].
Definition ex_rows : list cert_row := [mk_cr id1 [] 1700000000 (lb "root"); mk_cr id2 id1 1800000000 (lb "")].
Example C71_example :
  Forall good_cert ex_rows /\
  raw_file (map cert_fields ex_rows) = lb "AQEBAQEBAQEBAQEBAQEBAQEBAQEBAQEBAQEBAQEBAQE=,,2023-11-14 22:13:20,cm9vdA==
/////////////////////////////////////////wI=,AQEBAQEBAQEBAQEBAQEBAQEBAQEBAQEBAQEBAQEBAQE=,2027-01-15 08:00:00,
" /\
  option_map d_certs (load_certs_csv (raw_file (map cert_fields ex_rows)) empty_db) = Some ex_rows /\
  raw_name (lb "*.a-b.com") /\ csv_name (lb "My ""Company"", Inc.") /\
  csv_file (fun _ => false) (map domain_fields [(id1, lb "My ""Company"", Inc.")]) = lb "AQEBAQEBAQEBAQEBAQEBAQEBAQEBAQEBAQEBAQEBAQE=,""My """"Company"""", Inc.""
" /\
  domains_csv (csv_file (fun _ => false) (map domain_fields [(id1, lb "My ""Company"", Inc.")])) = Some [(id1, Some (lb "My ""Company"", Inc."))].
Proof.
  split; [|split; [vm_compute; reflexivity | split; [vm_compute; reflexivity | split; [|split; [|split; vm_compute; reflexivity]]]]].
  - constructor; [|constructor; [|constructor]]; unfold good_cert, in_datetime; cbn; intuition (try lia; try discriminate).
  - unfold raw_name. repeat split; try (intros Hx; vm_compute in Hx; decompose [or] Hx; try discriminate; assumption).
  - split; [intros Hx; vm_compute in Hx; decompose [or] Hx; try discriminate; assumption | discriminate].
Qed.
(** ** One insertion as the updater does it: the four files of insertCerts loaded one after the other change the tables exactly as the four
    statements of [insert_certs], on which the theorems on the tables, the coalescing and the rounds are based. Partial: for names without
    backslash and other than NULL, payloads whose length is not 3, and expirations in the years 1000 to 9999. *)
Theorem C71_insert_partial H space names ids parents exps payloads stmts d : (forall x, length (H x) = 32) ->
  Forall (fun i => length i = 32) ids -> Forall (fun p => p = [] \/ length p = 32) parents ->
  Forall (fun e => -30610224000 <= e < 253402300800)%Z exps -> Forall (fun y => length y <> 3) payloads ->
  Forall (fun n => ~ In backslash n /\ n <> lb "NULL") (concat names) ->
  insert_certs H names ids parents exps payloads = Ok stmts -> insert_csv H space names ids parents exps payloads d = Ok (Some (run stmts d)).
Proof.
  intros HH Hi Hp He Hy Hn. apply insert_csv_ok; [exact HH | exact Hi | eapply Forall_impl; [|exact Hn]; intros n [? ?]; split; assumption |].
  rewrite Forall_forall in Hi, Hp, He, Hy. intros i p e y ? ? ? ?. unfold good_cert, in_datetime. cbn. auto.
Qed.
Example C71_insert_example : exists stmts, insert_certs (fun _ => id2) [[lb "a.com"; lb "b, c"]; []] [id1; id2] [id2; []] [1700000000%Z; 0%Z] [lb "leaf"; lb "root"] = Ok stmts /\
  match insert_csv (fun _ => id2) (fun _ => false) [[lb "a.com"; lb "b, c"]; []] [id1; id2] [id2; []] [1700000000%Z; 0%Z] [lb "leaf"; lb "root"] empty_db with
  | Ok (Some d) => d_certs d = [mk_cr id1 id2 1700000000 (lb "leaf"); mk_cr id2 [] 0 (lb "root")] /\ d_domains d = [(id2, lb "a.com")] /\ d_dc d = [(id2, id1)]
  | _ => False
  end.
Proof. eexists. split; [reflexivity|]. vm_compute. auto. Qed.
Print Assumptions C71_insert_partial.
Print Assumptions C71_certs.
Print Assumptions C71_dirty.
Print Assumptions C71_pairs.
Print Assumptions C71_domains_partial.

(** ** Refuted: the raw writer. The names of a certificate are its common name and its alternative names as they are; a name with a line break adds
    a row for any other domain id, with any name. *)
Theorem C71_injection_refuted id x victim name : length id = 32 -> length victim = 32 -> raw_name x -> raw_name name ->
  domains_csv (raw_file (map domain_fields [(id, x ++ newline :: b64_encode victim ++ comma :: name)])) = Some [(id, Some x); (victim, Some name)].
Proof.
  intros H1 H2 H3 H4. rewrite inject_text. apply (domains_read _ simple_raw [(id, x); (victim, name)]).
  constructor; [split; [exact H1 | exact (raw_name_ok _ H3)] | constructor; [split; [exact H2 | exact (raw_name_ok _ H4)] | constructor]].
Qed.
(** A comma in a name: what follows it is lost; the rows after it are as written. *)
Theorem C71_comma_refuted id x y rows : length id = 32 -> raw_name x -> ~ In newline y -> ~ In backslash y ->
  Forall (fun r => length (fst r) = 32 /\ raw_name (snd r)) rows ->
  domains_csv (raw_file (map domain_fields ((id, x ++ comma :: y) :: rows))) = Some ((id, Some x) :: map (fun r => (fst r, Some (snd r))) rows).
Proof. exact (comma_cuts id x y rows). Qed.
(** The row stays: the true name of that domain is not stored later on. *)
Theorem C71_poisoned_refuted : exists id x victim name true_name d, length id = 32 /\ length victim = 32 /\ raw_name true_name /\ true_name <> name /\
  load_domains_csv (raw_file (map domain_fields [(id, x ++ newline :: b64_encode victim ++ comma :: name)])) empty_db = Some d /\
  option_map d_domains (load_domains_csv (raw_file (map domain_fields [(victim, true_name)])) d) = Some [(id, x); (victim, name)].
Proof.
  exists id1, (lb "x"), id2, (lb "evil.com"), (lb "good.com"). eexists. split; [reflexivity|]. split; [reflexivity|]. split; [|split; [discriminate|split; vm_compute; reflexivity]].
  unfold raw_name. repeat split; try (intros Hx; vm_compute in Hx; decompose [or] Hx; try discriminate; assumption).
Qed.
(** Refuted for encoding/csv too: a backslash is lost, and the name NULL is stored as NULL; and so is a payload of three bytes whose base64 text is
    that word. [ascii_space] is the test of the writer for text in ASCII. *)
Definition ascii_space (f : bytes) : bool := match f with c :: _ => is_space c | [] => false end.
Theorem C71_csv_refuted :
  domains_csv (csv_file ascii_space (map domain_fields [(id1, lb "a\b")])) = Some [(id1, Some (lb "a" ++ [x08]))] /\
  domains_csv (csv_file ascii_space (map domain_fields [(id1, lb "NULL")])) = Some [(id1, None)] /\
  exists payload d, load_certs_csv (csv_file ascii_space (map cert_fields [mk_cr id1 [] 0 payload])) empty_db = Some d /\ d_certs d <> [mk_cr id1 [] 0 payload].
Proof.
  split; [vm_compute; reflexivity|]. split; [vm_compute; reflexivity|]. exists [x35; x42; xcb]. eexists. split; [vm_compute; reflexivity | discriminate].
Qed.
Print Assumptions C71_injection_refuted.
Print Assumptions C71_comma_refuted.
Print Assumptions C71_poisoned_refuted.
Print Assumptions C71_csv_refuted.
