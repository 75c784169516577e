(** Property theorems C102: reading a whole CSV file at once, for the model in WholeModel.v. *)
From Verif Require Import Base BaseLemmas UtilModel BatchModel CsvModel CsvProofs CsvWritten CsvWorkerProofs PropertiesCsv WholeModel.

Lemma split_same b l : split_text b l = split_on b l.
Proof. induction l as [|x l IH]; [reflexivity|]. cbn [split_text split_on]. rewrite IH. reflexivity. Qed.
Section Whole.
  Variable H : bytes -> bytes.
  Variable b64 : bytes -> option bytes.
  Variable x509 : bytes -> option cert.
  (** A text and its certificate; the texts of a leaf and of its chain and their certificates *)
  Definition holds (f : bytes) (c : cert) : Prop := exists r, b64 f = Some r /\ x509 r = Some c.
  Definition holds_all (leaf chain : bytes) (cc : cert * list cert) : Prop := holds leaf (fst cc) /\ Forall2 holds (split_on semicolon chain) (snd cc).
  Lemma parse_field_iff f c : parse_field b64 x509 f = Some c <-> holds f c.
  Proof.
    unfold parse_field, holds. destruct (b64 f) as [r|]; [|split; [discriminate|intros (r & E & _); discriminate E]].
    split; [intros E; exists r; split; [reflexivity|exact E]|intros (r' & E & X); injection E as <-; exact X].
  Qed.
  Lemma parse_parts_iff l : forall cs, parse_parts b64 x509 l = Some cs <-> Forall2 holds l cs.
  Proof.
    induction l as [|s l IH]; intros cs; cbn [parse_parts].
    - split; [intros E; injection E as <-; constructor|intros F; inversion F; reflexivity].
    - destruct (parse_field b64 x509 s) as [c|] eqn:E.
      + apply parse_field_iff in E as E'. destruct (parse_parts b64 x509 l) as [ds|].
        * split; [intros Q; injection Q as <-; constructor; [exact E'|apply IH; reflexivity]|]. intros F. inversion F as [|? c' ? ds' F1 F2]; subst. apply parse_field_iff in F1. apply IH in F2. congruence.
        * split; [discriminate|]. intros F. inversion F as [|? c' ? ds' F1 F2]; subst. apply IH in F2. discriminate F2.
      + split; [discriminate|]. intros F. inversion F as [|? c' ? ds' F1 F2]; subst. apply parse_field_iff in F1. congruence.
  Qed.
  Definition record_holds (fs : list bytes) (cc : cert * list cert) : Prop :=
    exists leaf chain, nth_error fs 3 = Some leaf /\ nth_error fs 4 = Some chain /\ holds_all leaf chain cc.
  Lemma records_iff recs : forall l, record_certs b64 x509 recs = Ok l <-> Forall2 record_holds (filter (fun fs => negb (length fs =? 0)) recs) l.
  Proof.
    induction recs as [|fs recs IH]; intros l; cbn [record_certs filter].
    - split; [intros E; injection E as <-; constructor|intros F; inversion F; reflexivity].
    - destruct (length fs =? 0); [apply IH|]. cbn [negb]. unfold CertificateColumn, CertChainColumn. split.
      + destruct (nth_error fs 3) as [f|] eqn:E3; [|discriminate]. destruct (parse_field b64 x509 f) as [c|] eqn:P; [|discriminate]. destruct (nth_error fs 4) as [g|] eqn:E4; [|discriminate].
        destruct (parse_parts b64 x509 (split_text semicolon g)) as [ch|] eqn:Q; [|discriminate]. destruct (record_certs b64 x509 recs) as [l0| |]; try discriminate.
        intros E. injection E as <-. constructor; [|apply IH; reflexivity]. exists f, g. split; [exact E3|]. split; [exact E4|]. split; [apply parse_field_iff; exact P|]. rewrite <- split_same. apply parse_parts_iff. exact Q.
      + intros F. inversion F as [|? [c ch] ? l0 (f & g & E3 & E4 & F1 & F2) F3]; subst. cbn [fst snd] in *. rewrite E3, E4. apply parse_field_iff in F1. rewrite F1. rewrite split_same. apply parse_parts_iff in F2. rewrite F2.
        apply IH in F3. rewrite F3. reflexivity.
  Qed.

  (** * C102 *)
  (** A file is read exactly if encoding/csv reads it and in each record the fourth column is a certificate and the fifth the certificates of its chain, separated by
      semicolons; the result is that of UnfoldCerts for these (C55): every certificate of every chain, the leaf certificates first. *)
  Theorem C102_read : forall fuel inp out, load_whole H b64 x509 fuel inp = Some (Ok out) <->
    exists recs l, csv_all fuel inp = Some (Ok recs) /\ Forall2 record_holds (filter (fun fs => negb (length fs =? 0)) recs) l /\ out = unfold_certs H l.
  Proof.
    intros fuel inp out. unfold load_whole. destruct (csv_all fuel inp) as [[recs| |]|].
    - split.
      + intros E. injection E as E. destruct (record_certs b64 x509 recs) as [l| |] eqn:R; try discriminate E. injection E as <-. exists recs, l. split; [reflexivity|]. split; [apply records_iff; exact R|reflexivity].
      + intros (recs' & l & E & F & ->). injection E as <-. apply records_iff in F. rewrite F. reflexivity.
    - split; [discriminate|]. intros (recs' & l & E & _). discriminate E.
    - split; [discriminate|]. intros (recs' & l & E & _). discriminate E.
    - split; [discriminate|]. intros (recs' & l & E & _). discriminate E.
  Qed.
  (** A file that the ingest command reads to its end, line by line: both read the same columns. So it is read at once exactly if all of its certificates can be parsed,
      with the result of UnfoldCerts for them, and otherwise it is an error; it never panics. *)
  Theorem C102_lines_partial : forall inp fuel rows fuel', single_cr inp -> read_file fuel inp = Some (rows, false) -> length inp < fuel' ->
    exists r, load_whole H b64 x509 fuel' inp = Some r /\ r <> Panic /\
      forall out, r = Ok out <-> exists l, Forall2 (fun p cc => holds_all (p_cert p) (p_chain p) cc) rows l /\ out = unfold_certs H l.
  Proof.
    intros inp fuel rows fuel' S R L. destruct (C67_same_partial inp fuel rows S R) as (recs & A & C). specialize (A fuel' L).
    unfold load_whole. rewrite A. eexists. split; [reflexivity|].
    assert (G : forall rows, map columns recs = map Some rows -> record_certs b64 x509 recs <> Panic /\
      forall l, record_certs b64 x509 recs = Ok l <-> Forall2 (fun p cc => holds_all (p_cert p) (p_chain p) cc) rows l).
    { clear. induction recs as [|fs recs IH]; intros rows C.
      - destruct rows; [|discriminate C]. cbn. split; [discriminate|]. intros l. split; [intros E; injection E as <-; constructor|intros F; inversion F; reflexivity].
      - destruct rows as [|p rows]; [discriminate C|]. cbn [map] in C. injection C as C1 C2. destruct (IH rows C2) as [I1 I2]. clear IH.
        unfold columns, CertChainColumn, CertificateColumn in C1. destruct (Nat.leb_spec (length fs) 4) as [X|X]; [discriminate C1|]. destruct (length (last fs []) =? 0); [discriminate C1|]. injection C1 as <-.
        cbn [record_certs p_cert p_chain]. destruct (Nat.eqb_spec (length fs) 0) as [Z|_]; [lia|]. unfold CertChainColumn, CertificateColumn.
        rewrite (nth_error_nth' fs [] (n := 3)) by lia. rewrite (nth_error_nth' fs [] (n := 4)) by lia. set (f := nth 3 fs []). set (g := nth 4 fs []). clearbody f g. split.
        + destruct (parse_field b64 x509 f); [|discriminate]. destruct (parse_parts b64 x509 (split_text semicolon g)); [|discriminate]. destruct (record_certs b64 x509 recs); [discriminate|discriminate|contradiction].
        + intros l. split.
          * destruct (parse_field b64 x509 f) as [c|] eqn:P; [|discriminate]. destruct (parse_parts b64 x509 (split_text semicolon g)) as [ch|] eqn:Q; [|discriminate].
            destruct (record_certs b64 x509 recs) as [l0| |]; try discriminate. intros E. injection E as <-. constructor; [|apply I2; reflexivity].
            split; [apply parse_field_iff; exact P|]. cbn [p_chain snd]. rewrite <- split_same. apply parse_parts_iff. exact Q.
          * intros F. inversion F as [|? [c ch] ? l0 [F1 F2] F3]; subst. cbn [fst snd p_cert p_chain] in *. apply parse_field_iff in F1. rewrite F1. rewrite split_same. apply parse_parts_iff in F2. rewrite F2. apply I2 in F3. rewrite F3. reflexivity. }
    destruct (G rows C) as [G1 G2]. clear G. destruct (record_certs b64 x509 recs) as [l| |].
    - split; [discriminate|]. intros out. split.
      + intros E. injection E as <-. exists l. split; [apply G2; reflexivity|reflexivity].
      + intros (l' & F & ->). apply G2 in F. injection F as ->. reflexivity.
    - split; [discriminate|]. intros out. split; [discriminate|]. intros (l' & F & _). apply G2 in F. discriminate F.
    - contradiction.
  Qed.
  (** A record with fewer than four columns panics, after any records that can be read; so does one with four, if its certificate can be parsed. *)
  Theorem C102_short : forall fuel inp recs l fs more, csv_all fuel inp = Some (Ok (recs ++ fs :: more)) -> Forall2 record_holds (filter (fun fs => negb (length fs =? 0)) recs) l ->
    0 < length fs < 4 \/ (length fs = 4 /\ exists f c, nth_error fs 3 = Some f /\ holds f c) -> load_whole H b64 x509 fuel inp = Some Panic.
  Proof.
    intros fuel inp recs l fs more A F S. unfold load_whole. rewrite A. assert (P : record_certs b64 x509 (recs ++ fs :: more) = Panic); [|rewrite P; reflexivity].
    clear A. revert l F. induction recs as [|r recs IH]; intros l F.
    - cbn [app record_certs]. destruct (Nat.eqb_spec (length fs) 0) as [Z|_]; [destruct S as [S|[S _]]; lia|]. unfold CertificateColumn, CertChainColumn. destruct S as [S|(S & f & c & E & Q)].
      + destruct (nth_error fs 3) eqn:E; [|reflexivity]. assert (nth_error fs 3 <> None) by congruence. apply nth_error_Some in H0. lia.
      + rewrite E. apply parse_field_iff in Q. rewrite Q. destruct (nth_error fs 4) eqn:E4; [|reflexivity]. assert (nth_error fs 4 <> None) by congruence. apply nth_error_Some in H0. lia.
    - cbn [app record_certs filter] in *. destruct (length r =? 0); [apply (IH l F)|]. cbn [negb] in F. inversion F as [|? [c ch] ? l0 (f & g & E3 & E4 & F1 & F2) F3]; subst. cbn [fst snd] in *.
      unfold CertificateColumn, CertChainColumn. rewrite E3, E4. apply parse_field_iff in F1. rewrite F1. rewrite split_same. apply parse_parts_iff in F2. rewrite F2. rewrite (IH l0 F3). reflexivity.
  Qed.
End Whole.
Print Assumptions C102_read.
Print Assumptions C102_lines_partial.
Print Assumptions C102_short.

Import CsvTest.
(** Two rows of C68, with a chain of two and of one, and the same file as the ingest command reads it. *)
Definition whole_row (leaf chain : bytes) : bytes := [x31; comma; x32; comma; x33; comma] ++ leaf ++ [comma] ++ chain ++ [comma] ++ e1 ++ [nl].
Definition whole_file : bytes := whole_row L1 (A ++ semicolon :: R) ++ whole_row L2 R.
Example C102_example : load_whole ID B64 X509 100 whole_file =
    Some (Ok [(mk_cert L1 [L1], L1, Some A, Some [L1]); (mk_cert L2 [L2], L2, Some R, Some [L2]); (mk_cert A [A], A, Some R, None); (mk_cert R [R], R, None, None); (mk_cert R [R], R, None, None)]) /\
  single_cr whole_file /\ read_file 100 whole_file = Some ([mk_parsed L1 (A ++ semicolon :: R) e1; mk_parsed L2 R e1], false) /\ length whole_file < 100.
Proof. split; [vm_compute; reflexivity|]. split; [cbn; intuition discriminate|]. split; [vm_compute; reflexivity|]. vm_compute. lia. Qed.
(** Full statement: every file is read or an error. False: a line with one word in it panics, which is an error for the ingest command. *)
Theorem C102_panic_refuted : exists inp, load_whole ID B64 X509 100 inp = Some Panic /\ (exists rows, read_file 100 inp = Some (rows, true)).
Proof. exists (whole_row L1 R ++ [x61; nl]). split; [vm_compute; reflexivity|]. exists [mk_parsed L1 R e1]. vm_compute. reflexivity. Qed.
Print Assumptions C102_panic_refuted.
(** A row that has expired is loaded, which the ingest command leaves out. *)
Theorem C102_expired_refuted : exists inp rows out now, load_whole ID B64 X509 100 inp = Some (Ok out) /\ out <> [] /\ read_file 100 inp = Some (rows, false) /\
  worker ID B64 X509 (fun _ => 100%Z) now 10 rows [] = ([], true).
Proof. exists (whole_row L1 R). exists [mk_parsed L1 R e1], [(mk_cert L1 [L1], L1, Some R, Some [L1]); (mk_cert R [R], R, None, None)], 9000000000%Z. split; [vm_compute; reflexivity|]. split; [discriminate|]. split; vm_compute; reflexivity. Qed.
Print Assumptions C102_expired_refuted.
