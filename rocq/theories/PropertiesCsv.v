(** Property theorems C33, C67 and C68: reading of CSV files by the ingest command, for the model in CsvModel.v. *)
From Verif Require Import Base BaseLemmas UtilModel BatchModel BatchProofs CsvModel CsvProofs CsvWritten CsvWorkerProofs.

(** * C33 *)
(** A line without a line break: if the fast parser accepts it, encoding/csv reads exactly one record from it, with the same
    certificate, chain and last columns, and so the slow parser gives the same result. *)
Theorem C33_fast_partial : forall l p, ~ In nl l -> parse_row_fast l = FastOK p ->
  exists fs, csv_record l = Some (Ok (Some (fs, []))) /\ nth_error fs 3 = Some (p_cert p) /\ nth_error fs 4 = Some (p_chain p) /\ last fs [] = p_exp p /\
    parse_row_slow l = Some (Ok p).
Proof. exact fast_agrees. Qed.
Print Assumptions C33_fast_partial.

(** ParseLine is the slow parser, but for lines without quotes and with an empty certificate column, which it refuses. *)
Theorem C33_line_partial : forall raw, ~ In nl (trim_right raw) ->
  parse_line raw = parse_row_slow (trim_right raw) \/
  (parse_line raw = Some Err /\ ~ In quote (trim_right raw) /\ nth_error (split_on comma (trim_right raw)) 3 = Some []).
Proof. exact parse_line_agrees. Qed.
Print Assumptions C33_line_partial.

(** The slow parser takes the fourth, the fifth and the last column of the record that encoding/csv reads; the last one must not be empty. *)
Theorem C33_slow : forall l p, parse_row_slow l = Some (Ok p) <->
  exists fs rest, csv_record l = Some (Ok (Some (fs, rest))) /\ nth_error fs 3 = Some (p_cert p) /\ nth_error fs 4 = Some (p_chain p) /\ last fs [] = p_exp p /\ p_exp p <> [].
Proof.
  intros l p. unfold parse_row_slow. destruct (csv_record l) as [[[[fs rest]|]| |]|].
  - unfold columns, CertChainColumn, CertificateColumn. destruct (Nat.leb_spec (length fs) 4) as [L|L].
    + split; [discriminate|]. intros (fs' & r' & E & _ & X & _). injection E as <- <-. apply nth_error_None in L. congruence.
    + destruct (Nat.eqb_spec (length (last fs [])) 0) as [Z|Z].
      * split; [discriminate|]. intros (fs' & r' & E & _ & _ & X & Y). injection E as <- <-. destruct (last fs []); [congruence|discriminate Z].
      * split.
        -- intros E. injection E as <-. exists fs, rest. split; [reflexivity|]. cbn [p_cert p_chain p_exp]. split; [apply nth_error_nth'; lia|]. split; [apply nth_error_nth'; lia|]. split; [reflexivity|].
           intros X. apply Z. rewrite X. reflexivity.
        -- intros (fs' & r' & E & X1 & X2 & X3 & _). injection E as <- <-. destruct p as [a b c]. cbn [p_cert p_chain p_exp] in *. apply nth_error_nth with (d := []) in X1, X2. unfold bytes in *. cbn [nth] in X1, X2 |- *. rewrite X3. congruence.
  - split; [discriminate|]. intros (fs' & r' & E & _). discriminate E.
  - split; [discriminate|]. intros (fs' & r' & E & _). discriminate E.
  - split; [discriminate|]. intros (fs' & r' & E & _). discriminate E.
  - split; [discriminate|]. intros (fs' & r' & E & _). discriminate E.
Qed.
Print Assumptions C33_slow.
(** The text that is trimmed away are the line breaks at the end. *)
Theorem C33_trim : forall raw, exists t, raw = trim_right raw ++ t /\ Forall (fun x => x = cr \/ x = nl) t /\
  (forall r, trim_right raw <> r ++ [cr]) /\ (forall r, trim_right raw <> r ++ [nl]).
Proof.
  intros raw. destruct (trim_right_spec raw) as (t & H1 & H2 & H3 & H4). exists t. split; [exact H1|]. split; [exact H2|]. split; [|exact H4]. intros r E. apply H3. exists r. exact E.
Qed.
Print Assumptions C33_trim.

(** A last column that the fast parser accepts is a number of seconds with a fraction; the time read is that number, but if it does not
    fit into 63 bits. *)
Theorem C33_expiration : forall l p, parse_row_fast l = FastOK p ->
  exists a b, p_exp p = a ++ full_stop :: b /\ a <> [] /\ forallb is_digit a = true /\
    get_expiration (p_exp p) = if (decimal a <? 2 ^ 63)%Z then Some (decimal a) else None.
Proof. intros l p H. rewrite parse_row_fast_spec in H. destruct (fast_last l p H) as (_ & _ & _ & _ & _ & He & _). exact (expiration_value _ He). Qed.
Print Assumptions C33_expiration.

Definition row1 : bytes := [x61; comma; x62; comma; x63; comma; x43; x43; comma; x48; semicolon; x49; comma; x31; x32; full_stop; x35].
Example C33_nontrivial : parse_row_fast row1 = FastOK (mk_parsed [x43; x43] [x48; semicolon; x49] [x31; x32; full_stop; x35]) /\
  ~ In nl row1 /\ get_expiration [x31; x32; full_stop; x35] = Some 12%Z /\
  (* quoted columns are left to encoding/csv *)
  parse_line (quote :: x61 :: comma :: quote :: tl row1) = Some (Ok (mk_parsed [x43; x43] [x48; semicolon; x49] [x31; x32; full_stop; x35])) /\
  parse_row_fast (quote :: x61 :: comma :: quote :: tl row1) = Fallback.
Proof. repeat split; try reflexivity. cbn. intuition discriminate. Qed.

(** A row that encoding/csv reads, and that the slow parser accepts, but that is refused without a fall back: the certificate column is
    empty. *)
Theorem C33_fallback_refuted : exists l fs p, ~ In nl l /\ csv_record l = Some (Ok (Some (fs, []))) /\ parse_row_slow l = Some (Ok p) /\
  parse_row_fast l = Hard /\ parse_line l = Some Err.
Proof.
  exists [x61; comma; x62; comma; x63; comma; comma; x48; comma; x31; full_stop; x35]. eexists. eexists.
  split; [cbn; intuition discriminate|]. split; [vm_compute; reflexivity|]. split; [vm_compute; reflexivity|]. split; reflexivity.
Qed.
Print Assumptions C33_fallback_refuted.
(** With a line break inside, the fast parser accepts a line of which encoding/csv reads another record. *)
Theorem C33_newline_refuted : exists l p p', parse_row_fast l = FastOK p /\ parse_row_slow l = Some (Ok p') /\ p <> p'.
Proof.
  exists [comma; comma; comma; x43; comma; x48; comma; x31; nl; comma; x31; full_stop; x35]. eexists. eexists.
  split; [vm_compute; reflexivity|]. split; [vm_compute; reflexivity|]. discriminate.
Qed.
Print Assumptions C33_newline_refuted.

(** * C67 *)
(** Reading line by line, of any file: the rows sent are those of the first physical lines; either all lines were good, or the next one
    is bad and an error is reported. *)
Theorem C67_lines : forall inp fuel, length inp < fuel -> exists ls rows e, lines inp ls /\ read_file fuel inp = Some (rows, e) /\
  map parse_line (firstn (length rows) ls) = map (fun r => Some (Ok r)) rows /\
  (if e then exists bad, nth_error ls (length rows) = Some bad /\ parse_line bad = Some Err else length rows = length ls).
Proof. intros inp fuel. exact (read_file_lines fuel inp). Qed.
Print Assumptions C67_lines.
(** A file without two carriage returns in a row that is read to its end: encoding/csv reads the whole file too, and gives as many
    records, which have the same columns in the same order. *)
Theorem C67_same_partial : forall inp fuel rows, single_cr inp -> read_file fuel inp = Some (rows, false) ->
  exists recs, (forall fuel', length inp < fuel' -> csv_all fuel' inp = Some (Ok recs)) /\ map columns recs = map Some rows.
Proof. intros inp fuel rows. exact (read_file_csv fuel inp rows). Qed.
Print Assumptions C67_same_partial.

(** The model of encoding/csv itself: the Reader gives back what the Writer ([csv_file], writer.go) wrote, but for carriage returns and records that are
    only an empty field. *)
Theorem C67_written : forall space rows, Forall (fun row => row <> [] /\ row <> [[]] /\ forall f, In f row -> ~ In cr f) rows ->
  forall fuel, length rows < fuel -> csv_all fuel (LoadModel.csv_file space rows) = Some (Ok rows).
Proof. exact written_records. Qed.
Print Assumptions C67_written.
Example C67_written_example : let rows := [[[x61; quote; x62; nl; quote]; []; [x2c]]; [[]; []]] in
  Forall (fun row => row <> [] /\ row <> [[]] /\ forall f, In f row -> ~ In cr f) rows /\
  LoadModel.csv_file (fun _ => false) rows = [quote; x61; quote; quote; x62; nl; quote; quote; quote; comma; comma; quote; comma; quote; nl; comma; nl].
Proof.
  cbv zeta. split; [|reflexivity]. constructor; [|constructor; [|constructor]]; (split; [discriminate|]; split; [discriminate|]); intros f Hf X.
  - destruct Hf as [<-|[<-|[<-|[]]]]; cbn in X; intuition discriminate.
  - destruct Hf as [<-|[<-|[]]]; destruct X.
Qed.
Example C67_nontrivial :
  let inp := row1 ++ [cr; nl] ++ (quote :: x61 :: comma :: quote :: tl row1) ++ [nl] ++ row1 in
  single_cr inp /\ (exists r, read_file (S (length inp)) inp = Some ([r; r; r], false)) /\
  exists recs, csv_all (S (length inp)) inp = Some (Ok recs) /\ map (@length bytes) recs = [6; 6; 6].
Proof.
  cbv zeta. split; [cbn; intuition discriminate|]. split; [eexists; vm_compute; reflexivity|]. eexists. split; vm_compute; reflexivity.
Qed.

(** Two carriage returns before a line break: the second stays in the last column for encoding/csv, and is dropped here. *)
Theorem C67_same_refuted : exists inp rows recs fuel, read_file fuel inp = Some (rows, false) /\ csv_all fuel inp = Some (Ok recs) /\ map columns recs <> map Some rows.
Proof.
  exists (row1 ++ [cr; cr; nl]). eexists. eexists. exists 40. split; [vm_compute; reflexivity|]. split; [vm_compute; reflexivity|]. vm_compute. discriminate.
Qed.
Print Assumptions C67_same_refuted.
(** Files that encoding/csv reads, and of which the rest is given up: an empty line; a quoted column with a line break. *)
Theorem C67_accepts_refuted :
  (exists inp rows recs fuel, csv_all fuel inp = Some (Ok recs) /\ length recs = 2 /\ Forall (fun r => columns r <> None) recs /\
     read_file fuel inp = Some (rows, true) /\ length rows = 1) /\
  (exists inp recs fuel, csv_all fuel inp = Some (Ok recs) /\ length recs = 1 /\ Forall (fun r => columns r <> None) recs /\ read_file fuel inp = Some ([], true)).
Proof.
  split.
  - exists (row1 ++ [nl; nl] ++ row1). eexists. eexists. exists 50. split; [vm_compute; reflexivity|]. split; [reflexivity|].
    split; [repeat constructor; vm_compute; discriminate|]. split; [vm_compute; reflexivity | reflexivity].
  - exists (quote :: x61 :: nl :: quote :: tl row1). eexists. exists 50. split; [vm_compute; reflexivity|]. split; [reflexivity|].
    split; [repeat constructor; vm_compute; discriminate | vm_compute; reflexivity].
Qed.
Print Assumptions C67_accepts_refuted.

(** * C68 *)
(** The rows are handed out to workers in any way, each with its own cache of any size. If all rows are accepted, ids of different
    certificates differ, a certificate is always followed by the same certificates in the chains, and no leaf is part of a chain: for
    every row that is not expired, the leaf is sent with its names and the id of its parent, and every certificate of the chain is sent
    with the id of its parent. *)
Theorem C68_all_partial : forall (H : bytes -> bytes) (b64 : bytes -> option bytes) (x509 : bytes -> option cert) not_after now size rows parts,
  (forall p, In p rows -> exists part, In part parts /\ In p part) -> (forall part, In part parts -> incl part rows) ->
  let chain_in rs := exists p r c, In p rows /\ live b64 x509 not_after now p r c /\ chain_raws b64 p rs in
  let leaf_in r := exists p c, In p rows /\ live b64 x509 not_after now p r c in
  (forall r r' : bytes, (leaf_in r \/ exists rs, chain_in rs /\ In r rs) -> (exists rs, chain_in rs /\ In r' rs) -> H r = H r' -> r = r') ->
  (forall rs rs', chain_in rs -> chain_in rs' -> same_tail rs rs') ->
  (forall r rs, leaf_in r -> chain_in rs -> ~ In r rs) ->
  (forall part, In part parts -> snd (worker H b64 x509 not_after now size part []) = true) ->
  let out := flat_map (fun part => fst (worker H b64 x509 not_after now size part [])) parts in
  forall p r c, In p rows -> live b64 x509 not_after now p r c -> exists rs, chain_raws b64 p rs /\ has_leaf H out r c rs /\ has_parents H x509 out rs.
Proof.
  intros H b64 x509 not_after now size rows parts Hc Hi chain_in leaf_in Hinj Htail Hleaf Hok out.
  exact (workers_ok H b64 x509 not_after now size rows Hinj Htail Hleaf parts Hc Hi Hok).
Qed.
Print Assumptions C68_all_partial.
(** Nothing else is sent, whatever the rows and the cache: every certificate sent is the leaf, with its names, or a certificate of the
    chain of a row that is not expired, with the id of its parent. *)
Theorem C68_only : forall (H : bytes -> bytes) (b64 : bytes -> option bytes) (x509 : bytes -> option cert) not_after now size rows cache row,
  In row (fst (worker H b64 x509 not_after now size rows cache)) -> exists p, In p rows /\
    exists r c rs, live b64 x509 not_after now p r c /\ chain_raws b64 p rs /\
      (row = (c, H r, match rs with [] => None | r1 :: _ => Some (H r1) end, Some (cert_names c)) \/
       exists a r' c' t, rs = a ++ r' :: t /\ x509 r' = Some c' /\ row = (c', H r', match t with [] => None | r1 :: _ => Some (H r1) end, None)).
Proof. intros H b64 x509 not_after now size rows cache row. exact (worker_from H b64 x509 not_after now size rows cache row). Qed.
Print Assumptions C68_only.

Module CsvTest.
  (** Certificates are their own ids and encodings; they have no end. *)
  Definition ID (r : bytes) : bytes := r.
  Definition B64 (s : bytes) : option bytes := Some s.
  Definition X509 (r : bytes) : option cert := match r with [] => None | _ => Some (mk_cert r [r]) end.
  Definition work := worker ID B64 X509 (fun _ => 100%Z) 5%Z 10.
  Definition e1 : bytes := [x31; full_stop; x35].
  Definition A : bytes := [x41]. Definition R : bytes := [x52].
  Definition L1 : bytes := [x61]. Definition L2 : bytes := [x62]. Definition L3 : bytes := [x63].
End CsvTest.
Import CsvTest.
Example C68_nontrivial : work [mk_parsed L1 (A ++ semicolon :: R) e1; mk_parsed L2 (A ++ semicolon :: R) e1; mk_parsed L3 R e1] [] =
  ([(mk_cert L1 [L1], L1, Some A, Some [L1]); (mk_cert A [A], A, Some R, None); (mk_cert R [R], R, None, None);
    (mk_cert L2 [L2], L2, Some A, Some [L2]); (mk_cert L3 [L3], L3, Some R, Some [L3])], true).
Proof. vm_compute. reflexivity. Qed.

(** The hypotheses hold for such rows. *)
Example C68_hypotheses :
  let rows := [mk_parsed L1 (A ++ semicolon :: R) e1; mk_parsed L2 R e1] in
  let chain_in rs := exists p r c, In p rows /\ live B64 X509 (fun _ => 100%Z) 5%Z p r c /\ chain_raws B64 p rs in
  let leaf_in r := exists p c, In p rows /\ live B64 X509 (fun _ => 100%Z) 5%Z p r c in
  (exists rs, chain_in rs) /\ (forall rs rs', chain_in rs -> chain_in rs' -> same_tail rs rs') /\ (forall r rs, leaf_in r -> chain_in rs -> ~ In r rs) /\
  snd (work rows []) = true.
Proof.
  intros rows chain_in leaf_in.
  assert (Hch : forall rs, chain_in rs -> rs = [A; R] \/ rs = [R]).
  { intros rs (p & r & c & [<-|[<-|[]]] & _ & X); unfold chain_raws in X; cbn in X; repeat match goal with Y : Forall2 _ _ _ |- _ => inversion Y; clear Y; subst end;
      repeat match goal with Y : B64 _ = Some _ |- _ => injection Y as <- end; auto. }
  assert (Hlf : forall r, leaf_in r -> r = L1 \/ r = L2).
  { intros r (p & c & [<-|[<-|[]]] & X & _); injection X as <-; auto. }
  split; [exists [R], (mk_parsed L2 R e1), L2, (mk_cert L2 [L2]); split; [right; left; reflexivity|]; split; [repeat split; [cbn; lia | exists 1%Z; split; [reflexivity | lia]] | repeat constructor]|].
  split; [|split; [|reflexivity]].
  - intros rs rs' X X' r a t a' t' E E'. destruct (Hch rs X) as [->| ->], (Hch rs' X') as [->| ->];
      repeat (destruct a as [|? a]; cbn [app] in E; try discriminate E; injection E; clear E; intros E; intros; subst; cbn [app] in *; try discriminate);
      repeat (destruct a' as [|? a']; cbn [app] in E'; try discriminate E'; injection E'; clear E'; intros E'; intros; subst; cbn [app] in *; try discriminate); try reflexivity;
      try (destruct a; discriminate); try (destruct a'; discriminate).
  - intros r rs X X'. destruct (Hlf r X) as [->| ->], (Hch rs X') as [->| ->]; cbn; intuition discriminate.
Qed.

(** All rows are accepted, and R, the parent in two rows, is never sent: it is dropped in the second row, after A, which was sent
    before, but kept in the cache. *)
Theorem C68_parent_refuted : exists rows, snd (work rows []) = true /\ (exists p, In p rows /\ In R (split_on semicolon (p_chain p))) /\
  ~ (exists c par nm, In (c, ID R, par, nm) (fst (work rows []))) /\ (exists c nm, In (c, ID L3, Some (ID R), nm) (fst (work rows []))).
Proof.
  exists [mk_parsed L1 A e1; mk_parsed L2 (A ++ semicolon :: R) e1; mk_parsed L3 R e1]. split; [reflexivity|].
  split; [eexists; split; [right; right; left; reflexivity | left; reflexivity]|]. split.
  - intros (c & par & nm & X). vm_compute in X. repeat (destruct X as [X|X]; [discriminate X|]). destruct X.
  - vm_compute. do 2 eexists. do 3 right. left. reflexivity.
Qed.
Print Assumptions C68_parent_refuted.
(** A certificate that was seen as a parent is skipped as a leaf: its names are not sent. *)
Theorem C68_leaf_refuted : exists rows p, In p rows /\ live B64 X509 (fun _ => 100%Z) 5%Z p A (mk_cert A [A]) /\ snd (work rows []) = true /\
  ~ (exists par, In (mk_cert A [A], ID A, par, Some [A]) (fst (work rows []))).
Proof.
  exists [mk_parsed L1 (A ++ semicolon :: R) e1; mk_parsed A R e1]. eexists. split; [right; left; reflexivity|].
  split; [repeat split; [cbn; lia | exists 1%Z; split; [reflexivity | lia]]|]. split; [reflexivity|].
  intros (par & X). vm_compute in X. repeat (destruct X as [X|X]; [discriminate X|]). destruct X.
Qed.
Print Assumptions C68_leaf_refuted.
(** A row without chain, say of a self-signed certificate, is an error and ends the ingestion: the empty string is decoded, and it is
    not a certificate. *)
Theorem C68_empty_chain_refuted : forall (H : bytes -> bytes) b64 (x509 : bytes -> option cert) not_after now size p r c rows cache,
  b64 [] = Some [] -> x509 [] = None -> live b64 x509 not_after now p r c -> p_chain p = [] -> ~ In (H r) cache -> ~ In (H []) cache ->
  worker H b64 x509 not_after now size (p :: rows) cache = ([], false).
Proof.
  intros H b64 x509 not_after now size p r c rows cache Hb Hx (L1 & L2 & L3 & n & L4 & L5) Hp Hr He. cbn [worker]. unfold to_chain. rewrite L4.
  replace (n * 1000000000 <? now)%Z with false by (symmetry; apply Z.ltb_ge; lia). rewrite L1. cbv zeta.
  assert (E1 : lru_contains cache (H r) = false) by (apply not_true_iff_false; rewrite lru_contains_iff; exact Hr).
  assert (E2 : lru_contains cache (H []) = false) by (apply not_true_iff_false; rewrite lru_contains_iff; exact He).
  rewrite E1, L2. replace (not_after c <? now)%Z with false by (symmetry; apply Z.ltb_ge; lia). rewrite Hp. change (split_semicolon []) with [[] : bytes]. cbn [chain_loop]. rewrite Hb. cbv zeta. rewrite E2, Hx. reflexivity.
Qed.
Print Assumptions C68_empty_chain_refuted.
