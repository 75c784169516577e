(** Property theorem C84: what the local log fetcher delivers, for the model in LocalModel.v. *)
From Coq Require Import Permutation Strings.String.
From Verif Require Import Base BaseLemmas UtilModel BatchModel CsvModel CsvProofs LocalModel LocalProofs.
From Verif Require FetchModel FetchSeqProofs PropertiesFetch LoadModel PropertiesCsv.
Local Open Scope list_scope.
Local Notation b_ s := (list_byte_of_string s%string).

(** The rows of the files that can be read, in their order. *)
Definition all_rows (files : list file_data) : list row_out := flat_map (fun f => match f with Readable rows _ => rows | Unreadable => [] end) files.
(** Files with an error: they cannot be read, or not be closed. *)
Definition failing (f : file_data) : bool := match f with Readable _ true => false | _ => true end.
(** The certificates with their chains, the number of expired rows. *)
Definition certs_in (l : list row_out) : list (cert * list cert) := flat_map (fun x => match x with Parsed c ch => [(c, ch)] | _ => [] end) l.
Definition expired_in (l : list row_out) : nat := length (filter (fun x => match x with Expired => true | _ => false end) l).

Lemma errs_count files : sum (map file_errs files) = length (filter failing files).
Proof. induction files as [|[|? []] l IH]; [reflexivity| | |]; cbn [map filter failing file_errs length]; rewrite sum_cons; lia. Qed.

(** For all numbers of readers, parsers, rows in a batch and batches held back, all files whose rows can be parsed, and all schedules of the
    goroutines: when nothing can happen any more, NextBatch has answered false and nothing panicked. Until then it took every certificate of every
    row of the readable files with its chain exactly once, counted every expired row, every batch but the last has exactly [batch] rows and the
    last at least one, and an error was printed for each file that could not be read or closed. *)
Theorem C84_delivered : forall readers parsers batch preload files acts s, 1 <= readers -> 1 <= parsers -> 1 <= batch -> 1 <= preload ->
  ~ In Bad (all_rows files) -> run parsers batch preload (start readers files) acts = Some s -> (forall a, step parsers batch preload s a = None) ->
  over s = true /\ dead s = false /\
  Permutation (flat_map r_certs (got s)) (certs_in (all_rows files)) /\ list_sum (map r_expired (got s)) = expired_in (all_rows files) /\
  errors s = length (filter failing files) /\
  (let n := length (all_rows files) in
   map (fun r => length (r_certs r) + r_expired r) (got s) = repeat batch (n / batch) ++ (if n mod batch =? 0 then [] else [n mod batch])).
Proof.
  intros readers parsers batch preload files acts s Hr Hp Hb Hl N E S. pose proof (ends_well readers parsers batch preload Hr Hp Hb Hl files acts s E S N) as O.
  destruct (delivered readers parsers batch preload Hr Hp Hb Hl files acts s E O) as (A & B & C & _ & D & F). rewrite errs_count in C. auto 10.
Qed.
Print Assumptions C84_delivered.

(** It ends: there is a bound on the number of steps of all schedules, and something can happen until NextBatch answered false or a goroutine
    panicked. *)
Theorem C84_ends : forall readers parsers batch preload files, 1 <= readers -> 1 <= parsers -> 1 <= batch -> 1 <= preload ->
  (exists bound, forall acts s, run parsers batch preload (start readers files) acts = Some s -> length acts <= bound) /\
  (forall acts s, run parsers batch preload (start readers files) acts = Some s -> over s = false -> dead s = false ->
     exists a s', step parsers batch preload s a = Some s') /\
  (~ In Bad (all_rows files) -> forall acts s, run parsers batch preload (start readers files) acts = Some s -> dead s = false).
Proof.
  intros readers parsers batch preload files Hr Hp Hb Hl. split; [|split].
  - exists (mu (start readers files)). intros acts s E. pose proof (run_mu readers parsers batch preload Hr Hp Hb Hl _ _ _ E). lia.
  - intros acts s E O D. destruct (run_inv readers parsers batch preload Hr Hp Hb Hl files acts _ _ (start_inv readers parsers batch preload Hr Hp Hb Hl files) E) as [(D' & _)|I]; [congruence|].
    exact (moves readers parsers batch preload Hr Hp Hb Hl files s I D O).
  - intros N acts s E. exact (never_panics readers parsers batch preload Hr Hp Hb Hl files acts s E N).
Qed.
Print Assumptions C84_ends.

(** The size of the log is recorded, when the last recorded size is [a] and the target [t], exactly if the target is reached at the end of a
    batch: all rows together make up for the difference, or a number of full batches do. *)
Theorem C84_recorded : forall readers parsers batch preload files acts s a t, 1 <= readers -> 1 <= parsers -> 1 <= batch -> 1 <= preload ->
  ~ In Bad (all_rows files) -> run parsers batch preload (start readers files) acts = Some s -> (forall x, step parsers batch preload s x = None) ->
  let n := length (all_rows files) in
  recorded a t (got s) = true <-> (0 < n /\ t = (a + Z.of_nat n)%Z) \/ exists k, 1 <= k /\ k * batch <= n /\ t = (a + Z.of_nat (k * batch))%Z.
Proof.
  intros readers parsers batch preload files acts s a t Hr Hp Hb Hl N E S n. pose proof (ends_well readers parsers batch preload Hr Hp Hb Hl files acts s E S N) as O.
  exact (recorded_when readers parsers batch preload Hr Hp Hb Hl files acts s a t E O).
Qed.
Print Assumptions C84_recorded.

(** With the files of a folder (FetchModel): if each file has as many rows as its name says, and they can be parsed, then an update from [size]
    delivers the rows of the requested files, and records the target if there is one. *)
Lemma gapless_rows (content : nat -> file_data) files : (forall f, In f files -> (FetchModel.fi_start f <= FetchModel.fi_end f)%Z) ->
  (forall f, In f files -> exists rows ok, content (FetchModel.fi_path f) = Readable rows ok /\
     Z.of_nat (length rows) = (FetchModel.fi_end f - FetchModel.fi_start f + 1)%Z) ->
  forall p q size, FetchSeqProofs.gapless files size (p ++ q) ->
  Z.of_nat (length (all_rows (map (fun f => content (FetchModel.fi_path f)) p))) = (FetchSeqProofs.ends size p - size)%Z /\ Forall (fun f => In f files) p.
Proof.
  intros Hup Hc. induction p as [|f p IH]; intros q size G.
  - cbn. split; [lia|constructor].
  - cbn [app] in G. inversion G as [|? ? Hf Hg]; subst. destruct (IH q _ Hg) as [L F]. rewrite FetchSeqProofs.ends_cons. split; [|constructor; auto].
    unfold all_rows in *. cbn [map flat_map]. destruct (Hc f Hf) as (rows & ok & C & Hn). rewrite C, app_length. lia.
Qed.
Theorem C84_update : forall readers parsers batch preload (content : nat -> file_data) names fuel order m max size acts s,
  1 <= readers -> 1 <= parsers -> 1 <= batch -> 1 <= preload ->
  (forall l, Permutation (order l) l) -> (forall f, In f names -> (FetchModel.fi_start f <= FetchModel.fi_end f)%Z) -> length names < fuel ->
  FetchModel.initialize fuel order names = Some (Some m) ->
  (forall f, In f names -> exists rows ok, content (FetchModel.fi_path f) = Readable rows ok /\ ~ In Bad rows /\
     Z.of_nat (length rows) = (FetchModel.fi_end f - FetchModel.fi_start f + 1)%Z) ->
  let target := FetchModel.current_state m max size in
  let files := map (fun f => content (FetchModel.fi_path f)) (FetchModel.requested m size (target - 1)) in
  run parsers batch preload (start readers files) acts = Some s -> (forall x, step parsers batch preload s x = None) ->
  over s = true /\ Permutation (flat_map r_certs (got s)) (certs_in (all_rows files)) /\ list_sum (map r_expired (got s)) = expired_in (all_rows files) /\
  (recorded size target (got s) = true <-> (size < target)%Z) /\ (target = size <-> got s = []) /\
  ((size < target)%Z <-> exists f, In f names /\ FetchModel.fi_start f = size).
Proof.
  intros readers parsers batch preload content names fuel order m max size acts s Hr Hp Hb Hl Ho Hup Hf Hi Hc target files E S.
  destruct (PropertiesFetch.C35_target_partial names fuel order m max size Ho Hup Hf Hi) as (p & q & Hlo & Ht & Hq & Hn & _). fold target in Ht. rewrite <- Ht in Hq.
  unfold files in *. rewrite Hq in *. clear files.
  destruct (gapless_rows content names Hup ltac:(intros f X; destruct (Hc f X) as (rows & ok & A & _ & B); eauto) p q size (proj1 Hlo)) as [L F]. rewrite <- Ht in L.
  assert (N : ~ In Bad (all_rows (map (fun f => content (FetchModel.fi_path f)) p))).
  { intros B. unfold all_rows in B. apply in_flat_map in B as (x & X & B). apply in_map_iff in X as (f & <- & X). rewrite Forall_forall in F.
    destruct (Hc f (F f X)) as (rows & ok & A & NB & _). rewrite A in B. exact (NB B). }
  destruct (C84_delivered readers parsers batch preload _ acts s Hr Hp Hb Hl N E S) as (O & _ & P1 & P2 & _ & M).
  split; [exact O|]. split; [exact P1|]. split; [exact P2|].
  pose proof (C84_recorded readers parsers batch preload _ acts s size target Hr Hp Hb Hl N E S) as R. cbv zeta in R, M.
  set (n := length (all_rows (map (fun f => content (FetchModel.fi_path f)) p))) in *. assert (T : target = (size + Z.of_nat n)%Z) by lia. split; [|split].
  - rewrite R. split.
    + intros [[A B]|(k & A & B & C)]; nia.
    + intros A. left. split; [lia|exact T].
  - split.
    + intros X. assert (n = 0) as Z0 by lia. rewrite Z0, Nat.div_0_l, Nat.mod_0_l in M by lia. apply map_eq_nil in M. exact M.
    + intros X. rewrite X in M. cbn [map] in M. symmetry in M. apply app_eq_nil in M as [M1 M2]. destruct (n mod batch =? 0) eqn:Z; [|discriminate]. apply Nat.eqb_eq in Z.
      assert (n / batch = 0) by (destruct (n / batch); [reflexivity|discriminate M1]). pose proof (Nat.div_mod n batch ltac:(lia)). nia.
  - split.
    + intros X. destruct p as [|f p]; [cbn in Ht; lia|]. destruct Hlo as [G _]. cbn [app] in G. inversion G; subst. eauto.
    + intros (f & I & <-). destruct p as [|g p].
      * exfalso. rewrite (Hn eq_refl) in Hlo. destruct Hlo as [_ Hx]. exact (Hx f I eq_refl).
      * cbn [map] in n. unfold all_rows in n. cbn [flat_map] in n. assert (0 < n); [|lia]. inversion F; subst. destruct (Hc g ltac:(assumption)) as (rows & ok & A & _ & B).
        unfold n. rewrite A, app_length. pose proof (Hup g ltac:(assumption)). lia.
Qed.
Print Assumptions C84_update.

(** What becomes of a row of a file: a certificate with its chain, or counted as expired; anything else is an error. *)
Theorem C84_row : forall b64 (x509 : bytes -> option cert) not_after now fs,
  let expires n := exists a b, last fs [] = a ++ full_stop :: b /\ ~ In full_stop a /\ ~ In full_stop b /\ parse_int a = Some n in
  let leaf c := exists s r, nth_error fs 3 = Some s /\ b64 s = Some r /\ x509 r = Some c in
  (forall c ch, parse_row b64 x509 not_after now fs = Parsed c ch <->
     (exists n, expires n /\ (now <= n * 1000000000)%Z) /\ leaf c /\ (now <= not_after c)%Z /\
     exists parts, nth_error fs 4 = Some (join_with semicolon parts) /\ parts <> [] /\ (forall p, In p parts -> ~ In semicolon p) /\
       Forall2 (fun p c => exists r, b64 p = Some r /\ x509 r = Some c) parts ch) /\
  (parse_row b64 x509 not_after now fs = Expired <->
     exists n, expires n /\ ((n * 1000000000 < now)%Z \/ exists c, leaf c /\ (not_after c < now)%Z /\ (now <= n * 1000000000)%Z)).
Proof.
  intros b64 x509 not_after now fs expires leaf. split.
  - intros c ch. rewrite row_parsed. split.
    + intros ((n & A & B) & C). split; [exists n; split; [apply expiration_iff, A|exact B]|exact C].
    + intros ((n & A & B) & C). split; [exists n; split; [apply expiration_iff, A|exact B]|exact C].
  - rewrite row_expired. split.
    + intros (n & A & B). exists n. split; [apply expiration_iff, A|]. destruct B as [B|(s & r & c & B1 & B2 & B3 & B4 & B5)]; [auto|]. right. exists c. split; [exists s, r; auto|auto].
    + intros (n & A & B). exists n. split; [apply expiration_iff, A|]. destruct B as [B|(c & (s & r & B1 & B2 & B3) & B4 & B5)]; [auto|]. right. exists s, r, c. auto.
Qed.
Print Assumptions C84_row.

(** A file that encoding/csv wrote ([LoadModel.csv_file]), of records without carriage returns and not only of an empty field: every record is a row. *)
Theorem C84_file : forall b64 (x509 : bytes -> option cert) not_after now space records ok,
  Forall (fun row => row <> [] /\ row <> [[]] /\ forall f, In f row -> ~ In cr f) records ->
  load b64 x509 not_after now (Some (LoadModel.csv_file space records)) ok = Readable (map (parse_row b64 x509 not_after now) records) ok.
Proof.
  intros b64 x509 not_after now space records ok F. unfold load.
  assert (L : length records <= length (LoadModel.csv_file space records)).
  { clear. induction records as [|r l IH]; [cbn; lia|]. unfold LoadModel.csv_file in *. cbn [map concat length] in *. rewrite !app_length. cbn [length]. lia. }
  rewrite (PropertiesCsv.C67_written space records F) by lia. f_equal. f_equal. clear L. induction F as [|r l (N & _) F IH]; [reflexivity|]. cbn [filter].
  destruct r; [contradiction|]. cbn. now rewrite IH.
Qed.
Print Assumptions C84_file.

(** The files of a folder: those whose name is two numbers with a dash and .gz or .csv. It is an error if one of the two parts of such a name is
    not a number. *)
Theorem C84_folder : forall walk,
  let named (gz : bool) (name a b : bytes) := name = a ++ b_ "-" ++ b ++ (if gz then b_ ".gz" else b_ ".csv") /\ ~ In x2d a /\ ~ In x2d b in
  let bad (name : bytes) := exists gz a b, named gz name a b /\ (parse_int a = None \/ parse_int b = None) in
  ((exists e, In e walk /\ e_dir e = false /\ bad (e_name e)) /\ folder_files (Some walk) = Err) \/
  ((forall e, In e walk -> e_dir e = false -> ~ bad (e_name e)) /\ exists l, folder_files (Some walk) = Ok l /\
     forall f, In f l <-> exists e, In e walk /\ e_dir e = false /\ e_path e = fd_path f /\
       exists a b, named (fd_gz f) (e_name e) a b /\ parse_int a = Some (fd_start f) /\ parse_int b = Some (fd_end f)).
Proof.
  intros walk named bad. destruct (list_files_iff walk [] []) as [[A B]|[A (l & B & C)]]; [left|right].
  - split; [exact A|exact B].
  - split; [exact A|]. exists l. split; [exact B|]. intros f. rewrite C. split; [intros [[]|[[]|X]]; exact X|]. intros X. right. right. exact X.
Qed.
Print Assumptions C84_folder.

(** ** A non-trivial case *)
(** Three files, one of which cannot be read, with five rows, one of them expired; two readers, two parsers, batches of two rows. *)
Definition ex_cert (b : byte) : cert := mk_cert [b] [[b]].
Definition ex_row (b : byte) : row_out := Parsed (ex_cert b) [ex_cert x2a].
Definition ex_data : list file_data := [Readable [ex_row x61; Expired] true; Unreadable; Readable [ex_row x62; ex_row x63; ex_row x64] true].
Definition ex_acts : list act :=
  [Take 0; Take 1; Hand 0; Hand 0; Emit 0 1; Report 1; Take 1; Hand 1; Hand 1; Emit 1 1; Push; Next; Emit 0 0; Finish 0; Take 0; Hand 1; Emit 1 0; Push; Emit 1 0;
   Finish 1; Next; Take 1; Close; Push; Next; Next].
Example C84_example : ~ In Bad (all_rows ex_data) /\
  match run 2 2 2 (start 2 ex_data) ex_acts with
  | Some s => (forall a, step 2 2 2 s a = None) /\ map r_certs (got s) = [[(ex_cert x63, [ex_cert x2a])]; [(ex_cert x61, [ex_cert x2a]); (ex_cert x62, [ex_cert x2a])]; [(ex_cert x64, [ex_cert x2a])]] /\
      map r_expired (got s) = [1; 0; 0] /\ errors s = 1 /\ over s = true /\ recorded 10 15 (got s) = true
  | None => False
  end.
Proof.
  split; [cbn; intuition discriminate|]. vm_compute. split; [|repeat split].
  intros [i|i|i j|i|i| | |]; try reflexivity; destruct i as [|[|[|i]]]; reflexivity.
Qed.
(** Files 0-1 and 2-4 of a folder with five rows; the update from 0 reads both and records 5. *)
Definition ex_names : list FetchModel.file := [FetchModel.mk_file 2 4 2; FetchModel.mk_file 0 1 1].
Definition ex_content (path : nat) : file_data := match path with 1 => Readable [ex_row x61; Expired] true | _ => Readable [ex_row x62; ex_row x63; ex_row x64] true end.
Definition ex_acts' : list act :=
  [Take 0; Take 1; Hand 0; Hand 0; Emit 0 1; Hand 1; Hand 1; Emit 1 1; Push; Next; Emit 0 0; Finish 0; Take 0; Hand 1; Emit 1 0; Push; Emit 1 0;
   Finish 1; Next; Take 1; Close; Push; Next; Next].
Example C84_update_example : match FetchModel.initialize 3 (@rev Z) ex_names with
  | Some (Some m) => FetchModel.current_state m 100 0 = 5%Z /\
      match run 2 2 2 (start 2 (map (fun f => ex_content (FetchModel.fi_path f)) (FetchModel.requested m 0 4))) ex_acts' with
      | Some s => over s = true /\ recorded 0 5 (got s) = true /\ length (flat_map r_certs (got s)) = 4 /\ errors s = 0
      | None => False
      end
  | _ => False
  end.
Proof. vm_compute. auto. Qed.
(** A row with a chain of two certificates, one that expired, and names of files. *)
Definition idb64 (x : bytes) : option bytes := Some x.
Definition idx509 (x : bytes) : option cert := match x with [b] => Some (ex_cert b) | _ => None end.
Example C84_row_example :
  parse_row idb64 idx509 (fun _ => 2000000000%Z) 2000000000 [b_ "0"; b_ ""; b_ ""; b_ "c"; b_ "i;r"; b_ "a.test"; b_ "5.75"] = Parsed (ex_cert x63) [ex_cert x69; ex_cert x72] /\
  parse_row idb64 idx509 (fun _ => 2000000000%Z) 2000000000 [b_ "c"; b_ "1.75"] = Expired /\
  parse_row idb64 idx509 (fun _ => 1999999999%Z) 2000000000 [b_ "0"; b_ ""; b_ ""; b_ "c"; b_ ""; b_ "2.0"] = Expired /\
  folder_files (Some [mk_entry (b_ "d") (b_ "1-x.gz") true; mk_entry (b_ "d/10-19.csv") (b_ "10-19.csv") false; mk_entry (b_ "d/a-b-c.csv") (b_ "a-b-c.csv") false;
    mk_entry (b_ "d/0-9.gz") (b_ "0-9.gz") false]) = Ok [mk_found (b_ "d/0-9.gz") true 0 9; mk_found (b_ "d/10-19.csv") false 10 19].
Proof. vm_compute. auto. Qed.

(** ** What fails *)
(** A single row that cannot be parsed: whatever the schedule, the update server panics. A certificate without a chain (an empty column) is such a row. *)
Theorem C84_bad_row_refuted : forall readers parsers batch preload files acts s, 1 <= readers -> 1 <= parsers -> 1 <= batch -> 1 <= preload ->
  In Bad (all_rows files) -> run parsers batch preload (start readers files) acts = Some s -> (forall a, step parsers batch preload s a = None) ->
  dead s = true /\ over s = false.
Proof. intros readers parsers batch preload files acts s Hr Hp Hb Hl B E S. exact (panics readers parsers batch preload Hr Hp Hb Hl files acts s E S B). Qed.
Print Assumptions C84_bad_row_refuted.
Theorem C84_empty_chain_refuted : forall b64 (x509 : bytes -> option cert) not_after now a b c n s e r leaf,
  expiration e = Some n -> (now <= n * 1000000000)%Z -> b64 s = Some r -> x509 r = Some leaf -> (now <= not_after leaf)%Z -> b64 [] = Some [] -> x509 [] = None ->
  parse_row b64 x509 not_after now [a; b; c; s; []; e] = Bad.
Proof.
  intros b64 x509 not_after now a b c n s e r leaf E Hn B X A B0 X0. unfold parse_row. cbn [last nth_error CertificateColumn CertChainColumn]. rewrite E, B, X.
  replace (n * 1000000000 <? now)%Z with false by (symmetry; apply Z.ltb_ge; lia). replace (not_after leaf <? now)%Z with false by (symmetry; apply Z.ltb_ge; lia).
  cbn. now rewrite B0, X0.
Qed.
Print Assumptions C84_empty_chain_refuted.
(** A file with a row less than its name says: in every execution all rows are delivered, but the size is not recorded, and the next update reads the same
    files again. *)
Theorem C84_short_refuted : exists files a t, all_rows files <> [] /\ (exists f rows, In f files /\ f = Readable rows true) /\
  (t - a = Z.of_nat (length (all_rows files)) + 1)%Z /\
  forall readers parsers batch preload acts s, 1 <= readers -> 1 <= parsers -> 3 <= batch -> 1 <= preload ->
    run parsers batch preload (start readers files) acts = Some s -> (forall x, step parsers batch preload s x = None) ->
    over s = true /\ Permutation (flat_map r_certs (got s)) (certs_in (all_rows files)) /\ recorded a t (got s) = false.
Proof.
  exists [Readable [ex_row x61; ex_row x62] true], 0%Z, 3%Z. split; [discriminate|]. split; [eexists; eexists; split; [left; reflexivity|reflexivity]|]. split; [reflexivity|].
  intros readers parsers batch preload acts s Hr Hp Hb Hl E S. assert (N : ~ In Bad (all_rows [Readable [ex_row x61; ex_row x62] true])) by (cbn; intuition discriminate).
  destruct (C84_delivered readers parsers batch preload _ acts s Hr Hp ltac:(lia) Hl N E S) as (O & _ & P & _). split; [exact O|]. split; [exact P|].
  pose proof (C84_recorded readers parsers batch preload _ acts s 0 3 Hr Hp ltac:(lia) Hl N E S) as R. cbv zeta in R. destruct (recorded 0 3 (got s)); [|reflexivity].
  exfalso. destruct (proj1 R eq_refl) as [[_ X]|(k & K1 & K2 & _)]; [cbn in X; lia|]. cbn in K2. nia.
Qed.
Print Assumptions C84_short_refuted.
(** A file that cannot be read beside one that has more rows than its name says: the size is recorded, the rows of the first file are lost. *)
Theorem C84_lost_refuted : exists files a t, In Unreadable files /\
  forall readers parsers batch preload acts s, 1 <= readers -> 1 <= parsers -> 1 <= batch -> 1 <= preload ->
    run parsers batch preload (start readers files) acts = Some s -> (forall x, step parsers batch preload s x = None) ->
    over s = true /\ errors s = 1 /\ recorded a t (got s) = true.
Proof.
  exists [Unreadable; Readable [ex_row x61; ex_row x62] true], 0%Z, 2%Z. split; [left; reflexivity|]. intros readers parsers batch preload acts s Hr Hp Hb Hl E S.
  assert (N : ~ In Bad (all_rows [Unreadable; Readable [ex_row x61; ex_row x62] true])) by (cbn; intuition discriminate).
  destruct (C84_delivered readers parsers batch preload _ acts s Hr Hp Hb Hl N E S) as (O & _ & _ & _ & Er & _). split; [exact O|]. split; [exact Er|].
  apply (C84_recorded readers parsers batch preload _ acts s 0 2 Hr Hp Hb Hl N E S). left. split; [cbn; lia|reflexivity].
Qed.
Print Assumptions C84_lost_refuted.
(** A line that is no CSV costs the whole file, and only an error is printed. *)
Theorem C84_broken_file_refuted : exists first broken, 
  load idb64 idx509 (fun _ => 2000000000%Z) 2000000000 (Some first) true = Readable [Parsed (ex_cert x63) [ex_cert x69; ex_cert x72]] true /\
  load idb64 idx509 (fun _ => 2000000000%Z) 2000000000 (Some (first ++ broken)) true = Unreadable.
Proof. exists (b_ "0,,,c,i;r,a.test,5.75" ++ [nl]), (b_ "a""b" ++ [nl]). split; vm_compute; reflexivity. Qed.
Print Assumptions C84_broken_file_refuted.
(** A folder that does not exist, and a file that has nothing to do with it. *)
Theorem C84_folder_refuted : folder_files None = Panic /\ folder_files (Some [mk_entry (b_ "d/0-9.gz") (b_ "0-9.gz") false; mk_entry (b_ "d/read-me.csv") (b_ "read-me.csv") false]) = Err.
Proof. split; vm_compute; reflexivity. Qed.
Print Assumptions C84_folder_refuted.
