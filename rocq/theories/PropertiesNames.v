(** C70: the estimate of rows agrees with the journal; C28: one entry per directory. *)
From Coq Require Import String Permutation.
From Verif Require Import Base BaseLemmas UtilModel JournalModel JournalProofs ListModel ListProofs NamesModel NamesProofs.
Local Open Scope list_scope.
Definition nb (s : string) : bytes := list_byte_of_string s.

(** ** C70. The estimate accepts a data file exactly if the journal does, with the same indices, as long as the last index is below 2^63; and the
    estimate is then the number of indices. The journal takes the digits before and after the dash as decimal numbers ([C28_parse]). *)
Theorem C70_agree p ext x y : ext = dot_gz \/ ext = dot_csv -> (y < 2 ^ 63)%N ->
  (indices (p ++ ext) = Some (x, y) <-> parse_file (p ++ ext) = Some (mk_iv x y)).
Proof. exact (names_agree ext p x y). Qed.
Theorem C70_estimate p ext iv : ext = dot_gz \/ ext = dot_csv -> parse_file (p ++ ext) = Some iv ->
  estimate (p ++ ext) = if (iv_e iv <? 2 ^ 63)%N then Some (iv_e iv - iv_s iv + 1)%N else None.
Proof. intros He Hp. apply estimate_file; [exists p, ext; auto | exact Hp]. Qed.
(** All files of the listing have one of the extensions. *)
Theorem C70_listed pdq path n f : (forall l, Permutation (pdq l) l) -> In f (fst (list_files pdq path n)) \/ In f (snd (list_files pdq path n)) ->
  exists p ext, f = p ++ ext /\ (ext = dot_gz \/ ext = dot_csv).
Proof. intros Hp. exact (listed_data pdq Hp n path f). Qed.
Example C70_names : indices (nb "/data/x/bundled/000-099.gz") = Some (0, 99)%N /\ parse_file (nb "/data/x/bundled/000-099.gz") = Some (mk_iv 0 99) /\
  estimate (nb "/data/x/bundled/000-099.gz") = Some 100%N /\ indices (nb "9-3.csv") = None /\ parse_file (nb "9-3.csv") = None /\
  indices (nb "1-2.csv.gz") = None /\ parse_file (nb "1-2.csv.gz") = None /\
  (* without a dot the two differ, but such a file is not listed *) indices (nb "1-23gz") = Some (1, 2)%N /\ parse_file (nb "1-23gz") = None.
Proof. vm_compute. auto 10. Qed.
(** The total shown is the number of indices of all files, as a signed number of 64 bits. *)
Theorem C70_total files : files <> [] -> (forall f, In f files -> exists p ext, f = p ++ ext /\ (ext = dot_gz \/ ext = dot_csv)) ->
  (forall f, In f files -> exists iv, parse_file f = Some iv /\ (iv_e iv < 2 ^ 63)%N) ->
  total_rows 0 files = Some (int64_wrap (fold_right (fun f n => (match parse_file f with Some iv => Z.of_N (iv_e iv) - Z.of_N (iv_s iv) + 1 | None => 0 end + n)%Z) 0%Z files)).
Proof.
  intros Hne Hd Hp. rewrite (proj1 (total_ok files 0 ltac:(apply Forall_forall; exact Hd)
    ltac:(apply Forall_forall; intros f Hf; destruct (Hp f Hf) as (iv & E & _); congruence))).
  - destruct files; [congruence | reflexivity].
  - apply Forall_forall. intros f Hf iv E. destruct (Hp f Hf) as (iv2 & E2 & Hlt). rewrite E in E2. injection E2 as ->. exact Hlt.
Qed.
(** A run with the estimate does the same as the run of C31 without. Partial: no pending file has an index of 2^63 or more. *)
Theorem C70_run_partial ok key s go size files w : (forall f, In f files -> exists p ext, f = p ++ ext /\ (ext = dot_gz \/ ext = dot_csv)) ->
  (forall todo f iv, pending_files key files (j_completed (last_job (mem (w_journal w)))) = Some todo -> In f todo -> parse_file f = Some iv -> (iv_e iv < 2 ^ 63)%N) ->
  run_counted ok key s go size files w = run_ingest ok key s go size files w.
Proof.
  intros Hd Hs. apply counted_same; [apply Forall_forall; exact Hd|]. intros todo E. apply Forall_forall. intros f Hf iv Ep. exact (Hs todo f iv E Hf Ep).
Qed.
(** Refuted without that: for every journal, one such pending file ends every run before anything is ingested, although the journal accepts it. *)
Theorem C70_big_index_refuted ok key s go size files w todo f iv : (forall f, In f files -> exists p ext, f = p ++ ext /\ (ext = dot_gz \/ ext = dot_csv)) ->
  st_ingest s = true -> pending_files key files (j_completed (last_job (mem (w_journal w)))) = Some todo -> In f todo -> parse_file f = Some iv -> (2 ^ 63 <= iv_e iv)%N ->
  run_counted ok key s go size files w = (mk_world (fst (write (ok (length (w_trace w))) (w_journal w))) (w_trace w), false).
Proof.
  intros Hd Hi E Hf Ep Hb. apply (counted_stops ok key s go size files w todo); [apply Forall_forall; exact Hd | exact Hi | exact E|].
  apply Exists_exists. exists f. split; [exact Hf|]. intros Hs. specialize (Hs iv Ep). lia.
Qed.
Definition start : world := mk_world (mk_journal [mk_job false false 0 []] []) [].
Example C70_run_example :
  total_rows 0 [nb "0-4.gz"; nb "5-9.csv"; nb "20-20.gz"] = Some 11%Z /\
  (let (w, r) := run_counted (fun _ => true) (nb "/d") full_run (fun _ => true) 2 [nb "0-4.gz"; nb "5-9.csv"; nb "20-20.gz"] start in r = true /\ length (w_trace w) = 8) /\
  (let (w, r) := run_counted (fun _ => true) (nb "/d") full_run (fun _ => true) 2 [nb "0-4.gz"; nb "5-9223372036854775808.gz"] start in r = false /\ w_trace w = []) /\
  (let (w, r) := run_ingest (fun _ => true) (nb "/d") full_run (fun _ => true) 2 [nb "0-4.gz"; nb "5-9223372036854775808.gz"] start in r = true /\ length (w_trace w) = 4).
Proof. vm_compute. auto 10. Qed.
Print Assumptions C70_agree.
Print Assumptions C70_estimate.
Print Assumptions C70_listed.
Print Assumptions C70_total.
Print Assumptions C70_run_partial.
Print Assumptions C70_big_index_refuted.

(** ** C28: after any commands, every job in the file has one entry per directory (the file is a JSON object, where a second one would win). *)
Theorem C28_one_entry cs d : In d (p_disk (exec_all cs (mk_past [] []))) -> NoDup (map fst (d_completed d)).
Proof.
  intros Hd. assert (H : disk_unique (p_disk (exec_all cs (mk_past [] [])))) by (apply exec_all_unique; constructor). unfold disk_unique in H. rewrite Forall_forall in H. exact (H d Hd).
Qed.
Definition ex_commands : list command :=
  [CIngest true (fun _ => true) (nb "/a") only_ingest (fun _ => true) 1 [nb "0-4.gz"; nb "10-14.gz"]; CIngest true (fun _ => true) (nb "/b") only_ingest (fun _ => true) 1 [nb "0-4.gz"];
   CIngest true (fun _ => true) (nb "/a") only_ingest (fun _ => true) 1 [nb "5-9.gz"]].
Example C28_one_entry_example : map d_completed (p_disk (exec_all ex_commands (mk_past [] []))) =
  [[(nb "/a", [nb "0-4"; nb "10-14"])]; [(nb "/a", [nb "0-4"; nb "10-14"]); (nb "/b", [nb "0-4"])]; [(nb "/a", [nb "0-14"]); (nb "/b", [nb "0-4"])]].
Proof. vm_compute. reflexivity. Qed.
Print Assumptions C28_one_entry.
