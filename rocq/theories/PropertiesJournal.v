(** Properties of the ingest journal: C26-C32. *)
From Coq Require Import Permutation Sorted ZArith String.
From Verif Require Import Base BaseLemmas UtilModel JournalModel JournalIntervals JournalProofs JournalRun FsModel FsProofs ListModel ListProofs.
Local Open Scope list_scope.
Definition b_ (s : string) : bytes := list_byte_of_string s.

(** ** C26. [spec_events] keeps the committed (directory, interval) pairs in memory and on disk; [in_set] is plain membership of an
    index. Histories open the journal any number of times, with failing writes in between. Partial: needs file ends below 2^64-1. *)
Theorem C26_partial es : Forall event_ok es ->
  exists j, run_events es fresh = Some j /\
  (forall k i, jobs_cover (mem j) k i <-> in_set (s_mem (spec_events es (mk_spec false [] []))) k i) /\
  (forall k l, In (k, l) (j_completed (last_job (mem j))) -> canonical l) /\
  exists jobs, map encode_job jobs = disk j /\ forall k i, jobs_cover jobs k i <-> in_set (s_disk (spec_events es (mk_spec false [] []))) k i.
Proof.
  intros He. destruct (run_events_inv es fresh _ He fresh_inv) as (j & Hr & HJ). exists j. split; [exact Hr|].
  destruct HJ as [Jm Jc Jo (jobs & Jd & Jk & Jx)]. split; [exact Jc|]. split.
  - intros k l Hin. exact (proj1 (proj2 (jobs_ok_last _ Jm k l Hin))).
  - exists jobs. auto.
Qed.
Definition dirA : bytes := b_ "ctlog".
Definition ex_events : list event :=
  [EOpen true; ECommit true dirA [b_ "0-4.gz"; b_ "10-14.csv"] false false; ECommit false dirA [b_ "5-9.gz"] true true; EOpen true;
   ECommit true dirA [b_ "20-24.gz"; b_ "/data/15-19.gz"] true true].
Definition ex_journal : journal := Eval vm_compute in match run_events ex_events fresh with Some j => j | None => fresh end.
Example C26_example : Forall event_ok ex_events /\ run_events ex_events fresh = Some ex_journal /\
  j_completed (last_job (mem ex_journal)) = [(dirA, [mk_iv 0 4; mk_iv 10 24])].
Proof.
  split; [|split; [vm_compute; reflexivity | reflexivity]].
  assert (Hc : forall ok k fs c s, k <> [] -> forallb (fun iv => N.ltb (iv_e iv + 1) (2 ^ 64)) (file_intervals fs) = true -> event_ok (ECommit ok k fs c s)).
  { intros ok k fs c s Hk Hf. split; [exact Hk|]. rewrite Forall_forall. intros iv Hiv. rewrite forallb_forall in Hf. apply N.ltb_lt. exact (Hf iv Hiv). }
  constructor; [exact I|]. constructor; [apply Hc; [discriminate | vm_compute; reflexivity]|]. constructor; [apply Hc; [discriminate | vm_compute; reflexivity]|].
  constructor; [exact I|]. constructor; [apply Hc; [discriminate | vm_compute; reflexivity]|]. constructor.
Qed.
(** At the largest index the sum in canMerge wraps around: overlapping intervals are kept apart. *)
Theorem C26_refuted : exists es j l, run_events es fresh = Some j /\
  (forall e, In e es -> match e with ECommit _ key files _ _ => key <> [] /\ forall f, In f files -> parse_file f <> None | _ => True end) /\
  In (dirA, l) (j_completed (last_job (mem j))) /\ ~ canonical l.
Proof.
  exists [EOpen true; ECommit true dirA [b_ "5-18446744073709551615.gz"; b_ "3-10.gz"] false false].
  eexists. exists [mk_iv 3 10; mk_iv 5 18446744073709551615]. split; [vm_compute; reflexivity|]. split.
  { intros e [<-|[<-|[]]]; [exact I|]. split; [discriminate|]. intros f [<-|[<-|[]]]; vm_compute; discriminate. }
  split; [left; vm_compute; reflexivity|]. intros [Hs _]. inversion Hs as [|? ? _ Hg]; subst. inversion Hg as [|? ? Hgap _]; subst. unfold gap in Hgap. cbn in Hgap. lia.
Qed.
Print Assumptions C26_partial.
Print Assumptions C26_refuted.

(** ** C27 *)
Theorem C27_partial es j key files : Forall event_ok es -> run_events es fresh = Some j -> (forall f, In f files -> parse_file f <> None) ->
  exists sel, pending_files key files (j_completed (last_job (mem j))) = Some (filter sel files) /\
  forall f iv, In f files -> parse_file f = Some iv ->
    (sel f = true <-> exists i, (iv_s iv <= i <= iv_e iv)%N /\ ~ in_set (s_mem (spec_events es (mk_spec false [] []))) key i).
Proof.
  intros He Hr Hf. destruct (run_events_inv es fresh _ He fresh_inv) as (j' & Hr' & HJ). rewrite Hr in Hr'. injection Hr' as <-.
  destruct (pending_ok key files _ (jobs_ok_last _ (ji_mem _ _ HJ)) Hf) as (sel & Hp & Hsel). exists sel. split; [exact Hp|].
  intros f iv Hin Hq. rewrite (Hsel f iv Hin Hq). split; intros (i & Hi & Hn); exists i; (split; [exact Hi|]); intros Hx; apply Hn; apply (ji_cov _ _ HJ); exact Hx.
Qed.
Example C27_example : run_events ex_events fresh = Some ex_journal /\
  pending_files dirA [b_ "0-4.gz"; b_ "3-9.gz"; b_ "10-19.gz"; b_ "20-30.csv"] (j_completed (last_job (mem ex_journal))) = Some [b_ "3-9.gz"; b_ "20-30.csv"].
Proof. split; vm_compute; reflexivity. Qed.
(** Same wrap-around: a fully covered file is reported as pending. *)
Theorem C27_refuted : exists es j f iv, run_events es fresh = Some j /\ parse_file f = Some iv /\
  (forall i, (iv_s iv <= i <= iv_e iv)%N -> jobs_cover (mem j) dirA i) /\
  pending_files dirA [f] (j_completed (last_job (mem j))) = Some [f].
Proof.
  exists [EOpen true; ECommit true dirA [b_ "5-18446744073709551615.gz"; b_ "3-10.gz"] false false].
  eexists. exists (b_ "3-18446744073709551615.gz"). exists (mk_iv 3 18446744073709551615). split; [vm_compute; reflexivity|]. split; [vm_compute; reflexivity|]. split; [|vm_compute; reflexivity].
  cbn [iv_s iv_e]. intros i Hi. exists [mk_iv 3 10; mk_iv 5 18446744073709551615]. split; [vm_compute; reflexivity|].
  destruct (N.le_gt_cases i 10) as [H1|H1].
  - exists (mk_iv 3 10). cbn [iv_s iv_e]. split; [left; reflexivity | lia].
  - exists (mk_iv 5 18446744073709551615). cbn [iv_s iv_e]. split; [right; left; reflexivity | lia].
Qed.
Print Assumptions C27_partial.
Print Assumptions C27_refuted.

(** ** C28. A string is an interval exactly if it is digits, minus, digits, with start <= end < 2^64. *)
Theorem C28_parse s iv : parse_interval s = Some iv <-> exists a b,
  s = a ++ x2d :: b /\ a <> [] /\ b <> [] /\ (forall c, In c (a ++ b) -> is_digit c = true) /\
  dec_value a = iv_s iv /\ dec_value b = iv_e iv /\ (iv_s iv <= iv_e iv < 2 ^ 64)%N.
Proof. exact (parse_interval_iff s iv). Qed.
Theorem C28_interval_round_trip iv : (iv_s iv <= iv_e iv < 2 ^ 64)%N -> parse_interval (show_interval iv) = Some iv.
Proof. exact (parse_show iv). Qed.
Theorem C28_indices_round_trip c : (forall k l, In (k, l) c -> Forall in_uint l) ->
  decode_completed (map (fun kv => (fst kv, map show_interval (snd kv))) c) = Some c.
Proof. exact (decode_encode c). Qed.
(** Reading also normalises; canonical lists stay as they are. *)
Theorem C28_job_round_trip j : good_completed (j_completed j) -> decode_job (encode_job j) = Some j.
Proof. exact (decode_encode_job j). Qed.
Example C28_example :
  let j := mk_job true false 25 [(dirA, [mk_iv 0 4; mk_iv 10 18446744073709551615])] in
  good_completed (j_completed j) /\ d_completed (encode_job j) = [(dirA, [b_ "0-4"; b_ "10-18446744073709551615"])] /\
  parse_interval (b_ "4-3") = None /\ parse_interval (b_ "4-18446744073709551616") = None /\ parse_interval (b_ "007-8") = Some (mk_iv 7 8).
Proof.
  cbv zeta. split; [|vm_compute; auto 6]. intros k l [[= <- <-]|[]]. split; [discriminate|]. split.
  - split.
    + constructor; [constructor; [constructor | constructor] | constructor; [vm_compute; reflexivity | constructor]].
    + constructor; [vm_compute; discriminate | constructor; [vm_compute; discriminate | constructor]].
  - constructor; [split; [vm_compute; discriminate | vm_compute; reflexivity] | constructor; [split; [vm_compute; discriminate | vm_compute; reflexivity] | constructor]].
Qed.
Print Assumptions C28_parse.
Print Assumptions C28_interval_round_trip.
Print Assumptions C28_indices_round_trip.
Print Assumptions C28_job_round_trip.

(** ** C29. Partial: the first completed interval has to start at index 0; the code does not check it. *)
Theorem C29_partial es j key size : Forall event_ok es -> run_events es fresh = Some j ->
  completed_ct_size (j_completed (last_job (mem j))) key = Some size ->
  in_set (s_mem (spec_events es (mk_spec false [] []))) key 0 ->
  forall i, (Z.of_N i < size)%Z -> in_set (s_mem (spec_events es (mk_spec false [] []))) key i.
Proof.
  intros He Hr Hs H0 i Hi. destruct (run_events_inv es fresh _ He fresh_inv) as (j' & Hr' & HJ). rewrite Hr in Hr'. injection Hr' as <-.
  pose proof (jobs_ok_last _ (ji_mem _ _ HJ)) as Hst. apply (ji_cov _ _ HJ). apply (ct_size_ok _ key size Hst Hs); [|exact Hi].
  intros iv l Hk. apply (ji_cov _ _ HJ) in H0 as (l' & Hk' & x & Hx & Hxi). rewrite Hk in Hk'. injection Hk' as <-.
  destruct Hx as [<-|Hx]; [lia|]. destruct (Hst key (iv :: l) (get_key_In _ _ _ Hk)) as (_ & Hc & _). apply canonical_cons in Hc as (_ & _ & Hg).
  specialize (Hg x Hx). unfold gap in Hg. lia.
Qed.
(** And nothing is under-claimed: the entry after the recorded ones is not ingested. *)
Theorem C29_exact es j key size : Forall event_ok es -> run_events es fresh = Some j ->
  completed_ct_size (j_completed (last_job (mem j))) key = Some size -> (0 < size)%Z ->
  ~ in_set (s_mem (spec_events es (mk_spec false [] []))) key (Z.to_N size).
Proof.
  intros He Hr Hs Hpos Hin. destruct (run_events_inv es fresh _ He fresh_inv) as (j' & Hr' & HJ). rewrite Hr in Hr'. injection Hr' as <-.
  pose proof (jobs_ok_last _ (ji_mem _ _ HJ)) as Hst. apply (ji_cov _ _ HJ) in Hin.
  unfold jobs_cover in Hin. destruct Hin as (l & Hk & x & Hx & Hxi).
  destruct l as [|iv l]; [destruct Hx|].
  destruct (Z.lt_ge_cases (Z.of_N (iv_e iv)) (2 ^ 63 - 1)) as [Hlt|Hge].
  - destruct (ct_size_exact _ key size iv l Hst Hs Hk Hlt) as [-> Hn]. apply Hn. exists (iv :: l). split; [exact Hk|]. exists x. split; [exact Hx|]. lia.
  - exfalso. unfold completed_ct_size in Hs. rewrite Hk in Hs. injection Hs as <-.
    destruct (Hst key (iv :: l) (get_key_In _ _ _ Hk)) as (_ & _ & Hm). inversion Hm as [|? ? Hm0 _]; subst. unfold below_max in Hm0.
    unfold int64_wrap in Hpos. set (e := Z.of_N (iv_e iv)) in *. assert (He2 : (2 ^ 63 - 1 <= e < 2 ^ 64 - 1)%Z) by (unfold e; lia). clearbody e.
    destruct (Z.eq_dec e (2 ^ 63 - 1)) as [->|Hne]; [vm_compute in Hpos; discriminate|].
    assert (Hmod : ((e + 2 ^ 63) mod 2 ^ 64 = e - 2 ^ 63)%Z).
    { replace (e + 2 ^ 63)%Z with (e - 2 ^ 63 + 1 * 2 ^ 64)%Z by lia. rewrite Z.mod_add by lia. apply Z.mod_small. lia. }
    rewrite Hmod in Hpos. replace (e - 2 ^ 63 - 2 ^ 63 + 1 + 2 ^ 63)%Z with (e - 2 ^ 63 + 1)%Z in Hpos by lia. rewrite Z.mod_small in Hpos by lia. lia.
Qed.
Example C29_example : Forall event_ok ex_events /\ run_events ex_events fresh = Some ex_journal /\
  completed_ct_size (j_completed (last_job (mem ex_journal))) dirA = Some 5%Z /\ in_set (s_mem (spec_events ex_events (mk_spec false [] []))) dirA 0.
Proof.
  split; [exact (proj1 C26_example)|]. split; [vm_compute; reflexivity|]. split; [vm_compute; reflexivity|].
  assert (Hs : s_mem (spec_events ex_events (mk_spec false [] [])) = [(dirA, mk_iv 0 4); (dirA, mk_iv 10 14); (dirA, mk_iv 20 24); (dirA, mk_iv 15 19)]) by (vm_compute; reflexivity).
  rewrite Hs. exists (mk_iv 0 4). split; [left; reflexivity | cbn; lia].
Qed.
Theorem C29_refuted : exists es j size, Forall event_ok es /\ run_events es fresh = Some j /\
  completed_ct_size (j_completed (last_job (mem j))) dirA = Some size /\ (0 < size)%Z /\
  ~ in_set (s_mem (spec_events es (mk_spec false [] []))) dirA 0.
Proof.
  exists [EOpen true; ECommit true dirA [b_ "5-9.gz"] false false]. eexists. exists 10%Z. split.
  { constructor; [exact I | constructor; [split; [discriminate | constructor; [vm_compute; reflexivity | constructor]] | constructor]]. }
  split; [vm_compute; reflexivity|]. split; [vm_compute; reflexivity|]. split; [lia|].
  assert (Hs : s_mem (spec_events [EOpen true; ECommit true dirA [b_ "5-9.gz"] false false] (mk_spec false [] [])) = [(dirA, mk_iv 5 9)]) by (vm_compute; reflexivity).
  rewrite Hs. intros (iv & [Hin|[]] & Hi). injection Hin as <-. cbn in Hi. lia.
Qed.
Print Assumptions C29_partial.
Print Assumptions C29_exact.
Print Assumptions C29_refuted.

(** ** C30. Any number of earlier writes, each with any outcome, then a write cut after any number of file operations. *)
Theorem C30_process_death l s j last k : fresh_seq s j (l ++ [last]) ->
  view (steps s (flat_map (attempt_ops j) l ++ firstn k (attempt_ops j last))) j = last_written (view s j) j l \/
  view (steps s (flat_map (attempt_ops j) l ++ firstn k (attempt_ops j last))) j = Some (attempt_content last).
Proof. intros Hf. exact (writes_view l s j last k Hf). Qed.
(** If the machine dies as well, the journal is still one of the contents written so far, in full. *)
Theorem C30_machine_death_never_torn l s j last k found : safe s j (view s j = None) (match view s j with None => [] | Some c => [c] end) ->
  fresh_seq s j (l ++ [last]) ->
  after_crash (steps s (flat_map (attempt_ops j) l ++ firstn k (attempt_ops j last))) j found ->
  found = view s j \/ exists a, In a (l ++ [last]) /\ found = Some (attempt_content a).
Proof.
  intros Hs Hf Hc. apply (safe_after_crash _ _ _ _ _ (writes_safe l s j _ _ last k Hs Hf)) in Hc as [[-> Hn]|(b & -> & Hin)]; [left; auto|].
  apply in_app_or in Hin as [Hin|Hin].
  - apply in_map_iff in Hin as (a & <- & Ha). right. exists a. auto.
  - left. destruct (view s j); [destruct Hin as [<-|[]]; reflexivity | destruct Hin].
Qed.
Definition all_fine : outcome := mk_outcome true 0 true true true true.
Definition fs_start : fs := mk_fs (fun n => if n =? 1 then Some 7 else None) [] (fun _ => b_ "old") (fun _ => true).
Definition ex_attempts : list attempt :=
  [(all_fine, 100, 8, b_ "v1"); (mk_outcome true 1 false true true true, 101, 9, b_ "v2")].
Definition ex_last : attempt := (all_fine, 102, 10, b_ "v3").
Example C30_example : fresh_seq fs_start 1 (ex_attempts ++ [ex_last]) /\ safe fs_start 1 (view fs_start 1 = None) [b_ "old"] /\
  map (fun k => view (steps fs_start (flat_map (attempt_ops 1) ex_attempts ++ firstn k (attempt_ops 1 ex_last))) 1) [0; 3; 4; 5] =
  [Some (b_ "v1"); Some (b_ "v1"); Some (b_ "v1"); Some (b_ "v3")].
Proof.
  split; [|split; [|vm_compute; reflexivity]].
  - assert (Hfr : forall (l : list dirop) (d : nat -> option nat) i, (forall n, d n <> Some i) -> (forall o, In o l -> match o with DBind _ m => m <> i | _ => True end) ->
      forall k n, fold_left dir_step (firstn k l) d n <> Some i).
    { induction l as [|o l IH]; intros d i Hd Hl k n; [rewrite firstn_nil; apply Hd|]. destruct k as [|k]; [apply Hd|]. cbn [firstn fold_left]. apply IH.
      - intros m. specialize (Hl o (or_introl eq_refl)). destruct o as [a b|a]; cbn [dir_step]; unfold upd; destruct (m =? a); try apply Hd; congruence.
      - intros o' Ho'. apply Hl. right. exact Ho'. }
    assert (Hd0 : forall i, i <> 7 -> forall n, f_dir fs_start n <> Some i) by (intros i Hi n; cbn; destruct (n =? 1); congruence).
    unfold ex_attempts, ex_last. cbn [app fresh_seq]. unfold fresh_all.
    split; [|split; [|split; [|exact I]]]; (split; [discriminate|]); apply Hfr; try (apply Hd0; lia);
      vm_compute; intros o Ho; repeat (destruct Ho as [<-|Ho]; [try exact I; discriminate|]); destruct Ho.
  - intros k. unfold fs_start. cbn [f_pend f_dir]. rewrite firstn_nil. vm_compute. auto.
Qed.
(** The directory is not synced (syncDirAfterRename does nothing): after a machine crash a successful write may be undone. *)
Theorem C30_machine_death_refuted : exists s j a found, fresh_seq s j [a] /\ safe s j False [b_ "old"] /\
  view s j = Some (b_ "old") /\ snd (write_locked (fst (fst (fst a))) (snd (fst (fst a))) (snd (fst a)) j (snd a)) = true /\
  after_crash (steps s (attempt_ops j a)) j found /\ found <> Some (attempt_content a).
Proof.
  exists fs_start, 1, (all_fine, 100, 8, b_ "v1"), (Some (b_ "old")). split.
  { split; [|exact I]. split; [discriminate|]. intros k n. cbn [f_pend fs_start]. rewrite firstn_nil. cbn. destruct (n =? 1); discriminate. }
  split; [intros k; unfold fs_start; cbn [f_pend f_dir]; rewrite firstn_nil; vm_compute; auto|]. split; [vm_compute; reflexivity|]. split; [vm_compute; reflexivity|].
  split; [|discriminate]. exists 0. vm_compute. exists (b_ "old"). split; [reflexivity|]. intros _. reflexivity.
Qed.
Print Assumptions C30_process_death.
Print Assumptions C30_machine_death_never_torn.
Print Assumptions C30_machine_death_refuted.

(** ** C31. For any batch procedure [each] and check [go]: the batches are the pending files cut in order. *)
Theorem C31_batches_tile {St} go (each : St -> list bytes -> St * bool) size files st : exists bs,
  concat bs = files /\ Forall (fun b => b <> [] /\ ((0 < size)%Z -> (Z.of_nat (length b) <= size)%Z)) bs /\
  ingest_in_batches go each size files st = seq_run go each 1 bs st.
Proof. exact (batches_tile go each size files st). Qed.
(** A run on a journal with any history: what is ingested, then committed, is a prefix of the pending files in order; a commit
    comes after the ingestion of its batch; and the journal gains exactly the committed files. *)
Theorem C31_run es j ok key s go size files todo w' r : Forall event_ok es -> run_events es fresh = Some j -> mem j <> [] -> key <> [] ->
  st_ingest s = true -> pending_files key files (j_completed (last_job (mem j))) = Some todo -> Forall below_max (file_intervals todo) ->
  run_ingest ok key s go size files (mk_world j []) = (w', r) ->
  (exists rest, todo = ran (w_trace w') ++ rest) /\ (exists rest, ran (w_trace w') = tried (w_trace w') ++ rest) /\
  (exists rest, tried (w_trace w') = committed (w_trace w') ++ rest) /\
  (r = true -> committed (w_trace w') = todo) /\
  (forall b x, In (ARun b x) (w_trace w') -> b <> [] /\ ((0 < size)%Z -> (Z.of_nat (length b) <= size)%Z)) /\
  (forall t1 t2 b x, w_trace w' = t1 ++ ACommit b x :: t2 -> In (ARun b true) t1) /\
  (forall k i, jobs_cover (mem (w_journal w')) k i <-> jobs_cover (mem j) k i \/ (k = key /\ covers (file_intervals (tried (w_trace w'))) i)).
Proof.
  intros He Hr Hm Hkey Hs Hp Hb Hq. destruct (run_events_inv es fresh _ He fresh_inv) as (j' & Hr' & HJ). rewrite Hr in Hr'. injection Hr' as <-.
  assert (Ho : s_open (spec_events es (mk_spec false [] [])) = true) by (apply (ji_open _ _ HJ); exact Hm).
  destruct (run_ingest_ok ok key Hkey s go size files (mk_world j []) _ todo w' r Hs Hq HJ Ho Hp Hb) as (new & sp' & H1 & H2 & H3 & H4 & H5 & H6 & H7 & H8 & H9 & H10).
  cbn [w_trace app] in H1. rewrite H1. split; [exact H5|]. split; [exact H6|]. split; [exact H7|]. split; [intros Hx; apply (H8 Hx)|]. split; [exact H9|]. split; [exact H10 | exact H3].
Qed.
Definition ex_listing : list bytes := [b_ "0-4.gz"; b_ "5-9.gz"; b_ "15-19.gz"; b_ "25-29.gz"; b_ "30-34.gz"].
Example C31_example : run_events ex_events fresh = Some ex_journal /\ let j := ex_journal in
  mem j <> [] /\ pending_files dirA ex_listing (j_completed (last_job (mem j))) = Some [b_ "5-9.gz"; b_ "25-29.gz"; b_ "30-34.gz"] /\
  (* all succeeds, two files per batch *)
  (let (w, r) := run_ingest (fun _ => true) dirA full_run (fun _ => true) 2 ex_listing (mk_world j []) in
   r = true /\ committed (w_trace w) = [b_ "5-9.gz"; b_ "25-29.gz"; b_ "30-34.gz"] /\ length (w_trace w) = 8) /\
  (* the update of the tree in the second batch fails *)
  (let (w, r) := run_ingest (fun n => negb (n =? 6)) dirA full_run (fun _ => true) 2 ex_listing (mk_world j []) in
   r = false /\ ran (w_trace w) = [b_ "5-9.gz"; b_ "25-29.gz"; b_ "30-34.gz"] /\ committed (w_trace w) = [b_ "5-9.gz"; b_ "25-29.gz"]).
Proof.
  split; [vm_compute; reflexivity|]. cbv zeta. split; [discriminate|]. split; [vm_compute; reflexivity|]. split; vm_compute; auto.
Qed.
Print Assumptions C31_batches_tile.
Print Assumptions C31_run.

(** ** C32. [gz_path] and [csv_path] are the paths of the data files in a tree. Partial: in no directory does a subdirectory sort before
    "bundled" ([tidy]). [pdq] is any sorting. *)
Theorem C32_partial pdq n path f : (forall l, Permutation (pdq l) l) -> tidy n ->
  (In f (fst (list_files pdq path n)) <-> gz_path path n f) /\ (In f (snd (list_files pdq path n)) <-> csv_path path n f).
Proof. intros Hp Ht. exact (list_complete pdq Hp n Ht path f). Qed.
Theorem C32_sorted pdq names : (forall l, Permutation (pdq l) l) -> (forall l, StronglySorted (fun a b => (snd a <= snd b)%N) (pdq l)) ->
  Forall (fun f => indices f <> None) names ->
  Permutation (sort_by_bundle pdq names) names /\
  StronglySorted (fun f g => forall x y x' y', indices f = Some (x, y) -> indices g = Some (x', y') -> (x <= x')%N) (sort_by_bundle pdq names).
Proof. intros Hp Hs Hf. split; [exact (sort_perm pdq Hp names) | exact (sort_ordered pdq Hp names Hs Hf)]. Qed.
Fixpoint ins (a : bytes * N) (l : list (bytes * N)) : list (bytes * N) :=
  match l with [] => [a] | b :: r => if N.leb (snd a) (snd b) then a :: l else b :: ins a r end.
Definition isort (l : list (bytes * N)) : list (bytes * N) := fold_right ins [] l.
Lemma ins_perm a l : Permutation (ins a l) (a :: l).
Proof. induction l as [|b r IH]; cbn; [reflexivity|]. destruct (N.leb _ _); [reflexivity|]. rewrite IH. apply perm_swap. Qed.
Lemma isort_perm l : Permutation (isort l) l.
Proof. induction l as [|a l IH]; cbn; [reflexivity|]. rewrite ins_perm. apply perm_skip. exact IH. Qed.
Lemma ins_sorted a l : StronglySorted (fun a b => (snd a <= snd b)%N) l -> StronglySorted (fun a b => (snd a <= snd b)%N) (ins a l).
Proof.
  induction 1 as [|b l Hs IH Hb]; cbn; [constructor; constructor|]. destruct (N.leb_spec (snd a) (snd b)) as [H1|H1].
  - constructor; [constructor; assumption|]. constructor; [exact H1|]. eapply Forall_impl; [|exact Hb]. cbn. intros c Hc. lia.
  - constructor; [exact IH|]. rewrite Forall_forall in *. intros c Hc. apply (Permutation_in _ (ins_perm a l)) in Hc as [<-|Hc]; [lia | auto].
Qed.
Lemma isort_sorted l : StronglySorted (fun a b => (snd a <= snd b)%N) (isort l).
Proof. induction l as [|a l IH]; cbn; [constructor | apply ins_sorted; exact IH]. Qed.
Definition ex_tree : node :=
  Dir [(b_ "0-9.csv", File); (bundled, Dir [(b_ "10-19.gz", File); (b_ "0-9.gz", File); (b_ "note", File)]);
       (b_ "logs", Dir [(bundled, Dir [(b_ "5-6.gz", File)])])].
Example C32_example : tidy ex_tree /\ list_files isort (b_ "d") ex_tree =
  ([b_ "d/bundled/0-9.gz"; b_ "d/logs/bundled/5-6.gz"; b_ "d/bundled/10-19.gz"], [b_ "d/0-9.csv"]).
Proof.
  split; [|vm_compute; reflexivity].
  assert (Hone : forall (e : list (bytes * node)), NoDup (map fst e) -> Forall (fun e => snd e = File) e -> tidy (Dir e)).
  { intros e Hn He. constructor; [exact Hn | |].
    - eapply Forall_impl; [|exact He]. cbn. intros a ->. constructor.
    - intros p sub q ->. apply Forall_app in He as [_ He]. inversion He as [|? ? Hx _]; subst. discriminate. }
  assert (Hnd : forall l : list bytes, (if list_eq_dec (list_eq_dec Byte.byte_eq_dec) (nodup (list_eq_dec Byte.byte_eq_dec) l) l then True else False) -> NoDup l).
  { intros l. destruct (list_eq_dec _ _ _) as [<-|]; [intros _; apply NoDup_nodup | intros []]. }
  constructor.
  - apply Hnd. vm_compute. exact I.
  - constructor; [constructor|]. constructor; [apply Hone; [apply Hnd; vm_compute; exact I | repeat (constructor; [reflexivity|]); constructor]|].
    constructor; [|constructor]. constructor.
    + apply Hnd. vm_compute. exact I.
    + constructor; [|constructor]. apply Hone; [apply Hnd; vm_compute; exact I | repeat (constructor; [reflexivity|]); constructor].
    + intros [|e p] sub q Hq; [constructor|]. destruct p; discriminate.
  - intros [|e p] sub q Hq; [constructor|]. cbn [app] in Hq. injection Hq as <- Hq. constructor; [reflexivity|].
    destruct p as [|e p]; [constructor|]. cbn [app] in Hq. injection Hq as <- Hq. exfalso.
    destruct p as [|e p]; cbn [app] in Hq; [discriminate|]. destruct p; discriminate.
Qed.
(** The files gathered before "bundled" are thrown away. *)
Theorem C32_refuted : exists n path f, gz_path path n f /\ forall pdq, (forall l, Permutation (pdq l) l) -> ~ In f (fst (list_files pdq path n)).
Proof.
  exists (Dir [(b_ "archive", Dir [(bundled, Dir [(b_ "0-9.gz", File)])]); (bundled, Dir [(b_ "10-19.gz", File)])]), (b_ "d"), (b_ "d/archive/bundled/0-9.gz"). split.
  - eapply (gz_below (b_ "d") _ (b_ "archive")); [left; reflexivity | reflexivity | vm_compute; discriminate|].
    apply (gz_here (join (b_ "d") (b_ "archive")) _ [(b_ "0-9.gz", File)] (b_ "0-9.gz") File); [left; reflexivity | left; reflexivity | exists (b_ "0-9"); reflexivity].
  - intros pdq Hp Hin. rewrite list_files_eq in Hin. cbn [fst] in Hin. rewrite (sort_in pdq Hp) in Hin.
    cbn [go] in Hin. change (beqb (b_ "archive") bundled) with false in Hin. change (beqb bundled bundled) with true in Hin. cbv iota in Hin.
    destruct (list_files pdq _ _) as [g c] in Hin. cbn [fst] in Hin. apply glob_iff in Hin as (name & nd & [Hn|[]] & _ & Hf). injection Hn as <- _. vm_compute in Hf. discriminate.
Qed.
Print Assumptions C32_partial.
Print Assumptions C32_sorted.
Print Assumptions C32_refuted.
