(** C93: the text of the journal file. *)
From Coq Require Import Strings.String Permutation.
From Verif Require Import Base BaseLemmas UtilModel UtilDuration DbModel LoadModel LoadProofs PolicyModel JournalModel JournalIntervals JournalProofs
  JsonText JsonTextProofs JsonParse JsonModel JsonProofs JsonRead JsonEvery JsonStable JsonGrammar JournalText JournalTextProofs.
Local Open Scope list_scope.
Local Notation b_ s := (list_byte_of_string s%string).

(** What is written is a JSON text of RFC 8259 without anything before or after the value. *)
Theorem C93_json : forall l, exists v, is_value (journal_text l) v.
Proof. intros l. exists (journal_json l). exact (journal_value l). Qed.

(** What is written is read back: all fields are the same, the maps have the same entries, and bytes that are not UTF-8 are replaced in the
    strings that only inform. The numbers are those of the types in Go; the completed indices are as every commit leaves them (C26, C27);
    the names of the directories are UTF-8. *)
Theorem C93_round_trip : forall l,
  Forall (fun f => int64 (cf_batch (fj_conf f)) = true /\ int64 (j_ctsize (fj_job f)) = true /\
    NoDup (map fst (j_completed (fj_job f))) /\
    forall k ivs, In (k, ivs) (j_completed (fj_job f)) -> k <> [] /\ valid_utf8 k /\ canonical ivs /\ Forall (fun iv => (iv_s iv <= iv_e iv < 2 ^ 64)%N) ivs) l ->
  exists l', read_journal (journal_text l) = Some l' /\
    Forall2 (fun f g =>
      fj_conf g = fj_conf f /\ j_coalesced (fj_job g) = j_coalesced (fj_job f) /\ j_smt (fj_job g) = j_smt (fj_job f) /\ j_ctsize (fj_job g) = j_ctsize (fj_job f) /\
      (forall k, get_key k (j_completed (fj_job g)) = get_key k (j_completed (fj_job f))) /\
      (valid_utf8 (fj_cwd f) -> fj_cwd g = fj_cwd f) /\ (valid_utf8 (fj_start f) -> fj_start g = fj_start f) /\ (valid_utf8 (fj_end f) -> fj_end g = fj_end f) /\
      (Forall valid_utf8 (match fj_cmd f with None => [] | Some c => c end) -> fj_cmd g = fj_cmd f)) l l'.
Proof.
  intros l G. exists (map reread l). split.
  - apply read_written. revert G. apply Forall_impl. intros f (I1 & I2 & D & C). split; [exact I1|]. split; [exact I2|]. split.
    + intros k ivs H. destruct (C k ivs H) as (A & _ & B). split; [exact A|]. exact B.
    + split; [exact D|]. apply Forall_forall. intros k H. apply in_map_iff in H as ([k' ivs] & <- & H). apply (C k' ivs H).
  - induction G as [|f l (_ & _ & D & _) _ IH]; constructor; [|exact IH]. unfold reread. cbn [fj_cwd fj_cmd fj_conf fj_start fj_end fj_job j_coalesced j_smt j_ctsize j_completed].
    repeat (split; [reflexivity|]). split; [intros k; apply get_perm; [exact D|symmetry; apply sort_perm]|]. repeat (split; [apply repair_valid|]).
    destruct (fj_cmd f) as [c|]; [|reflexivity]. intros V. cbn [option_map]. f_equal. rewrite <- (map_id c) at 2. apply map_ext_Forall. revert V. apply Forall_impl. intros x. apply repair_valid.
Qed.

(** The text does not depend on the order in which the maps are visited. *)
Theorem C93_deterministic : forall l1 l2,
  Forall2 (fun f g => fj_cwd f = fj_cwd g /\ fj_cmd f = fj_cmd g /\ fj_conf f = fj_conf g /\ fj_start f = fj_start g /\ fj_end f = fj_end g /\
    j_coalesced (fj_job f) = j_coalesced (fj_job g) /\ j_smt (fj_job f) = j_smt (fj_job g) /\ j_ctsize (fj_job f) = j_ctsize (fj_job g) /\
    NoDup (map fst (j_completed (fj_job f))) /\ Permutation (j_completed (fj_job f)) (j_completed (fj_job g))) l1 l2 ->
  journal_text l1 = journal_text l2.
Proof. exact text_of_content. Qed.

(** A file that was cut off anywhere, be it empty, is refused: no index counts as not completed because the rest of the file is missing. *)
Theorem C93_truncated : forall l n, n < List.length (journal_text l) -> read_journal (firstn n (journal_text l)) = None.
Proof. exact truncated. Qed.

(** Whatever the text: if it is accepted, the keys are distinct, non-empty and UTF-8, the numbers are in range, and the intervals are sorted and apart
    unless one of them ends with the largest number. *)
Theorem C93_accepted : forall s l, read_journal s = Some l -> Forall (fun f =>
  int64 (cf_batch (fj_conf f)) = true /\ int64 (j_ctsize (fj_job f)) = true /\ NoDup (map fst (j_completed (fj_job f))) /\
  forall k ivs, In (k, ivs) (j_completed (fj_job f)) -> k <> [] /\ valid_utf8 k /\
    Forall (fun iv => (iv_s iv <= iv_e iv < 2 ^ 64)%N) ivs /\ (Forall (fun iv => (iv_e iv + 1 < 2 ^ 64)%N) ivs -> canonical ivs)) l.
Proof.
  intros s l E. apply accepted in E. revert E. apply Forall_impl. intros f (I1 & I2 & D & V & _ & C). split; [exact I1|]. split; [exact I2|]. split; [exact D|].
  intros k ivs H. destruct (C k ivs H) as (A & B). split; [exact A|]. split; [|exact B]. rewrite Forall_forall in V. apply V. change k with (fst (k, ivs)). apply in_map, H.
Qed.

(** An accepted text that is written again and read again gives the same jobs. *)
Theorem C93_stable : forall s l, read_journal s = Some l ->
  Forall (fun f => Forall (fun kv => Forall (fun iv => (iv_e iv + 1 < 2 ^ 64)%N) (snd kv)) (j_completed (fj_job f))) l ->
  exists l', read_journal (journal_text l) = Some l' /\
    Forall2 (fun f g => fj_cwd g = fj_cwd f /\ fj_cmd g = fj_cmd f /\ fj_conf g = fj_conf f /\ fj_start g = fj_start f /\ fj_end g = fj_end f /\
      j_coalesced (fj_job g) = j_coalesced (fj_job f) /\ j_smt (fj_job g) = j_smt (fj_job f) /\ j_ctsize (fj_job g) = j_ctsize (fj_job f) /\
      forall k, get_key k (j_completed (fj_job g)) = get_key k (j_completed (fj_job f))) l l'.
Proof.
  intros s l E B. destruct (stable s l E B) as (l' & R & S). exists l'. split; [exact R|]. clear -S.
  induction S as [|f g l l' (E1 & E2 & E3 & E4 & E5 & E6 & E7 & E8 & D & P) _ IH]; constructor; [|exact IH].
  repeat (split; [symmetry; assumption|]). intros k. apply get_perm; assumption.
Qed.

(** A journal with two jobs: its text, and what is read. *)
Definition sample : list full_job :=
  [mk_full (b_ "/home/a") (Some [b_ "ingest"; b_ "-x=<1>"]) (mk_jconf true true true false 4 false) (b_ "t0") (b_ "t1") (mk_job false false 0 []);
   mk_full (b_ "/home/a") None (mk_jconf true false false false (-1) true) (b_ "t2") [] (mk_job true false 77 [(b_ "b", [mk_iv 0 9; mk_iv 20 29]); (b_ "a", [mk_iv 5 5])])].
Example C93_example :
  Forall (fun f => int64 (cf_batch (fj_conf f)) = true /\ int64 (j_ctsize (fj_job f)) = true /\ NoDup (map fst (j_completed (fj_job f))) /\
    forall k ivs, In (k, ivs) (j_completed (fj_job f)) -> k <> [] /\ valid_utf8 k /\ canonical ivs /\ Forall (fun iv => (iv_s iv <= iv_e iv < 2 ^ 64)%N) ivs) sample /\
  firstn 22 (journal_text sample) = b_ "{" ++ x0a :: b_ "  " ++ x22 :: b_ "Jobs" ++ x22 :: b_ ": [" ++ x0a :: b_ "    {" ++ x0a :: b_ "  " /\
  option_map (map (fun f => get_key (b_ "b") (j_completed (fj_job f)))) (read_journal (journal_text sample)) = Some [None; Some [mk_iv 0 9; mk_iv 20 29]].
Proof.
  split; [|split; vm_compute; reflexivity].
  constructor; [|constructor; [|constructor]]; (split; [reflexivity|]); (split; [reflexivity|]); (split; [repeat constructor; cbn; intuition discriminate|]).
  - intros k ivs [].
  - assert (B : forall k ivs, In (k, ivs) [(b_ "b", [mk_iv 0 9; mk_iv 20 29]); (b_ "a", [mk_iv 5 5])] -> k <> [] /\ forallb ascii k = true /\ canonical ivs /\
      Forall (fun iv => (iv_s iv <= iv_e iv < 2 ^ 64)%N) ivs).
    { intros k ivs [[= <- <-]|[[= <- <-]|[]]]; (split; [discriminate|]); (split; [reflexivity|]); (split; [split|]); repeat constructor; unfold gap; cbn; lia. }
    intros k ivs H. destruct (B k ivs H) as (B1 & B2 & B3). split; [exact B1|]. split; [apply ascii_valid, B2|exact B3].
Qed.

(** Refuted for directories whose name is not UTF-8: after the journal was written and read, the completed indices of the directory are those of
    another name, so that no file of it counts as completed, *)
Theorem C93_round_trip_refuted : exists f l', good_completed (j_completed (fj_job f)) /\ NoDup (map fst (j_completed (fj_job f))) /\
  read_journal (journal_text [f]) = Some l' /\
  contains_completed (j_completed (fj_job f)) [x61; xe9] (mk_iv 0 9) = true /\
  Forall (fun g => contains_completed (j_completed (fj_job g)) [x61; xe9] (mk_iv 0 9) = false) l'.
Proof.
  exists (mk_full [] None zero_conf [] [] (mk_job true true 0 [([x61; xe9], [mk_iv 0 9])])). eexists.
  split; [|split; [|split; [vm_compute; reflexivity|split; [vm_compute; reflexivity|repeat constructor]]]].
  - intros k l [[= <- <-]|[]]. split; [discriminate|]. repeat constructor; cbn; lia.
  - repeat constructor; cbn; intuition discriminate.
Qed.
(** and the entries of two such directories become one. *)
Theorem C93_distinct_refuted : exists f l', good_completed (j_completed (fj_job f)) /\ NoDup (map fst (j_completed (fj_job f))) /\
  read_journal (journal_text [f]) = Some l' /\ List.length (j_completed (fj_job f)) = 2 /\ map (fun g => List.length (j_completed (fj_job g))) l' = [1].
Proof.
  exists (mk_full [] None zero_conf [] [] (mk_job true true 0 [([x61; xe9], [mk_iv 0 9]); ([x61; xe8], [mk_iv 5 7])])). eexists.
  split; [|split; [|split; [vm_compute; reflexivity|split; reflexivity]]].
  - intros k l [[= <- <-]|[[= <- <-]|[]]]; (split; [discriminate|]); repeat constructor; cbn; lia.
  - repeat constructor; cbn; intuition discriminate.
Qed.
Print Assumptions C93_json.
Print Assumptions C93_round_trip.
Print Assumptions C93_deterministic.
Print Assumptions C93_truncated.
Print Assumptions C93_accepted.
Print Assumptions C93_stable.
Print Assumptions C93_round_trip_refuted.
Print Assumptions C93_distinct_refuted.
