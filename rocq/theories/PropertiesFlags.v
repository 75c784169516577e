(** What the flags of the journal say about the phases that have really run (C63). *)
From Coq Require Import ZArith String.
From Verif Require Import Base BaseLemmas UtilModel JournalModel JournalIntervals JournalProofs JournalRun JournalFlags.
Local Open Scope list_scope.
Local Definition b_ (s : string) : bytes := list_byte_of_string s.

(** The runs that the command line can make: any of the four strategies, any answers of the external calls, any point of interruption, any files. *)
Definition runs_ok (cs : list command) : Prop := commands_ok false (mk_past [] []) cs.
(** The same, and "onlysmtupdate" is only asked for when the newest job on disk is already coalesced. *)
Definition ordered_runs (cs : list command) : Prop := commands_ok true (mk_past [] []) cs.
Definition after (cs : list command) : past := exec_all cs (mk_past [] []).

(** C63: in every job on disk, every index listed as completed belongs to a file whose ingestion succeeded. *)
Theorem C63_completed cs d : runs_ok cs -> In d (p_disk (after cs)) ->
  exists j, decode_job d = Some j /\ forall k i, key_covers (j_completed j) k i -> done (p_history (after cs)) k i.
Proof. intros Hc Hd. destruct (exec_decoded false cs Hc d Hd) as (j & H1 & H2). exists j. split; [exact H1|]. intros k i X. exact (proj1 (H2 k i X)). Qed.
(** If the job says that the tree is updated, an update of the tree succeeded after that ingestion. *)
Theorem C63_smt cs d j : runs_ok cs -> In d (p_disk (after cs)) -> decode_job d = Some j -> j_smt j = true ->
  forall k i, key_covers (j_completed j) k i -> updated_after (p_history (after cs)) k i.
Proof.
  intros Hc Hd Hj Hs k i X. destruct (exec_decoded false cs Hc d Hd) as (j' & H1 & H2). rewrite Hj in H1. injection H1 as <-. exact (proj1 (proj2 (H2 k i X)) Hs).
Qed.
(** If the job says that it is coalesced, coalescing succeeded after that ingestion; and an updated tree was updated after that. Missing: the full
    statement is for [runs_ok]; it is false, see below. *)
Theorem C63_coalesced_partial cs d j : ordered_runs cs -> In d (p_disk (after cs)) -> decode_job d = Some j ->
  forall k i, key_covers (j_completed j) k i ->
    (j_coalesced j = true -> coalesced_after (p_history (after cs)) k i) /\ (j_smt j = true -> both_after (p_history (after cs)) k i).
Proof.
  intros Hc Hd Hj k i X. destruct (exec_decoded true cs Hc d Hd) as (j' & H1 & H2). rewrite Hj in H1. injection H1 as <-. exact (proj2 (proj2 (H2 k i X)) eq_refl).
Qed.

Definition ex_key : bytes := b_ "/d".
Definition ex_files : list bytes := [b_ "/d/bundled/0-9.gz"; b_ "/d/bundled/10-19.gz"].
Definition always : nat -> bool := fun _ => true.
(** A run that is interrupted while coalescing its second batch, the next one that finishes the rest, and a run that records the size of the log. *)
Definition ex_cs : list command :=
  [CIngest true (fun n => negb (Nat.eqb n 5)) ex_key full_run always 1 ex_files;
   CIngest true always ex_key only_ingest always 2 ex_files; CIngest true always ex_key skip_ingest always 2 ex_files; CCtSize true true true true ex_key].
Definition last_of (p : past) : disk_job := last (p_disk p) (encode_job (mk_job false false 0 [])).
Example C63_example : runs_ok ex_cs /\ ordered_runs ex_cs /\ length (p_disk (after ex_cs)) = 4 /\
  map d_coalesced (p_disk (after ex_cs)) = [true; false; true; true] /\ map d_smt (p_disk (after ex_cs)) = [true; false; true; true] /\
  map snd (p_history (after ex_cs)) =
    [ARun [b_ "/d/bundled/0-9.gz"] true; ACoalesce true; AUpdate true; ACommit [b_ "/d/bundled/0-9.gz"] true; ARun [b_ "/d/bundled/10-19.gz"] true; ACoalesce false;
     ARun [b_ "/d/bundled/10-19.gz"] true; ACommit [b_ "/d/bundled/10-19.gz"] true; ACoalesce true; ACommit [] true; AUpdate true; ACommit [] true] /\
  exists d j, In d (p_disk (after ex_cs)) /\ decode_job d = Some j /\ j_smt j = true /\ j_coalesced j = true /\ key_covers (j_completed j) ex_key 15.
Proof.
  assert (Hb : Forall below_max (file_intervals ex_files)) by (rewrite Forall_forall; intros iv Hiv; apply N.ltb_lt; revert iv Hiv; apply forallb_forall; vm_compute; reflexivity).
  assert (H : forall strict, commands_ok strict (mk_past [] []) ex_cs).
  { intros strict. cbn [commands_ok ex_cs command_ok]. assert (Hk : ex_key <> []) by discriminate. auto 20. }
  split; [apply H|]. split; [apply H|]. split; [vm_compute; reflexivity|]. split; [vm_compute; reflexivity|]. split; [vm_compute; reflexivity|]. split; [vm_compute; reflexivity|].
  assert (E : exists d l j, p_disk (after ex_cs) = l ++ [d] /\ decode_job d = Some j /\ j_smt j = true /\ j_coalesced j = true /\ get_key ex_key (j_completed j) = Some [mk_iv 0 19]).
  { exists (last_of (after ex_cs)), (removelast (p_disk (after ex_cs))), (mk_job true true 20 [(ex_key, [mk_iv 0 19])]). repeat split; vm_compute; reflexivity. }
  destruct E as (d & l & j & E & E1 & E2 & E3 & E4). exists d, j. rewrite E. split; [apply in_or_app; right; left; reflexivity|]. split; [exact E1|]. split; [exact E2|]. split; [exact E3|].
  exists [mk_iv 0 19]. split; [exact E4|]. exists (mk_iv 0 19). split; [left; reflexivity | cbn; lia].
Qed.

(** "onlyingest" and then "onlysmtupdate": the journal says coalesced, and coalescing has never been tried. *)
Definition ex_skipped : list command :=
  [CIngest true always ex_key only_ingest always 2 ex_files; CIngest true always ex_key only_smt always 2 ex_files].
Theorem C63_coalesced_refuted : exists cs d j k i, runs_ok cs /\ In d (p_disk (after cs)) /\ decode_job d = Some j /\ j_coalesced j = true /\ key_covers (j_completed j) k i /\
  forall k' r, ~ In (k', ACoalesce r) (p_history (after cs)).
Proof.
  assert (E : exists d l j, p_disk (after ex_skipped) = l ++ [d] /\ decode_job d = Some j /\ j_coalesced j = true /\ get_key ex_key (j_completed j) = Some [mk_iv 0 19]).
  { exists (last_of (after ex_skipped)), (removelast (p_disk (after ex_skipped))), (mk_job true true 0 [(ex_key, [mk_iv 0 19])]). repeat split; vm_compute; reflexivity. }
  destruct E as (d & l & j & E & E1 & E2 & E3). exists ex_skipped, d, j, ex_key, 15%N.
  split.
  { assert (Hb : Forall below_max (file_intervals ex_files)) by (rewrite Forall_forall; intros iv Hiv; apply N.ltb_lt; revert iv Hiv; apply forallb_forall; vm_compute; reflexivity). assert (Hk : ex_key <> []) by discriminate. unfold runs_ok. cbn [commands_ok ex_skipped command_ok]. split; [auto|]. split; [|exact I]. split; [exact Hk|]. split; [exact Hb|]. right. right. right. split; [reflexivity | intros X; discriminate X]. }
  split; [rewrite E; apply in_or_app; right; left; reflexivity|]. split; [exact E1|]. split; [exact E2|]. split; [exists [mk_iv 0 19]; split; [exact E3|]; exists (mk_iv 0 19); split; [left; reflexivity | cbn; lia]|].
  intros k' r. vm_compute. intuition discriminate.
Qed.
Print Assumptions C63_completed.
Print Assumptions C63_smt.
Print Assumptions C63_coalesced_partial.
Print Assumptions C63_coalesced_refuted.
