(** C94: interrupting the ingest command. *)
From Coq Require Import Strings.String.
From Verif Require Import Base BaseLemmas UtilModel JournalModel JournalIntervals JournalProofs SysModel SysProofs SignalModel SignalProofs PropertiesJournal.

Local Open Scope list_scope.

(** In every state, so also in the one in which the process ends, whenever and for whatever reason this is: the file of the journal can be read; it covers what it
    covered before, and all files of batches whose commit succeeded; and nothing but this and files of batches for which all the external calls have succeeded. *)
Theorem C94_disk : forall key listed batch co sm jobs0 l, jobs_ok jobs0 -> key <> [] -> (forall f iv, In f listed -> parse_file f = Some iv -> below_max iv) ->
  let s := run (proc_step key listed batch co sm) (proc_start (map encode_job jobs0)) l in
  exists jobs, all_some (map decode_job (disk (jr s))) = Some jobs /\
    (forall k i, jobs_cover jobs k i -> jobs_cover jobs0 k i \/ k = key /\ exists f iv, In f (worked s) /\ parse_file f = Some iv /\ (iv_s iv <= i <= iv_e iv)%N) /\
    (forall k i, jobs_cover jobs0 k i -> jobs_cover jobs k i) /\
    (forall f iv i, In f (acked s) -> parse_file f = Some iv -> (iv_s iv <= i <= iv_e iv)%N -> jobs_cover jobs key i).
Proof. intros key listed batch co sm jobs0 l. exact (disk_bounds key listed batch co sm jobs0 l). Qed.

(** What was committed stays committed. *)
Theorem C94_stays : forall key listed batch co sm s l, incl (acked s) (acked (run (proc_step key listed batch co sm) s l)).
Proof. intros key listed batch co sm s l. exact (acked_stays key listed batch co sm l s). Qed.

(** Once a Close of any goroutine has succeeded, the file has all that is in memory and nobody changes either. *)
Theorem C94_closed : forall key listed batch co sm d l l', let s := run (proc_step key listed batch co sm) (proc_start d) l in jclosed s = true ->
  disk (jr s) = map encode_job (mem (jr s)) /\ jr (run (proc_step key listed batch co sm) s l') = jr s.
Proof.
  intros key listed batch co sm d l l' s C. split; [|exact (nothing_after_close key listed batch co sm d l l' C)].
  destruct (flushed_run key listed batch co sm d l) as (_ & _ & F). exact (F C).
Qed.

(** An end with 0 means that all the files of the directory are in the journal. *)
Theorem C94_exit_zero : forall key listed batch co sm jobs0 l, jobs_ok jobs0 -> key <> [] -> (forall f iv, In f listed -> parse_file f = Some iv -> below_max iv) ->
  let s := run (proc_step key listed batch co sm) (proc_start (map encode_job jobs0)) l in gone s = Some 0 ->
  exists jobs, all_some (map decode_job (disk (jr s))) = Some jobs /\
    forall f, In f listed -> exists iv, parse_file f = Some iv /\ forall i, (iv_s iv <= i <= iv_e iv)%N -> jobs_cover jobs key i.
Proof. intros key listed batch co sm jobs0 l. exact (exit_zero key listed batch co sm jobs0 l). Qed.

(** The termination signals and the codes of main.go:348. *)
Definition terminates (g : sig) : Prop := g = SigInt \/ g = SigTerm.
Definition forces (g : sig) (c : nat) : Prop := g = SigInt /\ c = 130 \/ g = SigTerm /\ c = 143.
Lemma terminates_iff g : is_term g = true <-> terminates g.
Proof. unfold terminates. destruct g; cbn; intuition congruence. Qed.
Lemma forces_code g : is_term g = true -> forces g (sig_code g).
Proof. unfold forces. destruct g; cbn; intros H; try discriminate H; auto. Qed.

(** An end while signals are caught comes only from a second termination signal, with the code of this one. *)
Theorem C94_exit_code : forall key listed batch co sm jobs0 l c, jobs_ok jobs0 ->
  let s := run (proc_step key listed batch co sm) (proc_start (map encode_job jobs0)) l in gone s = Some c -> heard s = true ->
  exists a g g', took s = a ++ [g] /\ forces g c /\ In g' a /\ terminates g'.
Proof.
  intros key listed batch co sm jobs0 l c J s G H. destruct (whole_run key listed batch co sm jobs0 J l) as (_ & _ & _ & E). fold s in E. unfold end_ok in E. rewrite G in E.
  destruct E as [(X & _)|(a & g & X1 & X2 & X3 & X4)]; [congruence|]. apply existsb_exists in X4 as (g' & Y1 & Y2). exists a, g, g'.
  split; [exact X2|]. split; [rewrite X1; apply forces_code; exact X3|]. split; [exact Y1|]. apply terminates_iff. exact Y2.
Qed.

(** The context is cancelled only after a termination signal was received, and then no batch begins any more. *)
Theorem C94_no_new_batch : forall key listed batch co sm d l l', let s := run (proc_step key listed batch co sm) (proc_start d) l in canc s = true ->
  (exists g, In g (took s) /\ terminates g) /\ begun (run (proc_step key listed batch co sm) s l') = begun s.
Proof.
  intros key listed batch co sm d l l' s C. split; [|exact (proj2 (no_new_batch key listed batch co sm l' s C))].
  destruct (hand_run key listed batch co sm d l) as (H1 & H2 & H3 & _). fold s in H1, H2, H3.
  assert (A : asked s = true) by (destruct (asked s); [reflexivity | specialize (H3 eq_refl); congruence]).
  assert (T : terms (took s) = true).
  { destruct (hd s) as [|g|g|g| | |g|g|g].
    - rewrite <- (proj1 H1). exact A.
    - destruct H1 as (a & A1 & A2 & _). rewrite A1, terms_app, <- A2, A. reflexivity.
    - exact (proj2 (proj2 H1)).
    - destruct (is_term g); [exact (proj2 H1) | rewrite <- (proj1 H1); exact A].
    - exact (proj2 H1).
    - exact (proj1 (proj2 H1)).
    - destruct H1 as (_ & _ & a & A1 & _ & A3). rewrite A1, terms_app, A3. reflexivity.
    - destruct H1 as (_ & _ & a & A1 & _ & A3). rewrite A1, terms_app, A3. reflexivity.
    - destruct H1 as (_ & _ & a & A1 & _ & A3). rewrite A1, terms_app, A3. reflexivity. }
  apply existsb_exists in T. destruct T as (g & T1 & T2). exists g. split; [exact T1|]. apply terminates_iff. exact T2.
Qed.

(** When runIngest returns the error of the context, the command says that it was interrupted. *)
Theorem C94_says : forall key listed batch co sm jobs0 l, jobs_ok jobs0 ->
  let s := run (proc_step key listed batch co sm) (proc_start (map encode_job jobs0)) l in mn s = MStop (Some ECanceled) -> inter s = true.
Proof.
  intros key listed batch co sm jobs0 l J s M. destruct (whole_run key listed batch co sm jobs0 J l) as (H1 & H2 & _). fold s in H1, H2.
  unfold main_ok in H1. rewrite M in H1. destruct H2 as (_ & H2 & _). apply H2. exact (proj1 H1).
Qed.

(** If only termination signals are sent, the first one always cancels: six steps of the handler suffice, whatever the main goroutine does. *)
Theorem C94_first : forall key listed batch co sm d l, let s := run (proc_step key listed batch co sm) (proc_start d) l in
  gone s = None -> sent s <> [] -> (forall g, In g (sent s) -> terminates g) ->
  exists n, n <= 6 /\ canc (run (proc_step key listed batch co sm) s (repeat (AHand true) n)) = true.
Proof.
  intros key listed batch co sm d l s G N T. apply (cancels key listed batch co sm s (hand_run key listed batch co sm d l) (diag_run key listed batch co sm d l) G N).
  apply forallb_forall. intros g Hg. apply terminates_iff. exact (T g Hg).
Qed.

(** If the handler has received two termination signals, five steps suffice to end the process with the code of the second one; one of these may have to be of the
    main goroutine, which then is writing the journal. *)
Theorem C94_second : forall key listed batch co sm d l, let s := run (proc_step key listed batch co sm) (proc_start d) l in
  gone s = None -> 2 <= List.length (filter (fun g => match g with SigInt | SigTerm => true | SigUsr1 => false end) (took s)) ->
  exists a g c, took s = a ++ [g] /\ forces g c /\ exists l', List.length l' <= 5 /\ List.length (filter (fun a => match a with AMain _ _ => true | _ => false end) l') <= 1 /\
    (forall a, In a l' -> a = AHand true \/ a = AMain true EOther) /\ gone (run (proc_step key listed batch co sm) s l') = Some c.
Proof.
  intros key listed batch co sm d l s G C. destruct (once_run key listed batch co sm d l) as (H & O).
  destruct (second_ends key listed batch co sm s (lock_run key listed batch co sm d l) H O G) as (a & g & A1 & A2 & A3).
  { unfold count; rewrite (filter_ext is_term (fun g => match g with SigInt | SigTerm => true | SigUsr1 => false end)) by (intros []; reflexivity). exact C. }
  exists a, g, (sig_code g). split; [exact A1|]. split; [apply forces_code; exact A2 | exact A3].
Qed.

(** When the handler is about to end the process after a batch has begun, and its write did not fail, it has closed the journal. *)
Theorem C94_flushed : forall key listed batch co sm d l, ~ In (AHand false) l ->
  let s := run (proc_step key listed batch co sm) (proc_start d) l in
  (exists g, hd s = HEnd g) -> 0 < begun s -> jclosed s = true /\ disk (jr s) = map encode_job (mem (jr s)).
Proof.
  intros key listed batch co sm d l N s (g & H) B. destruct (flushed_end_run key listed batch co sm d l N) as (_ & _ & F). fold s in F. unfold flushed_end in F. rewrite H in F.
  split; [exact (F B)|]. destruct (flushed_run key listed batch co sm d l) as (_ & _ & X). exact (X (F B)).
Qed.

(** Runs: two batches of one file each. *)
Definition two_files : list bytes := [b_ "0-4.gz"; b_ "5-9.gz"].
Definition go (n : nat) : list act := repeat (AMain true EOther) n.
Definition by_hand (n : nat) : list act := repeat (AHand true) n.
Definition play (l : list act) : proc := run (proc_step dirA two_files 1 false false) (proc_start []) l.
(** SIGINT in the first batch: it is finished and committed, the second does not begin, and the journal has the first one. *)
Example C94_example_int : let s := play (go 5 ++ [ASend SigInt] ++ by_hand 6 ++ go 15) in
  gone s = Some 1 /\ acked s = [b_ "0-4.gz"] /\ begun s = 1 /\ inter s = true /\ jclosed s = true /\
  option_map (fun js => j_completed (last_job js)) (all_some (map decode_job (disk (jr s)))) = Some [(dirA, [mk_iv 0 4])].
Proof. vm_compute. repeat split; reflexivity. Qed.
(** Two signals while the journal is being written: the handler waits for the write. *)
Example C94_example_two : let s := play (go 8 ++ [ASend SigInt] ++ by_hand 6 ++ [ASend SigTerm] ++ by_hand 9) in
  gone s = None /\ hd s = HExit SigTerm /\ locked s = true /\
  let s' := play (go 8 ++ [ASend SigInt] ++ by_hand 6 ++ [ASend SigTerm] ++ by_hand 9 ++ go 1 ++ by_hand 3) in
  gone s' = Some 143 /\ acked s' = [b_ "0-4.gz"] /\ hd s' = HEnd SigTerm /\ begun s' = 1 /\ jclosed s' = true.
Proof. vm_compute. repeat split; reflexivity. Qed.
Example C94_example_zero : let s := play (go 30) in gone s = Some 0 /\ acked s = two_files /\ jclosed s = true.
Proof. vm_compute. repeat split; reflexivity. Qed.
Example C94_example_files : jobs_ok [] /\ dirA <> [] /\ forall f iv, In f two_files -> parse_file f = Some iv -> below_max iv.
Proof.
  split; [constructor|]. split; [discriminate|]. assert (X : map parse_file two_files = [Some (mk_iv 0 4); Some (mk_iv 5 9)]) by (vm_compute; reflexivity).
  intros f iv F P. apply (in_map parse_file) in F. rewrite P, X in F. destruct F as [F|[F|[]]]; injection F as <-; unfold below_max; cbn; lia.
Qed.

(** With other signals the statement of C94_first is false: while SIGUSR1 is handled and another one waits, SIGINT is dropped, and all the batches are run. *)
Theorem C94_first_refuted : exists key listed batch jobs0 l, jobs_ok jobs0 /\
  let s := run (proc_step key listed batch false false) (proc_start (map encode_job jobs0)) l in
  In SigInt (sent s) /\ (forall g, In g (took s) -> g = SigUsr1) /\ canc s = false /\ gone s = Some 0 /\ acked s = listed /\ listed <> [].
Proof.
  exists dirA, two_files, 1%Z, [], ([ASend SigUsr1] ++ by_hand 2 ++ [ASend SigUsr1; ASend SigInt] ++ by_hand 9 ++ go 30). split; [constructor|].
  cbv zeta.
  assert (X1 : sent (run (proc_step dirA two_files 1 false false) (proc_start (map encode_job [])) ([ASend SigUsr1] ++ by_hand 2 ++ [ASend SigUsr1; ASend SigInt] ++ by_hand 9 ++ go 30)) = [SigUsr1; SigUsr1; SigInt]) by (vm_compute; reflexivity).
  assert (X2 : took (run (proc_step dirA two_files 1 false false) (proc_start (map encode_job [])) ([ASend SigUsr1] ++ by_hand 2 ++ [ASend SigUsr1; ASend SigInt] ++ by_hand 9 ++ go 30)) = [SigUsr1; SigUsr1]) by (vm_compute; reflexivity).
  rewrite X1, X2. split; [right; right; left; reflexivity|]. split; [intros g [<-|[<-|[]]]; reflexivity|].
  split; [vm_compute; reflexivity|]. split; [vm_compute; reflexivity|]. split; [vm_compute; reflexivity | discriminate].
Qed.
(** Two termination signals were sent, but the handler has received one only and waits for another one: the second is dropped if it comes before the first is taken. *)
Theorem C94_second_refuted : exists key listed batch jobs0 l, jobs_ok jobs0 /\
  let s := run (proc_step key listed batch false false) (proc_start (map encode_job jobs0)) l in
  sent s = [SigInt; SigInt] /\ took s = [SigInt] /\ gone s = None /\ forall ok, hand_step ok s = None.
Proof.
  exists dirA, two_files, 1%Z, [], (go 5 ++ [ASend SigInt; ASend SigInt] ++ by_hand 9). split; [constructor|].
  split; [vm_compute; reflexivity|]. split; [vm_compute; reflexivity|]. split; [vm_compute; reflexivity|]. intros ok. destruct ok; vm_compute; reflexivity.
Qed.
Print Assumptions C94_disk. Print Assumptions C94_stays. Print Assumptions C94_closed. Print Assumptions C94_exit_zero. Print Assumptions C94_exit_code.
Print Assumptions C94_no_new_batch. Print Assumptions C94_says. Print Assumptions C94_first. Print Assumptions C94_second. Print Assumptions C94_first_refuted.
Print Assumptions C94_second_refuted. Print Assumptions C94_flushed.
