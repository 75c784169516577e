(** C91: how the stages of one ingestion are wired together. *)
From Coq Require Import Permutation.
From Verif Require Import Base BaseLemmas SysModel PipeModel CrissModel CrissProofs PropertiesCriss WireModel WireProofs WireTop WireSpec WireEnds.

Definition resumed (S W C N : nat) (s : sid) : Prop := In s (joined S W C N).

(** ** C91. For all numbers of file readers, parsers, dechainers and database writers, Resume links the stages without a panic; without database writers the
    processor is refused. *)
Theorem C91_no_panic : forall S W C N, (0 < N -> exists n, processor_resume S W C N = Wired n /\ wait_chan S W C N n = Some (CTop FSrc)) /\ (N = 0 -> processor_resume S W C N = Refused).
Proof.
  intros S W C N. split; [|apply resume_refused]. intros H. destruct (resume_wired S W C N H) as (n & E & Hw). exists n. split; [exact E|]. reflexivity.
Qed.
(** The stages that are resumed: each of them once. *)
Theorem C91_stages : forall S W C N, NoDup (joined S W C N) /\ forall s, In s (joined S W C N) <->
  match s with
  | FSrc => True | Split i => i < S | Parse i => i < W | Dechain i => i < C | FSink | DSrc => False
  | Batcher i | Extractor i | CertCsv i | CertIns i | CertRem i | DomBatcher i | DomCsv i | DomIns i | DomRem i => i < N
  end.
Proof. intros S W C N. split; [apply joined_nodup | intros s; rewrite joined_in; destruct s; reflexivity]. Qed.

(** The outputs of every stage go where the picture of the code says, and nowhere else; the errors come back the same way. *)
Theorem C91_data : forall S W C N n s o t i, processor_resume S W C N = Wired n -> resumed S W C N s -> resumed S W C N t -> (delivers n s o t i <-> flow S W C N s o t i).
Proof. intros S W C N n s o t i E Hs Ht. apply data_links; [exact (made_wired _ _ _ _ _ E) | apply joined_in; exact Hs | apply joined_in; exact Ht]. Qed.
Theorem C91_errors : forall S W C N n s o t, processor_resume S W C N = Wired n -> resumed S W C N s -> resumed S W C N t -> (hears n s o t <-> exists i, flow S W C N s o t i).
Proof. intros S W C N n s o t E Hs Ht. apply error_links; [exact (made_wired _ _ _ _ _ E) | apply joined_in; exact Hs | apply joined_in; exact Ht]. Qed.
(** Every output and every error channel of a stage that is resumed is there: nobody sends on, or waits for, a nil channel. *)
Theorem C91_no_nil : forall S W C N n s, processor_resume S W C N = Wired n -> resumed S W C N s ->
  err n s <> None /\ (forall c, In c (inc n s) -> c <> None) /\ (forall c, In c (out n s) -> c <> None) /\ (forall c, In c (nerr n s) -> c <> None) /\ length (out n s) = length (nerr n s).
Proof. intros S W C N n s E Hs. apply (no_nil S W C N n (made_wired _ _ _ _ _ E)). apply joined_in. exact Hs. Qed.

(** When the source is at the end of the files, every stage comes to its end, and so does Wait. *)
Theorem C91_everything_ends : forall S W C N n, 0 < S -> 0 < W -> 0 < C -> processor_resume S W C N = Wired n ->
  (forall s, resumed S W C N s -> stopped n (resumed S W C N) True s /\ closed n (resumed S W C N) True (CErr s)) /\ closed n (resumed S W C N) True (CTop FSrc).
Proof.
  intros S W C N n H1 H2 H3 E. destruct (everything_ends S W C N n (made_wired _ _ _ _ _ E) H1 H2 H3 (made_pos _ _ _ _ _ E)) as (A & B & _). destruct (to_list S W C N n True) as [L1 L2].
  split; [|exact (L2 _ B)]. intros s Hs. apply joined_in in Hs. destruct (A s Hs) as [A1 A2]. split; [exact (L1 _ A1) | exact (L2 _ A2)].
Qed.
(** Until then nothing ends: no stage stops and no channel is closed while the source still has files and nobody fails. *)
Theorem C91_nothing_ends_early : forall S W C N n, 0 < S -> 0 < W -> 0 < C -> processor_resume S W C N = Wired n ->
  (forall s, ~ stopped n (resumed S W C N) False s) /\ forall c, ~ closed n (resumed S W C N) False c.
Proof.
  intros S W C N n H1 H2 H3 E. destruct (nothing_ends_early S W C N n (made_wired _ _ _ _ _ E) H1 H2 H3 (made_pos _ _ _ _ _ E)) as (A & B). destruct (from_list S W C N n False) as [L1 L2].
  split; [intros s H; exact (A s (L1 s H)) | intros c H; exact (B c (L2 c H))].
Qed.
(** No channel is closed by two, nor twice by one: nothing panics for this reason. *)
Theorem C91_closed_once : forall S W C N n E a b c, processor_resume S W C N = Wired n ->
  closes n (resumed S W C N) E a c -> closes n (resumed S W C N) E b c -> a = b.
Proof. intros S W C N n E a b c M H1 H2. apply closes_to in H1. apply closes_to in H2. exact (closed_once S W C N n (made_wired _ _ _ _ _ M) E a b c H1 H2). Qed.
Theorem C91_lists_without_repetition : forall S W C N n, processor_resume S W C N = Wired n -> (forall s, resumed S W C N s -> NoDup (out n s)) /\
  forall g, In g (gos n) -> match g with GFwdClose _ to => NoDup to | GErrClose _ to => NoDup to | GDist _ ps => NoDup (map (fun s => nth_error (nerr n s) 0) ps) | _ => True end.
Proof.
  intros S W C N n E. pose proof (made_wired _ _ _ _ _ E) as Hw. split; [|exact (closed_lists S W C N n Hw)]. intros s Hs. apply joined_in in Hs. exact (own_outputs_differ S W C N n Hw s Hs).
Qed.

(** Which of the started goroutines come to an end: all but three, those that were started for the skipped sink. *)
Theorem C91_goroutines : forall S W C N n g, 0 < S -> 0 < W -> 0 < C -> processor_resume S W C N = Wired n -> In g (gos n) ->
  (returns n (resumed S W C N) True g <-> ~ (g = GDist 3 (each Dechain C) \/ g = GCol 3 FSink \/ g = GAggClose 3 [FSink])).
Proof.
  intros S W C N n g H1 H2 H3 E Hg. pose proof (made_wired _ _ _ _ _ E) as Hw. unfold resumed. rewrite returns_iff. split.
  - intros H Hl. exact (left_never S W C N n Hw True g Hl H).
  - intros H. exact (others_return S W C N n Hw g H1 H2 H3 (made_pos _ _ _ _ _ E) Hg H).
Qed.
(** They are left behind by every batch, for all numbers of workers; and one of them would close channels which another goroutine closes. *)
Theorem C91_goroutines_refuted : forall S W C N n, processor_resume S W C N = Wired n -> exists g1 g2 g3, g1 <> g2 /\ g1 <> g3 /\ g2 <> g3 /\
  (forall g, In g [g1; g2; g3] -> In g (gos n) /\ forall E, ~ returns n (resumed S W C N) E g) /\
  forall i, i < C -> exists ps from to c, g1 = GDist 3 ps /\ In (Dechain i) ps /\ nth_error (nerr n (Dechain i)) 0 = Some (Some c) /\ In (GErrClose from to) (gos n) /\ In c to.
Proof.
  intros S W C N n M. pose proof (made_wired _ _ _ _ _ M) as Hw. exists (GDist 3 (each Dechain C)), (GCol 3 FSink), (GAggClose 3 [FSink]).
  split; [discriminate|]. split; [discriminate|]. split; [discriminate|]. split.
  - intros g Hg. assert (Hl : left_behind C g) by (unfold left_behind; cbn in Hg; destruct Hg as [<-|[<-|[<-|[]]]]; auto). split; [exact (left_in S W C N n Hw g Hl)|].
    intros E H. apply returns_iff in H. exact (left_never S W C N n Hw E g Hl H).
  - intros i Hi. exists (each Dechain C), (fin_nerr N DSrc), (errs C), (CNewErr i). split; [reflexivity|]. split; [apply in_each; eauto|].
    split; [apply (nerr_at S W C N n Hw); [exact Hi | auto]|]. split; [apply (gos_in S W C N n Hw); cbn [gor_in]; auto | apply in_map_seq; eauto].
Qed.

(** With no file readers, no parsers or no dechainers, the source is told to stop before it has read anything, and Wait returns without an error. *)
Theorem C91_no_workers_refuted : forall S W C N, S = 0 \/ W = 0 \/ C = 0 -> 0 < N -> exists n, processor_resume S W C N = Wired n /\
  stopped n (resumed S W C N) False FSrc /\ closed n (resumed S W C N) False (CTop FSrc).
Proof.
  intros S W C N H HN. destruct (resume_wired S W C N HN) as (n & E & Hw). exists n. split; [exact E|]. destruct (no_workers S W C N n Hw False H) as [A B].
  destruct (to_list S W C N n False) as [L1 L2]. split; [exact (L1 _ A) | exact (L2 _ B)].
Qed.
(** The same in the runs of the criss-cross: without receivers, every fair schedule comes to the end of all senders, which report their own errors only, and no item was taken. *)
Theorem C91_no_receivers_refuted : forall (D : Type) own fails fails_end (work : list (list D)) f, 0 < length work -> fair f -> exists m,
  let c := run (criss_step own fails fails_end) (criss_start work 0) (prefix f m) in
  CrissModel.closes c = 1 /\ forall i s, nth_error (snds c) i = Some s -> spc s = SDone /\ ssent s = [] /\ forall e, In e (sfound s) -> In e (own i).
Proof.
  intros D own fails fails_end work f H Hf. destruct (C37_everybody_ends D own fails fails_end work 0 f H Hf) as (m & Hm). exists m. cbv zeta in Hm |- *.
  destruct Hm as (A & B & _). destruct (C37_one_receiver_each D own fails fails_end work 0 (prefix f m) H) as [P _]. pose proof (criss_real own fails fails_end work 0 H (prefix f m)) as R. cbv zeta in P, R.
  pose proof (k_m _ _ _ _ _ (cinv_run own fails fails_end work 0 H (prefix f m))) as L.
  set (c := run _ _ _) in *. assert (Hr : rcvs c = []) by (destruct (rcvs c); [reflexivity | discriminate L]). rewrite Hr in P. cbn in P. apply Permutation_sym, Permutation_nil in P.
  split; [exact A|]. intros i s Hs. split; [exact (B i s Hs)|]. split.
  - destruct (ssent s) as [|x r] eqn:E; [reflexivity|]. exfalso. assert (X : In x (concat (map ssent (snds c)))).
    { apply in_concat. exists (ssent s). split; [apply in_map; exact (nth_error_In _ _ Hs) | rewrite E; left; reflexivity]. }
    rewrite P in X. exact X.
  - intros e He. destruct (R i s e Hs He) as [X|(j & r & X & _)]; [exact X|]. rewrite Hr in X. destruct j; discriminate X.
Qed.

(** Two readers, one parser, two dechainers, two writers. *)
Definition small : made := processor_resume 2 1 2 2.
Example C91_small : match small with
  | Wired n => (out n (Dechain 1), nerr n (Extractor 0), inc n (DomBatcher 1), length (gos n), wait_chan 2 1 2 2 n) =
      ([Some (CNewData 1)], [Some (CErr (DomBatcher 0)); Some (CErr (DomBatcher 1))], [Some (CIn (DomBatcher 1) 0); Some (CIn (DomBatcher 1) 1)], 27, Some (CTop FSrc))
  | _ => False end.
Proof. vm_compute. reflexivity. Qed.
Example C91_small_flow : flow 2 1 2 2 (Dechain 1) 0 (Extractor 0) 0 /\ flow 2 1 2 2 (Extractor 1) 0 (DomBatcher 0) 1 /\ ~ flow 2 1 2 2 (Extractor 1) 1 (DomBatcher 0) 1 /\ ~ flow 2 1 2 2 (Batcher 0) 0 (CertCsv 1) 0.
Proof. cbn. repeat split; try lia; intros H; decompose [and] H; lia. Qed.
Example C91_small_ends : exists n, small = Wired n /\ stopped n (resumed 2 1 2 2) True (DomRem 1) /\ closed n (resumed 2 1 2 2) True (CTop FSrc).
Proof.
  destruct (C91_no_panic 2 1 2 2) as [H _]. destruct H as (n & E & _); [lia|]. exists n. split; [exact E|].
  destruct (C91_everything_ends 2 1 2 2 n) as [A B]; [lia | lia | lia | exact E|]. split; [apply A; apply C91_stages; cbn; lia | exact B].
Qed.
(** The journal of the command is written after this: -numparsers 0. *)
Example C91_no_parsers : exists n, processor_resume 4 0 4 32 = Wired n /\ closed n (resumed 4 0 4 32) False (CTop FSrc).
Proof. destruct (C91_no_workers_refuted 4 0 4 32) as (n & E & _ & H); [auto | lia | exists n; auto]. Qed.
Print Assumptions C91_no_panic. Print Assumptions C91_stages. Print Assumptions C91_data. Print Assumptions C91_errors. Print Assumptions C91_no_nil. Print Assumptions C91_everything_ends.
Print Assumptions C91_nothing_ends_early. Print Assumptions C91_closed_once. Print Assumptions C91_lists_without_repetition. Print Assumptions C91_goroutines. Print Assumptions C91_goroutines_refuted.
Print Assumptions C91_no_workers_refuted. Print Assumptions C91_no_receivers_refuted.
