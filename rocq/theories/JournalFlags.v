(** The phase flags of the journal, over any sequence of runs. *)
From Verif Require Import Base BaseLemmas UtilModel JournalModel JournalIntervals JournalProofs JournalRun.

(** ** What the flags claim *)
Definition history := list (bytes * action).
(** Index [i] of directory [k] is in a file whose ingestion has succeeded; everything after that is [h2]. *)
Definition ingested (h : history) (k : bytes) (i : N) (h2 : history) : Prop :=
  exists h1 files f iv, h = h1 ++ (k, ARun files true) :: h2 /\ In f files /\ parse_file f = Some iv /\ (iv_s iv <= i <= iv_e iv)%N.
Definition done (h : history) (k : bytes) (i : N) : Prop := exists h2, ingested h k i h2.
Definition coalesced_after (h : history) (k : bytes) (i : N) : Prop := exists h2 k', ingested h k i h2 /\ In (k', ACoalesce true) h2.
Definition updated_after (h : history) (k : bytes) (i : N) : Prop := exists h2 k', ingested h k i h2 /\ In (k', AUpdate true) h2.
(** First coalesced, then the tree updated. *)
Definition both_after (h : history) (k : bytes) (i : N) : Prop :=
  exists h2 h3 h4 k' k'', ingested h k i h2 /\ h2 = h3 ++ (k', ACoalesce true) :: h4 /\ In (k'', AUpdate true) h4.

Lemma ingested_app h t k i h2 : ingested h k i h2 -> ingested (h ++ t) k i (h2 ++ t).
Proof. intros (h1 & files & f & iv & -> & H1 & H2 & H3). exists h1, files, f, iv. rewrite <- app_assoc. auto. Qed.
Lemma done_app h t k i : done h k i -> done (h ++ t) k i.
Proof. intros (h2 & H). exists (h2 ++ t). apply ingested_app. exact H. Qed.
Lemma coalesced_app h t k i : coalesced_after h k i -> coalesced_after (h ++ t) k i.
Proof. intros (h2 & k' & H & H'). exists (h2 ++ t), k'. split; [apply ingested_app; exact H | apply in_or_app; left; exact H']. Qed.
Lemma updated_app h t k i : updated_after h k i -> updated_after (h ++ t) k i.
Proof. intros (h2 & k' & H & H'). exists (h2 ++ t), k'. split; [apply ingested_app; exact H | apply in_or_app; left; exact H']. Qed.
Lemma both_app h t k i : both_after h k i -> both_after (h ++ t) k i.
Proof.
  intros (h2 & h3 & h4 & k' & k'' & H & -> & H'). exists ((h3 ++ (k', ACoalesce true) :: h4) ++ t), h3, (h4 ++ t), k', k''.
  split; [apply ingested_app; exact H|]. split; [rewrite <- app_assoc; reflexivity | apply in_or_app; left; exact H'].
Qed.
Lemma now_coalesced h key k i : done h k i -> coalesced_after (h ++ [(key, ACoalesce true)]) k i.
Proof. intros (h2 & H). exists (h2 ++ [(key, ACoalesce true)]), key. split; [apply ingested_app; exact H | apply in_or_app; right; left; reflexivity]. Qed.
Lemma now_updated h key k i : done h k i -> updated_after (h ++ [(key, AUpdate true)]) k i.
Proof. intros (h2 & H). exists (h2 ++ [(key, AUpdate true)]), key. split; [apply ingested_app; exact H | apply in_or_app; right; left; reflexivity]. Qed.
Lemma now_both h key k i : coalesced_after h k i -> both_after (h ++ [(key, AUpdate true)]) k i.
Proof.
  intros (h2 & k' & H & H'). apply in_split in H' as (h3 & h4 & ->). exists ((h3 ++ (k', ACoalesce true) :: h4) ++ [(key, AUpdate true)]), h3, (h4 ++ [(key, AUpdate true)]), k', key.
  split; [apply ingested_app; exact H|]. split; [rewrite <- app_assoc; reflexivity | apply in_or_app; right; left; reflexivity].
Qed.

(** A job is truthful. [strict]: its coalesced flag too. *)
Section Truth.
  Variable strict : bool.
  Definition truthful (h : history) (j : job) : Prop :=
    forall k i, key_covers (j_completed j) k i -> done h k i /\ (j_smt j = true -> updated_after h k i) /\
      (strict = true -> (j_coalesced j = true -> coalesced_after h k i) /\ (j_smt j = true -> both_after h k i)).
  Lemma truthful_app h t j : truthful h j -> truthful (h ++ t) j.
  Proof.
    intros H k i Hc. destruct (H k i Hc) as (H1 & H2 & H3). split; [apply done_app; exact H1|]. split; [intros X; apply updated_app; auto|].
    intros Hs. destruct (H3 Hs) as [H4 H5]. split; intros X; [apply coalesced_app | apply both_app]; auto.
  Qed.
  Record Truth (h : history) (j : journal) : Prop := {
    t_mem : jobs_ok (mem j) /\ Forall (truthful h) (mem j);
    t_disk : exists jobs, disk j = map encode_job jobs /\ jobs_ok jobs /\ Forall (truthful h) jobs
  }.
  Lemma Truth_app h t j : Truth h j -> Truth (h ++ t) j.
  Proof.
    intros [[H1 H2] (jobs & H3 & H4 & H5)]. constructor.
    - split; [exact H1|]. eapply Forall_impl; [|exact H2]. intros x. apply truthful_app.
    - exists jobs. split; [exact H3|]. split; [exact H4|]. eapply Forall_impl; [|exact H5]. intros x. apply truthful_app.
  Qed.
  Lemma Truth_write ok h j : Truth h j -> Truth h (fst (write ok j)).
  Proof. intros [H1 H2]. unfold write. destruct ok; cbn [fst]; constructor; cbn [mem disk]; auto. exists (mem j). destruct H1. auto. Qed.
  Lemma truthful_last h l : jobs_ok l -> Forall (truthful h) l -> truthful h (last_job l).
  Proof.
    intros _ H. destruct l as [|x l] using rev_ind; [intros k i (y & Hy & _); discriminate Hy|]. rewrite last_last_job. apply Forall_app in H as [_ H]. inversion H; assumption.
  Qed.
  Lemma truthful_set_last h l x : Forall (truthful h) l -> truthful h x -> Forall (truthful h) (set_last l x).
  Proof.
    intros Hl Hx. apply Forall_app. split; [|constructor; [exact Hx | constructor]]. rewrite Forall_forall in *. intros j Hj. apply Hl.
    destruct l as [|j0 l0]; [destruct Hj|]. rewrite (app_removelast_last (l := j0 :: l0) j0) by discriminate. apply in_or_app. left. exact Hj.
  Qed.
  Lemma Truth_open ok h d j r : (exists jobs, d = map encode_job jobs /\ jobs_ok jobs /\ Forall (truthful h) jobs) -> open_journal ok d = Some (j, r) ->
    Truth h j /\ exists jobs, d = map encode_job jobs /\ jobs_ok jobs /\ Forall (truthful h) jobs /\ mem j = jobs ++ [last_job jobs].
  Proof.
    intros (jobs & -> & H1 & H2) E. unfold open_journal in E. rewrite read_back in E by exact H1. injection E as E.
    assert (Hl : truthful h (last_job jobs)) by (apply truthful_last; assumption).
    assert (T : Truth h (mk_journal (jobs ++ [last_job jobs]) (map encode_job jobs))).
    { constructor; cbn [mem disk].
      - split; [apply Forall_app; split; [exact H1 | constructor; [apply jobs_ok_last; exact H1 | constructor]] | apply Forall_app; split; [exact H2 | constructor; [exact Hl | constructor]]].
      - exists jobs. auto. }
    pose proof (Truth_write ok h _ T) as T'. rewrite E in T'. cbn [fst] in T'. split; [exact T'|]. exists jobs. split; [reflexivity|]. split; [exact H1|]. split; [exact H2|].
    unfold write in E. destruct ok; injection E as <- _; reflexivity.
  Qed.

  (** A commit. *)
  Lemma Truth_commit ok key files co sm h j : Truth h j -> key <> [] -> Forall below_max (file_intervals files) -> parseable files -> mem j <> [] ->
    let cov k i := key_covers (j_completed (last_job (mem j))) k i \/ (k = key /\ covers (file_intervals files) i) in
    (forall k i, cov k i -> done h k i) -> (sm = true -> forall k i, cov k i -> updated_after h k i) ->
    (strict = true -> (co || sm = true -> forall k i, cov k i -> coalesced_after h k i) /\ (sm = true -> forall k i, cov k i -> both_after h k i)) ->
    Truth h (fst (commit_progress ok key files co sm j)) /\ mem (fst (commit_progress ok key files co sm j)) <> [] /\
    (forall k i, key_covers (j_completed (last_job (mem (fst (commit_progress ok key files co sm j))))) k i <-> cov k i) /\
    j_coalesced (last_job (mem (fst (commit_progress ok key files co sm j)))) = co || sm.
  Proof.
    intros [[H1 H2] H3] Hk Hb Hp Hne cov Hd Hs Hst. unfold cov in *. clear cov. unfold commit_progress. destruct (mem j) as [|j0 m0] eqn:Em; [congruence|]. rewrite <- Em in *.
    set (cur := last_job (mem j)) in *. destruct (add_files_ok key files (j_completed cur) (jobs_ok_last _ H1) Hk Hb) as (A1 & A2 & A3).
    assert (Hgood : snd (add_files key files (j_completed cur)) = true) by (apply A3; exact Hp).
    destruct (add_files key files (j_completed cur)) as [c good]. cbn [fst snd] in *. subst good.
    set (nj := mk_job (co || sm) sm (j_ctsize cur) c).
    assert (Hne' : set_last (mem j) nj <> []) by (intros X; apply (f_equal (@length _)) in X; unfold set_last in X; rewrite app_length in X; cbn in X; lia).
    assert (Hnj : truthful h nj).
    { intros k i Hc. unfold nj in *. cbn [j_completed j_smt j_coalesced] in *. pose proof (proj1 (A2 k i) Hc) as Hc'. split; [exact (Hd k i Hc')|]. split; [intros X; exact (Hs X k i Hc')|]. intros X. destruct (Hst X) as [Y1 Y2]. split; intros Z; [exact (Y1 Z k i Hc') | exact (Y2 Z k i Hc')]. }
    assert (T : Truth h (mk_journal (set_last (mem j) nj) (disk j))).
    { constructor; cbn [mem disk]; [|exact H3]. split; [apply jobs_ok_set_last; assumption | apply truthful_set_last; assumption]. }
    split; [apply Truth_write; exact T|]. unfold write. destruct ok; cbn [fst mem]; rewrite last_set_last; cbn [nj j_completed j_coalesced]; auto.
  Qed.

  (** ** Inside a run *)
  Section Run.
    Variable ok : nat -> bool.
    Variable key : bytes.
    Hypothesis key_ok : key <> [].
    Variable h0 : history.
    Definition hist (w : world) : history := h0 ++ map (pair key) (w_trace w).
    Definition good_world (w : world) : Prop := Truth (hist w) (w_journal w) /\ mem (w_journal w) <> [].
    Lemma hist_act w (a : bool -> action) r : hist (mk_world (w_journal w) (w_trace w ++ [a r])) = hist w ++ [(key, a r)].
    Proof. unfold hist. cbn [w_trace]. rewrite map_app, app_assoc. reflexivity. Qed.
    Lemma good_act w a : good_world w -> good_world (fst (act ok a w)).
    Proof. intros [T N]. unfold act. split; cbn [fst w_journal]; [|exact N]. rewrite hist_act. apply Truth_app. exact T. Qed.
    Lemma act_ok w a w' : act ok a w = (w', true) -> w_journal w' = w_journal w /\ hist w' = hist w ++ [(key, a true)].
    Proof. unfold act. intros E. injection E as <- E. rewrite E. split; [reflexivity | apply hist_act]. Qed.

    (** Everything that is done. *)
    Definition all_coalesced (w : world) : Prop := forall k i, done (hist w) k i -> coalesced_after (hist w) k i.
    Definition all_updated (w : world) : Prop := forall k i, done (hist w) k i -> updated_after (hist w) k i.
    Definition all_both (w : world) : Prop := forall k i, done (hist w) k i -> both_after (hist w) k i.
    Lemma done_other h a k i : (forall files, a <> ARun files true) -> done (h ++ [(key, a)]) k i -> done h k i.
    Proof.
      intros Ha (h2 & h1 & files & f & iv & E & H1 & H2 & H3). destruct h2 as [|x h2 _] using rev_ind.
      - apply app_inj_tail in E as [_ E]. injection E as <- E. exfalso. exact (Ha files E).
      - rewrite app_comm_cons, app_assoc in E. apply app_inj_tail in E as [E _]. exists h2, h1, files, f, iv. auto.
    Qed.
    Lemma after_coalesce w w' : act ok ACoalesce w = (w', true) -> all_coalesced w'.
    Proof. intros E k i Hd. destruct (act_ok _ _ _ E) as [_ H]. rewrite H in *. apply now_coalesced. apply done_other in Hd; [exact Hd | discriminate]. Qed.
    Lemma after_update w w' : act ok AUpdate w = (w', true) -> all_updated w'.
    Proof. intros E k i Hd. destruct (act_ok _ _ _ E) as [_ H]. rewrite H in *. apply now_updated. apply done_other in Hd; [exact Hd | discriminate]. Qed.
    Lemma after_both w w' : all_coalesced w -> act ok AUpdate w = (w', true) -> all_both w' /\ all_coalesced w'.
    Proof.
      intros A E. destruct (act_ok _ _ _ E) as [_ H]. split; intros k i Hd; rewrite H in *; apply done_other in Hd; try discriminate; [apply now_both | apply coalesced_app]; auto.
    Qed.
    Lemma good_done w k i : good_world w -> key_covers (j_completed (last_job (mem (w_journal w)))) k i -> done (hist w) k i.
    Proof. intros [[[T1 T2] _] _] Hc. exact (proj1 (truthful_last _ _ T1 T2 k i Hc)). Qed.
    Lemma commit_good w files co sm : good_world w -> parseable files -> Forall below_max (file_intervals files) ->
      (forall i, covers (file_intervals files) i -> done (hist w) key i) ->
      (sm = true -> all_updated w) -> (strict = true -> (co || sm = true -> all_coalesced w) /\ (sm = true -> all_both w)) ->
      good_world (fst (commit ok key files co sm w)).
    Proof.
      intros [T N] Hp Hb Hf Hu Hst. unfold commit. destruct (commit_progress _ key files co sm (w_journal w)) as [j' r] eqn:E. cbn [fst].
      assert (Hcov : forall k i, key_covers (j_completed (last_job (mem (w_journal w)))) k i \/ (k = key /\ covers (file_intervals files) i) -> done (hist w) k i).
      { intros k i [X|[-> X]]; [apply good_done; [split|]; assumption | apply Hf; exact X]. }
      destruct (Truth_commit (ok (length (w_trace w))) key files co sm (hist w) (w_journal w) T key_ok Hb Hp N Hcov) as (T' & N' & _).
      - intros X k i Y. apply (Hu X). apply Hcov. exact Y.
      - intros X. destruct (Hst X) as [X1 X2]. split; intros Y k i Z; [apply (X1 Y) | apply (X2 Y)]; apply Hcov; exact Z.
      - rewrite E in T', N'. cbn [fst] in T', N'. split; cbn [w_journal]; [|exact N'].
        pose proof (hist_act (mk_world j' (w_trace w)) (ACommit files) r) as Hh. cbn [w_journal w_trace] in Hh. rewrite Hh. apply Truth_app. exact T'.
    Qed.

    Lemma batch_good s w b : s = only_ingest \/ s = full_run -> good_world w -> parseable b -> Forall below_max (file_intervals b) -> good_world (fst (run_batch ok key s w b)).
    Proof.
      intros Hs G Hp Hb. unfold run_batch. destruct (act ok (ARun b) w) as [w1 r1] eqn:E1. cbn [andThen]. pose proof (good_act w (ARun b) G) as G1. rewrite E1 in G1. cbn [fst] in G1.
      destruct r1; [|exact G1]. destruct (act_ok _ _ _ E1) as [_ H1].
      assert (Hf : forall i, covers (file_intervals b) i -> done (hist w1) key i).
      { intros i (iv & Hi & Hr). assert (X : exists f, In f b /\ parse_file f = Some iv).
        { clear -Hi. induction b as [|f b IH]; cbn [file_intervals] in Hi; [destruct Hi|]. destruct (parse_file f) as [iv'|] eqn:P; [|destruct Hi]. destruct Hi as [->|Hi]; [exists f; split; [left; reflexivity | exact P]|].
          destruct (IH Hi) as (g & Hg & Pg). exists g. split; [right; exact Hg | exact Pg]. }
        destruct X as (f & Hfb & P). exists [], (hist w), b, f, iv. rewrite H1. auto. }
      destruct Hs as [-> | ->]; cbn [st_coalesce st_smt only_ingest full_run when andThen].
      - apply commit_good; auto; try discriminate. intros _. cbn. split; discriminate.
      - destruct (act ok ACoalesce w1) as [w2 r2] eqn:E2. cbn [andThen]. pose proof (good_act w1 ACoalesce G1) as G2. rewrite E2 in G2. cbn [fst] in G2. destruct r2; [|exact G2].
        destruct (act ok AUpdate w2) as [w3 r3] eqn:E3. cbn [andThen]. pose proof (good_act w2 AUpdate G2) as G3. rewrite E3 in G3. cbn [fst] in G3. destruct r3; [|exact G3].
        pose proof (after_coalesce _ _ E2) as A2. destruct (after_both _ _ A2 E3) as [B3 C3]. pose proof (after_update _ _ E3) as U3.
        apply commit_good; auto. intros i Hi. destruct (act_ok _ _ _ E3) as [_ H3]. rewrite H3. apply done_app. destruct (act_ok _ _ _ E2) as [_ H2]. rewrite H2. apply done_app. apply Hf. exact Hi.
    Qed.
    Lemma seq_good s go bs : s = only_ingest \/ s = full_run -> forall n w, good_world w -> parseable (concat bs) -> Forall below_max (file_intervals (concat bs)) ->
      good_world (fst (seq_run go (run_batch ok key s) n bs w)).
    Proof.
      intros Hs. induction bs as [|b bs IH]; intros n w G Hp Hb; cbn [seq_run concat] in *; [exact G|]. destruct (go n); [|exact G].
      assert (Hp1 : parseable b) by (intros f Hf; apply Hp, in_or_app; auto). assert (Hp2 : parseable (concat bs)) by (intros f Hf; apply Hp, in_or_app; auto).
      rewrite file_intervals_app in Hb by exact Hp1. apply Forall_app in Hb as [Hb1 Hb2].
      pose proof (batch_good s w b Hs G Hp1 Hb1) as G1. destruct (run_batch ok key s w b) as [w1 r]. cbn [fst] in G1. destruct r; [apply IH; assumption | exact G1].
    Qed.
    Lemma pending_parse files c todo : pending_files key files c = Some todo -> parseable todo /\ (Forall below_max (file_intervals files) -> Forall below_max (file_intervals todo)).
    Proof.
      revert todo. induction files as [|f fs IH]; intros todo E; cbn [pending_files] in E; [injection E as <-; split; [intros f [] | auto]|].
      destruct (parse_file f) as [iv|] eqn:P; [|discriminate E]. destruct (pending_files key fs c) as [r|]; [|discriminate E]. injection E as <-. destruct (IH r eq_refl) as [H1 H2].
      cbn [file_intervals]. rewrite P. destruct (contains_completed c key iv).
      - split; [exact H1|]. intros X. inversion X. auto.
      - split; [intros g [<-|Hg]; [congruence | apply H1; exact Hg]|]. intros X. inversion X; subst. cbn [file_intervals]. rewrite P. constructor; auto.
    Qed.
    Lemma nil_done w i : covers (file_intervals []) i -> done (hist w) key i.
    Proof. intros X. destruct (covers_nil _ X). Qed.
    Lemma nil_parseable : parseable [].
    Proof. intros f []. Qed.
    Lemma run_good s go size files w : (s = only_ingest \/ s = full_run \/ s = skip_ingest \/ (s = only_smt /\ (strict = true -> j_coalesced (last_job (mem (w_journal w))) = true))) ->
      good_world w -> Forall below_max (file_intervals files) -> good_world (fst (run_ingest ok key s go size files w)).
    Proof.
      intros Hs G Hb. unfold run_ingest.
      match goal with |- good_world (fst (let (w1, r) := ?X in _)) => assert (G1 : good_world (fst X)); [|destruct X as [w1 r]; cbn [fst] in G1 |- *; destruct G1 as [T N]; split; cbn [w_journal];
        [unfold hist; cbn [w_trace]; apply Truth_write; exact T | unfold write; destruct (ok _); exact N]] end.
      destruct Hs as [Hs|[Hs|[Hs|[Hs Hco]]]].
      - subst s. cbn [st_ingest only_ingest]. destruct (pending_files key files _) as [todo|] eqn:P; [|exact G]. destruct (pending_parse _ _ _ P) as [P1 P2].
        destruct (batches_tile go (run_batch ok key only_ingest) size todo w) as (bs & <- & _ & ->). apply seq_good; auto.
      - subst s. cbn [st_ingest full_run]. destruct (pending_files key files _) as [todo|] eqn:P; [|exact G]. destruct (pending_parse _ _ _ P) as [P1 P2].
        destruct (batches_tile go (run_batch ok key full_run) size todo w) as (bs & <- & _ & ->). apply seq_good; auto.
      - subst s. cbn [st_ingest skip_ingest]. unfold run_no_ingest. cbn [st_coalesce st_smt skip_ingest when].
        destruct (act ok ACoalesce w) as [w1 r1] eqn:E1. cbn [andThen]. pose proof (good_act w ACoalesce G) as G1. rewrite E1 in G1. cbn [fst] in G1. destruct r1; [|exact G1].
        pose proof (after_coalesce _ _ E1) as A1.
        assert (G2 : good_world (fst (commit ok key [] true false w1))) by (apply commit_good; auto using nil_parseable, nil_done; [constructor | discriminate | intros _; split; [auto | discriminate]]).
        assert (A2 : all_coalesced (fst (commit ok key [] true false w1))).
        { unfold commit. destruct (commit_progress _ _ _ _ _ _) as [j' r]. cbn [fst]. pose proof (hist_act (mk_world j' (w_trace w1)) (ACommit []) r) as Hh. cbn [w_journal w_trace] in Hh.
          intros k i Hd. rewrite Hh in *. apply done_other in Hd; [|discriminate]. apply coalesced_app. apply A1. exact Hd. }
        destruct (commit ok key [] true false w1) as [w2 r2]. cbn [fst] in G2, A2. destruct r2; [|exact G2]. cbn [andThen when].
        destruct (act ok AUpdate w2) as [w3 r3] eqn:E3. cbn [andThen]. pose proof (good_act w2 AUpdate G2) as G3. rewrite E3 in G3. cbn [fst] in G3. destruct r3; [|exact G3].
        destruct (after_both _ _ A2 E3) as [B3 C3]. pose proof (after_update _ _ E3) as U3.
        apply commit_good; auto using nil_parseable, nil_done. constructor.
      - subst s. cbn [st_ingest only_smt]. unfold run_no_ingest. cbn [st_coalesce st_smt only_smt when andThen].
        destruct (act ok AUpdate w) as [w3 r3] eqn:E3. cbn [andThen]. pose proof (good_act w AUpdate G) as G3. rewrite E3 in G3. cbn [fst] in G3. destruct r3; [|exact G3].
        pose proof (after_update _ _ E3) as U3. destruct (act_ok _ _ _ E3) as [J3 H3].
        unfold commit. destruct (commit_progress _ key [] false true (w_journal w3)) as [j' r] eqn:E. cbn [fst]. destruct G3 as [T3 N3].
        assert (Hcov : forall k i, key_covers (j_completed (last_job (mem (w_journal w3)))) k i \/ (k = key /\ covers (file_intervals []) i) -> done (hist w3) k i).
        { intros k i [X|[_ X]]; [apply good_done; [split|]; assumption | destruct (covers_nil _ X)]. }
        destruct (Truth_commit (ok (length (w_trace w3))) key [] false true (hist w3) (w_journal w3) T3 key_ok ltac:(constructor) nil_parseable N3 Hcov) as (T' & N' & _).
        + intros _ k i Y. apply U3. apply Hcov. exact Y.
        + intros X. specialize (Hco X). assert (Hold : forall k i, key_covers (j_completed (last_job (mem (w_journal w3)))) k i \/ (k = key /\ covers (file_intervals []) i) -> coalesced_after (hist w) k i).
          { intros k i [Y|[_ Y]]; [|destruct (covers_nil _ Y)]. rewrite J3 in Y. destruct G as [[[T1 T2] _] _]. exact (proj1 (proj2 (proj2 (truthful_last _ _ T1 T2 k i Y)) X) Hco). }
          split; intros _ k i Y; rewrite H3; [apply coalesced_app | apply now_both]; apply Hold; exact Y.
        + rewrite E in T', N'. cbn [fst] in T', N'. split; cbn [w_journal]; [|exact N'].
          pose proof (hist_act (mk_world j' (w_trace w3)) (ACommit []) r) as Hh. cbn [w_journal w_trace] in Hh. rewrite Hh. apply Truth_app. exact T'.
    Qed.
  End Run.

  (** ** Several runs *)
  Definition past_ok (p : past) : Prop := exists jobs, p_disk p = map encode_job jobs /\ jobs_ok jobs /\ Forall (truthful (p_history p)) jobs.
  (** The strategies that the command line offers. A run of "onlysmtupdate" is allowed, if the flag matters, only when the state is already coalesced. *)
  Definition command_ok (p : past) (c : command) : Prop :=
    match c with
    | CIngest _ _ key s _ _ files => key <> [] /\ Forall below_max (file_intervals files) /\
        (s = only_ingest \/ s = full_run \/ s = skip_ingest \/
         (s = only_smt /\ (strict = true -> exists d, last (map Some (p_disk p)) None = Some d /\ d_coalesced d = true)))
    | CCtSize _ _ _ _ _ => True
    end.
  Fixpoint commands_ok (p : past) (cs : list command) : Prop := match cs with [] => True | c :: cs' => command_ok p c /\ commands_ok (exec c p) cs' end.
  Lemma last_some {A} (l : list A) x : last (map Some l) None = Some x -> exists l', l = l' ++ [x].
  Proof. destruct l as [|y l] using rev_ind; [discriminate|]. rewrite map_app. cbn [map]. rewrite last_last. intros E. injection E as <-. exists l. reflexivity. Qed.
  Lemma exec_ok c p : past_ok p -> command_ok p c -> past_ok (exec c p).
  Proof.
    intros Hp Hc. destruct c as [open_ok ok key s go size files|open_ok r_ok c_ok cl_ok key]; cbn [exec].
    - destruct Hc as (Hk & Hb & Hs). destruct (open_journal open_ok (p_disk p)) as [[j r]|] eqn:E; [|exact Hp].
      destruct (Truth_open _ _ _ _ _ Hp E) as (T & jobs & D1 & D2 & D3 & M). destruct r; [|destruct T as [_ T]; exact T].
      pose proof (run_good ok key Hk (p_history p) s go size files (mk_world j [])) as G. destruct (run_ingest ok key s go size files (mk_world j [])) as [w r'] eqn:R. cbn [fst] in G.
      assert (G' : good_world key (p_history p) w).
      { apply G; [|split; [unfold hist; cbn [w_trace map]; rewrite app_nil_r; exact T | cbn [w_journal]; rewrite M; destruct jobs; discriminate] | exact Hb].
        destruct Hs as [X|[X|[X|[X Y]]]]; [auto | auto | auto |]. right. right. right. split; [exact X|]. intros Z. destruct (Y Z) as (d & L & C). cbn [w_journal]. rewrite M, last_last_job.
        destruct (last_some _ _ L) as (l' & El). rewrite D1 in El. destruct jobs as [|x jobs _] using rev_ind; [destruct l'; discriminate El|]. rewrite map_app in El. apply app_inj_tail in El as [_ El].
        rewrite last_last_job. subst d. exact C. }
      destruct G' as [[_ T'] _]. exact T'.
    - destruct (open_journal open_ok (p_disk p)) as [[j r]|] eqn:E; [|exact Hp]. destruct (Truth_open _ _ _ _ _ Hp E) as (T & jobs & D1 & D2 & D3 & M). destruct r; [|destruct T as [_ T]; exact T].
      assert (Hct : forall b size, Truth (p_history p) (fst (commit_ct_size b size j))).
      { intros b size. unfold commit_ct_size. destruct (mem j) as [|j0 m0] eqn:Em; [exact T|]. rewrite <- Em. apply Truth_write. destruct T as [[T1 T2] T3]. constructor; cbn [mem disk]; [|exact T3].
        pose proof (truthful_last _ _ T1 T2) as TL. split; [apply jobs_ok_set_last; [exact T1 | apply jobs_ok_last; exact T1] | apply truthful_set_last; [exact T2 | exact TL]]. }
      cbv zeta. match goal with |- past_ok (mk_past (disk (fst (write _ ?j'))) _) => assert (T' : Truth (p_history p) j') end.
      { destruct (completed_ct_size _ _); [|exact T]. destruct r_ok; [apply Hct | exact T]. }
      pose proof (Truth_write cl_ok _ _ T') as [_ T'']. exact T''.
  Qed.
  Lemma exec_all_ok cs : forall p, past_ok p -> commands_ok p cs -> past_ok (exec_all cs p).
  Proof. induction cs as [|c cs IH]; intros p Hp Hc; [exact Hp|]. destruct Hc as [H1 H2]. apply (IH (exec c p)); [apply exec_ok; assumption | exact H2]. Qed.
End Truth.

Lemma fresh_past strict : past_ok strict (mk_past [] []).
Proof. exists []. repeat split; constructor. Qed.
Lemma exec_decoded strict cs : commands_ok strict (mk_past [] []) cs -> forall d, In d (p_disk (exec_all cs (mk_past [] []))) ->
  exists j, decode_job d = Some j /\ truthful strict (p_history (exec_all cs (mk_past [] []))) j.
Proof.
  intros Hc d Hd. destruct (exec_all_ok strict cs _ (fresh_past strict) Hc) as (jobs & E & H1 & H2). rewrite E in Hd. apply in_map_iff in Hd as (j & <- & Hj).
  exists j. unfold jobs_ok in H1. rewrite Forall_forall in H1, H2. split; [apply decode_encode_job, strong_good, H1; exact Hj | apply H2; exact Hj].
Qed.
