(** The batch loop of an ingestion run: batches tile the pending files, and only ingested files become completed. *)
From Verif Require Import Base BaseLemmas UtilModel JournalModel JournalIntervals JournalProofs.

(** ** Batches *)
Section Loop.
  Context {St : Type}.
  Variable go : nat -> bool.
  Variable each : St -> list bytes -> St * bool.

  (** Specification: process the batches one by one, stop at the first failure. *)
  Fixpoint seq_run (n : nat) (bs : list (list bytes)) (st : St) : St * bool :=
    match bs with
    | [] => (st, true)
    | b :: r =>
        if go n then let (st', ok) := each st b in if ok then seq_run (S n) r st' else (st', false)
        else (st, false)
    end.
  Fixpoint chunks (fuel size : nat) (l : list bytes) : list (list bytes) :=
    match fuel, l with
    | S f, _ :: _ => firstn size l :: chunks f size (skipn size l)
    | _, _ => []
    end.
  Lemma chunks_ok size : 0 < size -> forall fuel l, length l <= fuel ->
    concat (chunks fuel size l) = l /\ Forall (fun b => b <> [] /\ length b <= size) (chunks fuel size l).
  Proof.
    intros Hs. induction fuel as [|f IH]; intros l Hl.
    - destruct l; [split; [reflexivity | constructor] | cbn in Hl; lia].
    - destruct l as [|x l]; [split; [reflexivity | constructor]|]. cbn [chunks].
      destruct (IH (skipn size (x :: l))) as [H1 H2]; [rewrite skipn_length; cbn in *; lia|]. split.
      + cbn [concat]. rewrite H1. apply firstn_skipn.
      + constructor; [|exact H2]. split; [destruct size; [lia | discriminate] | rewrite firstn_length; lia].
  Qed.
  Lemma batch_loop_seq size files : 0 < size -> forall fuel k i st, i = k * size -> length files - i <= fuel ->
    batch_loop go each fuel size files i st = seq_run (S k) (chunks fuel size (skipn i files)) st.
  Proof.
    intros Hs. induction fuel as [|f IH]; intros k i st Hi Hf; [reflexivity|].
    cbn [batch_loop]. destruct (Nat.ltb_spec i (length files)) as [Hl|Hl].
    - assert (Hd : i / size + 1 = S k) by (subst i; rewrite Nat.div_mul by lia; lia). rewrite Hd.
      destruct (skipn i files) as [|x l] eqn:Hsk; [apply (f_equal (@length _)) in Hsk; rewrite skipn_length in Hsk; cbn in Hsk; lia|].
      rewrite <- Hsk. assert (Hc : chunks (S f) size (skipn i files) = firstn size (skipn i files) :: chunks f size (skipn size (skipn i files))) by (rewrite Hsk; reflexivity).
      rewrite Hc. cbn [seq_run]. destruct (go (S k)); [|reflexivity]. destruct (each st (firstn size (skipn i files))) as [st' ok]. destruct ok; [|reflexivity].
      rewrite (IH (S k) (i + size) st') by lia. f_equal. f_equal. clear. generalize (i) files. intros n l. revert l.
      induction n as [|n IHn]; intros l; [reflexivity|]. destruct l as [|y l]; [cbn; rewrite !skipn_nil; reflexivity|]. cbn. apply IHn.
    - rewrite skipn_all2 by lia. reflexivity.
  Qed.
  Theorem batches_tile size files st : exists bs,
    concat bs = files /\ Forall (fun b => b <> [] /\ ((0 < size)%Z -> (Z.of_nat (length b) <= size)%Z)) bs /\
    ingest_in_batches go each size files st = seq_run 1 bs st.
  Proof.
    unfold ingest_in_batches. destruct files as [|f fs] eqn:Ef; [exists []; auto|]. rewrite <- Ef.
    assert (Hlen : 0 < length files) by (rewrite Ef; cbn; lia).
    set (sz := if Z.leb size 0 then length files else Nat.min (Z.to_nat size) (length files)).
    assert (Hs : 0 < sz) by (unfold sz; destruct (Z.leb_spec size 0); lia).
    exists (chunks (length files) sz files). destruct (chunks_ok sz Hs (length files) files (le_n _)) as [H1 H2].
    split; [exact H1|]. split.
    - eapply Forall_impl; [|exact H2]. intros b [Hb Hl]. split; [exact Hb|]. intros Hp. unfold sz in Hl. destruct (Z.leb_spec size 0); lia.
    - rewrite (batch_loop_seq sz files Hs (length files) 0 0 st) by lia. reflexivity.
  Qed.
End Loop.

(** ** Reading a trace *)
Fixpoint ran (t : list action) : list bytes :=
  match t with [] => [] | ARun b true :: t' => b ++ ran t' | _ :: t' => ran t' end.
Fixpoint tried (t : list action) : list bytes :=
  match t with [] => [] | ACommit b _ :: t' => b ++ tried t' | _ :: t' => tried t' end.
Fixpoint committed (t : list action) : list bytes :=
  match t with [] => [] | ACommit b true :: t' => b ++ committed t' | _ :: t' => committed t' end.
Lemma ran_app a b : ran (a ++ b) = ran a ++ ran b.
Proof. induction a as [|x a IH]; [reflexivity|]. cbn [app]. destruct x as [f []| | |]; cbn [ran]; rewrite IH, ?app_assoc; reflexivity. Qed.
Lemma tried_app a b : tried (a ++ b) = tried a ++ tried b.
Proof. induction a as [|x a IH]; [reflexivity|]. cbn [app]. destruct x; cbn [tried]; rewrite IH, ?app_assoc; reflexivity. Qed.
Lemma committed_app a b : committed (a ++ b) = committed a ++ committed b.
Proof. induction a as [|x a IH]; [reflexivity|]. cbn [app]. destruct x as [| | |f []]; cbn [committed]; rewrite IH, ?app_assoc; reflexivity. Qed.
Definition quiet (t : list action) : Prop := Forall (fun a => match a with ACoalesce _ | AUpdate _ => True | _ => False end) t.
Lemma quiet_none t : quiet t -> ran t = [] /\ tried t = [] /\ committed t = [].
Proof.
  induction t as [|a t IH]; intros Hq; [auto|]. inversion Hq as [|? ? Ha Hq']; subst. apply IH in Hq' as (H1 & H2 & H3).
  destruct a; try destruct Ha; cbn; auto.
Qed.
(** A commit of a batch comes after the successful ingestion of that very batch. *)
Definition commits_after_runs (t : list action) : Prop :=
  forall t1 t2 b r, t = t1 ++ ACommit b r :: t2 -> In (ARun b true) t1.

Section Run.
  Variable ok : nat -> bool.
  Variable key : bytes.
  Hypothesis key_ok : key <> [].

  Lemma run_batch_cases s w b w' r : run_batch ok key s w b = (w', r) ->
    (exists new, w_trace w' = w_trace w ++ new /\ w_journal w' = w_journal w /\ r = false /\
       (new = [ARun b false] \/ exists q, new = ARun b true :: q /\ quiet q)) \/
    (exists q okc, w_trace w' = w_trace w ++ ARun b true :: q ++ [ACommit b r] /\ quiet q /\
       commit_progress okc key b (st_coalesce s) (st_smt s) (w_journal w) = (w_journal w', r)).
  Proof.
    unfold run_batch, andThen, act, when. intros Hq.
    destruct (ok (length (w_trace w))) eqn:H1; [|injection Hq as <- <-; left; exists [ARun b false]; cbn; auto].
    assert (Hcommit : forall j t q, quiet q -> t = w_trace w ++ ARun b true :: q -> j = w_journal w ->
      commit ok key b (st_coalesce s) (st_smt s) (mk_world j t) = (w', r) ->
      exists q okc, w_trace w' = w_trace w ++ ARun b true :: q ++ [ACommit b r] /\ quiet q /\
      commit_progress okc key b (st_coalesce s) (st_smt s) (w_journal w) = (w_journal w', r)).
    { intros j t q Hqu -> -> Hc. unfold commit in Hc. cbn [w_journal w_trace] in Hc.
      destruct (commit_progress _ key b _ _ (w_journal w)) as [j' r'] eqn:Hcp. injection Hc as <- <-. cbn [w_trace w_journal].
      exists q. eexists. split; [rewrite <- app_assoc; reflexivity|]. split; [exact Hqu | exact Hcp]. }
    destruct (st_coalesce s) eqn:Hsc; cbn [w_journal w_trace] in Hq.
    - destruct (ok (length (w_trace w ++ [ARun b true]))) eqn:H2.
      + destruct (st_smt s) eqn:Hss; cbn [w_journal w_trace] in Hq.
        * destruct (ok (length ((w_trace w ++ [ARun b true]) ++ [ACoalesce true]))) eqn:H3.
          -- right. eapply (Hcommit _ _ [ACoalesce true; AUpdate true]); [repeat constructor | | | exact Hq]; [rewrite <- !app_assoc; reflexivity | reflexivity].
          -- injection Hq as <- <-. left. exists [ARun b true; ACoalesce true; AUpdate false]. cbn [w_trace w_journal].
             split; [rewrite <- !app_assoc; reflexivity|]. split; [reflexivity|]. split; [reflexivity|]. right. eexists. split; [reflexivity | repeat constructor].
        * right. eapply (Hcommit _ _ [ACoalesce true]); [repeat constructor | | | exact Hq]; [rewrite <- !app_assoc; reflexivity | reflexivity].
      + injection Hq as <- <-. left. exists [ARun b true; ACoalesce false]. cbn [w_trace w_journal].
        split; [rewrite <- !app_assoc; reflexivity|]. split; [reflexivity|]. split; [reflexivity|]. right. eexists. split; [reflexivity | repeat constructor].
    - destruct (st_smt s) eqn:Hss; cbn [w_journal w_trace] in Hq.
      + destruct (ok (length (w_trace w ++ [ARun b true]))) eqn:H3.
        * right. eapply (Hcommit _ _ [AUpdate true]); [repeat constructor | | | exact Hq]; [rewrite <- !app_assoc; reflexivity | reflexivity].
        * injection Hq as <- <-. left. exists [ARun b true; AUpdate false]. cbn [w_trace w_journal].
          split; [rewrite <- !app_assoc; reflexivity|]. split; [reflexivity|]. split; [reflexivity|]. right. eexists. split; [reflexivity | repeat constructor].
      + right. eapply (Hcommit _ _ []); [constructor | | | exact Hq]; reflexivity.
  Qed.

  Definition parseable (fs : list bytes) : Prop := forall f, In f fs -> parse_file f <> None.
  Lemma file_intervals_app a b : parseable a -> file_intervals (a ++ b) = file_intervals a ++ file_intervals b.
  Proof.
    induction a as [|f a IH]; intros Hp; [reflexivity|]. cbn [app file_intervals].
    destruct (parse_file f) eqn:Hf; [|exfalso; apply (Hp f); [left; reflexivity | exact Hf]].
    rewrite IH by (intros g Hg; apply Hp; right; exact Hg). reflexivity.
  Qed.

  Theorem seq_run_inv s go bs : forall n w sp w' r,
    seq_run go (run_batch ok key s) n bs w = (w', r) ->
    JInv (w_journal w) sp -> s_open sp = true -> parseable (concat bs) -> Forall below_max (file_intervals (concat bs)) ->
    exists new sp', w_trace w' = w_trace w ++ new /\ JInv (w_journal w') sp' /\ s_open sp' = true /\
      s_mem sp' = s_mem sp ++ map (pair key) (file_intervals (tried new)) /\
      (forall x, In x (s_disk sp') -> In x (s_disk sp) \/ In x (s_mem sp')) /\
      (exists rest, concat bs = ran new ++ rest) /\ (exists rest, ran new = tried new ++ rest) /\ (exists rest, tried new = committed new ++ rest) /\
      (r = true -> ran new = concat bs /\ tried new = concat bs /\ committed new = concat bs) /\
      (forall b x, In (ARun b x) new -> In b bs) /\ commits_after_runs new.
  Proof.
    induction bs as [|b bs IH]; intros n w sp w' r Hq HJ Ho Hp Hm; cbn [seq_run concat] in *.
    - injection Hq as <- <-. exists [], sp. rewrite ?app_nil_r. cbn. rewrite ?app_nil_r.
      split; [reflexivity|]. split; [exact HJ|]. split; [exact Ho|]. split; [reflexivity|]. split; [auto|]. split; [exists []; reflexivity|].
      split; [exists []; reflexivity|]. split; [exists []; reflexivity|]. split; [auto|]. split; [intros b x []|].
      intros t1 t2 b r Hx. destruct t1; discriminate.
    - destruct (go n).
      2:{ injection Hq as <- <-. exists [], sp. rewrite ?app_nil_r. cbn. rewrite ?app_nil_r.
          split; [reflexivity|]. split; [exact HJ|]. split; [exact Ho|]. split; [reflexivity|]. split; [auto|]. split; [eauto|].
          split; [exists []; reflexivity|]. split; [exists []; reflexivity|]. split; [discriminate|]. split; [intros b0 x []|].
          intros t1 t2 b0 r0 Hx. destruct t1; discriminate. }
      assert (Hpb : parseable b) by (intros f Hf; apply Hp, in_or_app; auto).
      rewrite file_intervals_app in Hm by exact Hpb. apply Forall_app in Hm as [Hmb Hmr].
      destruct (run_batch ok key s w b) as [w1 r1] eqn:Hb. apply run_batch_cases in Hb as [(new & Ht & Hj & -> & Hn)|(q & okc & Ht & Hqu & Hc)].
      + injection Hq as <- <-. exists new, sp. rewrite Hj.
        assert (Hnn : (ran new = [] \/ ran new = b) /\ tried new = [] /\ committed new = [] /\ (forall b0 x, In (ARun b0 x) new -> b0 = b) /\ forall b0 x, ~ In (ACommit b0 x) new).
        { destruct Hn as [->|(q & -> & Hqu)].
          - cbn. split; [auto|]. split; [auto|]. split; [auto|]. split; [intros b0 x [Hx|[]]; congruence | intros b0 x [Hx|[]]; discriminate].
          - destruct (quiet_none q Hqu) as (H1 & H2 & H3). cbn. rewrite H1, H2, H3, app_nil_r. split; [auto|]. split; [auto|]. split; [auto|].
            unfold quiet in Hqu. rewrite Forall_forall in Hqu.
            split; [intros b0 x [Hx|Hx]; [congruence | destruct (Hqu _ Hx)] | intros b0 x [Hx|Hx]; [discriminate | destruct (Hqu _ Hx)]]. }
        destruct Hnn as (Hr & Ht2 & Ht3 & Hb0 & Hb1). rewrite Ht2, Ht3. cbn [file_intervals map]. rewrite app_nil_r.
        split; [exact Ht|]. split; [exact HJ|]. split; [exact Ho|]. split; [reflexivity|]. split; [auto|].
        split; [destruct Hr as [->| ->]; eexists; reflexivity|]. split; [exists (ran new); reflexivity|]. split; [exists []; reflexivity|]. split; [discriminate|].
        split; [intros b0 x Hx; left; symmetry; exact (Hb0 b0 x Hx)|]. intros t1 t2 b0 r0 Hx. exfalso. apply (Hb1 b0 r0). rewrite Hx. apply in_or_app. right. left. reflexivity.
      + assert (He : event_ok (ECommit okc key b (st_coalesce s) (st_smt s))) by (split; assumption).
        destruct (run_event_inv _ _ _ He HJ) as (j' & Hrj & HJ1). cbn [run_event] in Hrj. rewrite Hc in Hrj. cbn [fst] in Hrj. injection Hrj as <-.
        set (sp1 := spec_event (ECommit okc key b (st_coalesce s) (st_smt s)) sp) in *.
        assert (Ho1 : s_open sp1 = true) by (unfold sp1; cbn; rewrite Ho; reflexivity).
        assert (Hm1 : s_mem sp1 = s_mem sp ++ map (pair key) (file_intervals b)) by (unfold sp1; cbn; rewrite Ho; reflexivity).
        assert (Hd1 : forall x, In x (s_disk sp1) -> In x (s_disk sp) \/ In x (s_mem sp1)).
        { intros x. rewrite Hm1. unfold sp1. cbn. rewrite Ho. cbn [s_disk]. destruct (okc && _); auto. }
        destruct (quiet_none q Hqu) as (Hq1 & Hq2 & Hq3).
        assert (Hfirst : forall r, ran (ARun b true :: q ++ [ACommit b r]) = b /\ tried (ARun b true :: q ++ [ACommit b r]) = b /\
                   committed (ARun b true :: q ++ [ACommit b r]) = if r then b else []).
        { intros r0. cbn [ran tried committed]. rewrite ran_app, tried_app, committed_app, Hq1, Hq2, Hq3. destruct r0; cbn; rewrite !app_nil_r; auto. }
        assert (Hruns : forall b0 x r0, In (ARun b0 x) (ARun b true :: q ++ [ACommit b r0]) -> b0 = b).
        { intros b0 x r0 [Hx|Hx]; [congruence|]. apply in_app_or in Hx as [Hx|[Hx|[]]]; [|discriminate]. unfold quiet in Hqu. rewrite Forall_forall in Hqu. destruct (Hqu _ Hx). }
        destruct r1.
        * destruct (IH (S n) w1 sp1 w' r Hq HJ1 Ho1) as (new & sp2 & H1 & H2 & H3 & H4 & H5 & H6 & H7 & H8 & H9 & H10 & H11); auto.
          { intros f Hf. apply Hp, in_or_app. auto. }
          exists ((ARun b true :: q ++ [ACommit b true]) ++ new), sp2. rewrite ran_app, tried_app, committed_app.
          destruct (Hfirst true) as (-> & -> & ->).
          split; [rewrite H1, Ht, <- app_assoc; reflexivity|]. split; [exact H2|]. split; [exact H3|].
          split; [rewrite H4, Hm1, file_intervals_app, map_app, <- app_assoc by exact Hpb; reflexivity|].
          split. { intros x Hx. destruct (H5 x Hx) as [Hx1|Hx1]; [|auto]. destruct (Hd1 x Hx1) as [Hx2|Hx2]; [auto|]. right. rewrite H4. apply in_or_app. auto. }
          split; [destruct H6 as [rest ->]; exists rest; apply app_assoc|]. split; [destruct H7 as [rest ->]; exists rest; apply app_assoc|].
          split; [destruct H8 as [rest ->]; exists rest; apply app_assoc|].
          split; [intros Hr; destruct (H9 Hr) as (-> & -> & ->); auto|].
          split. { intros b0 x Hx. apply in_app_or in Hx as [Hx|Hx]; [left; symmetry; exact (Hruns b0 x _ Hx) | right; exact (H10 b0 x Hx)]. }
          intros t1 t2 b0 r0 Hx. 
          assert (Hcase : forall (l1 l2 t1 : list action) c t2, l1 ++ l2 = t1 ++ c :: t2 ->
            (exists l3, l1 = t1 ++ c :: l3) \/ (exists l3, t1 = l1 ++ l3 /\ l2 = l3 ++ c :: t2)).
          { clear. induction l1 as [|x l1 IH]; intros l2 t1 c t2 Hx; cbn [app] in Hx; [right; exists t1; auto|].
            destruct t1 as [|y t1]; cbn [app] in Hx; injection Hx as -> Hx; [left; exists l1; reflexivity|].
            destruct (IH _ _ _ _ Hx) as [[l3 ->]|(l3 & -> & ->)]; [left; exists l3; reflexivity | right; exists l3; auto]. }
          apply Hcase in Hx as [[l3 Hx]|(l3 & -> & Hx)]; [|apply in_or_app; right; eapply H11; exact Hx].
          destruct t1 as [|y t1]; cbn [app] in Hx; injection Hx as Hy Hx; [discriminate|]. subst y.
          assert (Hb0 : b0 = b).
          { assert (Hi : In (ACommit b0 r0) (q ++ [ACommit b true])) by (rewrite Hx; apply in_or_app; right; left; reflexivity).
            apply in_app_or in Hi as [Hi|[Hi|[]]]; [|congruence]. unfold quiet in Hqu. rewrite Forall_forall in Hqu. destruct (Hqu _ Hi). }
          subst. left. reflexivity.
        * injection Hq as <- <-. exists (ARun b true :: q ++ [ACommit b false]), sp1. destruct (Hfirst false) as (-> & -> & ->).
          split; [exact Ht|]. split; [exact HJ1|]. split; [exact Ho1|]. split; [exact Hm1|]. split; [exact Hd1|].
          split; [eexists; reflexivity|]. split; [exists []; symmetry; apply app_nil_r|]. split; [exists b; reflexivity|]. split; [discriminate|].
          split; [intros b0 x Hx; left; symmetry; exact (Hruns b0 x _ Hx)|]. intros t1 t2 b0 r0 Hx.
          destruct t1 as [|y t1]; cbn [app] in Hx; injection Hx as Hy Hx; [discriminate|]. subst y.
          assert (Hb0 : b0 = b).
          { assert (Hi : In (ACommit b0 r0) (q ++ [ACommit b false])) by (rewrite Hx; apply in_or_app; right; left; reflexivity).
            apply in_app_or in Hi as [Hi|[Hi|[]]]; [|congruence]. unfold quiet in Hqu. rewrite Forall_forall in Hqu. destruct (Hqu _ Hi). }
          subst. left. reflexivity.
  Qed.

  Lemma pending_sub files c todo : pending_files key files c = Some todo -> parseable todo /\ incl todo files.
  Proof.
    revert todo. induction files as [|f fs IH]; intros todo; cbn [pending_files].
    - intros Hq. injection Hq as <-. split; [intros f [] | intros x []].
    - destruct (parse_file f) as [iv|] eqn:Hp; [|discriminate]. destruct (pending_files key fs c) as [r|]; [|discriminate].
      intros Hq. injection Hq as <-. destruct (IH r eq_refl) as [H1 H2]. destruct (contains_completed c key iv).
      + split; [exact H1|]. intros x Hx. right. auto.
      + split; [intros g [<-|Hg]; [congruence | auto]|]. intros x [<-|Hx]; [left; reflexivity | right; auto].
  Qed.
  Lemma file_intervals_In fs iv : parseable fs -> In iv (file_intervals fs) <-> exists f, In f fs /\ parse_file f = Some iv.
  Proof.
    induction fs as [|f fs IH]; intros Hp; cbn [file_intervals]; [split; [intros [] | intros (f & [] & _)]|].
    destruct (parse_file f) as [iv'|] eqn:Hf; [|exfalso; apply (Hp f); [left; reflexivity | exact Hf]].
    cbn [In]. rewrite IH by (intros g Hg; apply Hp; right; exact Hg). split.
    - intros [<-|(g & Hg & Hq)]; [exists f; auto | exists g; auto].
    - intros (g & [<-|Hg] & Hq); [left; congruence | right; exists g; auto].
  Qed.

  (** An ingestion run. *)
  Theorem run_ingest_ok s go size files w sp todo w' r :
    st_ingest s = true -> run_ingest ok key s go size files w = (w', r) ->
    JInv (w_journal w) sp -> s_open sp = true ->
    pending_files key files (j_completed (last_job (mem (w_journal w)))) = Some todo -> Forall below_max (file_intervals todo) ->
    exists new sp', w_trace w' = w_trace w ++ new /\ JInv (w_journal w') sp' /\
      (forall k i, jobs_cover (mem (w_journal w')) k i <-> jobs_cover (mem (w_journal w)) k i \/ (k = key /\ covers (file_intervals (tried new)) i)) /\
      (forall x, In x (s_disk sp') -> In x (s_disk sp) \/ In x (s_mem sp')) /\
      (exists rest, todo = ran new ++ rest) /\ (exists rest, ran new = tried new ++ rest) /\ (exists rest, tried new = committed new ++ rest) /\
      (r = true -> ran new = todo /\ tried new = todo /\ committed new = todo) /\
      (forall b x, In (ARun b x) new -> b <> [] /\ ((0 < size)%Z -> (Z.of_nat (length b) <= size)%Z)) /\ commits_after_runs new.
  Proof.
    intros Hs Hq HJ Ho Hpd Hm. unfold run_ingest in Hq. rewrite Hs, Hpd in Hq.
    destruct (batches_tile go (run_batch ok key s) size todo w) as (bs & Hcat & Hbs & Hrun). rewrite Hrun in Hq.
    destruct (seq_run go (run_batch ok key s) 1 bs w) as [w1 r1] eqn:Hsr. 
    destruct (pending_sub _ _ _ Hpd) as [Hpt _].
    apply seq_run_inv with (sp := sp) in Hsr as (new & sp1 & H1 & H2 & H3 & H4 & H5 & H6 & H7 & H8 & H9 & H10 & H11); auto; [|rewrite Hcat; auto..].
    apply (f_equal (fun p => (fst p, snd p))) in Hq. cbn [fst snd] in Hq. apply pair_equal_spec in Hq as [<- <-]. cbn [w_trace w_journal].
    rewrite Hcat in *.
    destruct H2 as [Jm Jc Jo Jd].
    exists new, (mk_spec (s_open sp1) (s_mem sp1) (if ok (length (w_trace w1)) then s_mem sp1 else s_disk sp1)).
    split; [exact H1|]. split.
    { destruct (w_journal w1) as [m d] eqn:Hwj. apply write_inv; assumption. }
    split.
    { assert (Hmem : mem (fst (write (ok (length (w_trace w1))) (w_journal w1))) = mem (w_journal w1)) by (unfold write; destruct (ok _); reflexivity).
      intros k i. rewrite Hmem, Jc, H4, (ji_cov _ _ HJ). unfold in_set. split.
      - intros (iv & Hi & Hr). apply in_app_or in Hi as [Hi|Hi]; [left; eauto|]. apply in_map_iff in Hi as (iv' & Hx & Hi). injection Hx as -> ->.
        right. split; [reflexivity|]. exists iv. auto.
      - intros [(iv & Hi & Hr)|(-> & iv & Hi & Hr)]; exists iv; (split; [|exact Hr]); apply in_or_app; [auto|]. right. apply in_map. exact Hi. }
    split. { intros x. cbn [s_disk s_mem]. destruct (ok _); [auto | apply H5]. }
    split; [exact H6|]. split; [exact H7|]. split; [exact H8|]. split; [exact H9|]. split; [|exact H11].
    intros b x Hx. rewrite Forall_forall in Hbs. apply Hbs. apply H10 with x. exact Hx.
  Qed.
End Run.
