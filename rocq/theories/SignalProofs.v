(** Proofs about SignalModel. *)
From Verif Require Import Base BaseLemmas UtilModel JournalModel JournalProofs JournalIntervals NamesProofs SysModel SysProofs SignalModel.

Ltac cases E := repeat (match type of E with context [match ?x with _ => _ end] => destruct x eqn:? end; try discriminate).
Ltac step_cases E :=
  unfold proc_step in E;
  match type of E with context [gone ?s] => destruct (gone s) eqn:?; [discriminate|] end;
  match type of E with match ?a with _ => _ end = _ => destruct a as [g|ok|ok e] end;
  [injection E as <-; unfold deliver; match goal with |- context [if heard ?s then _ else _] => destruct (heard s) eqn:? end | unfold hand_step in E; cases E; injection E as <- | unfold main_step in E; cases E; injection E as <-].
Ltac fields :=
  cbn [pend hd asked inter canc mn jr jclosed hook locked heard gone sent took todo begun worked acked
       with_hand with_main with_journal with_end with_ghosts lock] in *.

Section Signals.
  Variables (key : bytes) (listed : list bytes) (batch : Z) (co sm : bool).
  Notation step := (proc_step key listed batch co sm).
  Notation runp := (run step).

  (** ** The mutex *)
  Definition main_in (s : proc) : bool := match mn s with MWrite _ _ _ | MClosing _ _ => true | _ => false end.
  Definition hand_in (s : proc) : bool := match hd s with HClosing _ => true | _ => false end.
  Definition lock_ok (s : proc) : Prop :=
    match main_in s, hand_in s with
    | true, true => False
    | false, false => locked s = false
    | _, _ => locked s = true /\ jclosed s = false
    end.
  Lemma lock_step s a s' : lock_ok s -> step s a = Some s' -> lock_ok s'.
  Proof.
    intros I E. unfold lock_ok, main_in, hand_in in *. step_cases E; unfold close_write in *; fields;
      repeat match goal with H : mn _ = _ |- _ => rewrite H in * | H : hd _ = _ |- _ => rewrite H in * end;
      repeat (match goal with |- context [match ?x with _ => _ end] => destruct x eqn:? end; fields);
      try discriminate; try tauto; try (destruct I; congruence); try (split; congruence); auto;
      repeat match goal with H : ?x = true |- _ => rewrite H in I | H : ?x = false |- _ => rewrite H in I end; try tauto; try (destruct I; congruence); try (match goal with p : place |- _ => destruct p; discriminate end).
  Qed.
  Lemma lock_run d l : lock_ok (runp (proc_start d) l).
  Proof. apply (run_inv step lock_ok lock_step). reflexivity. Qed.

  (** ** Nothing is written after Close *)
  Lemma write_disk ok j j' r : write ok j = (j', r) -> mem j' = mem j /\ (r = true -> disk j' = map encode_job (mem j')) /\ (r = false -> j' = j).
  Proof. unfold write. destruct ok; intros E; injection E as <- <-; cbn; repeat split; auto; discriminate. Qed.
  Lemma frozen_step s a s' : lock_ok s -> mn s <> MOpen -> jclosed s = true -> step s a = Some s' -> jr s' = jr s /\ jclosed s' = true /\ mn s' <> MOpen.
  Proof.
    intros I N C E. unfold lock_ok, main_in, hand_in in *. step_cases E; unfold close_write in *; fields;
      repeat match goal with H : mn _ = _ |- _ => rewrite H in * | H : hd _ = _ |- _ => rewrite H in * end;
      try congruence; try (repeat split; congruence); try (destruct (match mn s with MWrite _ _ _ | MClosing _ _ => true | _ => false end)); try contradiction;
      try (destruct (match hd s with HClosing _ => true | _ => false end)); try contradiction; try (destruct I; congruence);
      try (match goal with p : place |- _ => destruct p; cbn [after_close]; repeat split; congruence end).
  Qed.
  Definition before_open (s : proc) : Prop := mn s = MOpen -> hook s = false /\ jclosed s = false /\ hand_in s = false.
  Definition flushed (s : proc) : Prop := jclosed s = true -> disk (jr s) = map encode_job (mem (jr s)).
  Lemma flushed_step s a s' : lock_ok s /\ before_open s /\ flushed s -> step s a = Some s' -> lock_ok s' /\ before_open s' /\ flushed s'.
  Proof.
    intros (L & B & F) E. pose proof (lock_step s a s' L E) as L'. split; [exact L'|]. clear L'.
    unfold lock_ok, before_open, flushed, main_in, hand_in in *. step_cases E; unfold close_write in *; fields;
      repeat match goal with H : mn _ = _ |- _ => rewrite H in * | H : hd _ = _ |- _ => rewrite H in * end;
      try (match goal with |- context [write ?o ?j] => destruct (write o j) as [j' w] eqn:W; destruct (write_disk _ _ _ _ W) as (W1 & W2 & W3) end); fields;
      (split; [intros X; try discriminate X; try (match goal with p : place |- _ => destruct p; discriminate X end); try (destruct (B X) as (B1 & B2 & B3)); try discriminate; try (rewrite B1 in *; discriminate); auto
             | intros X; try (apply F; exact X); try (destruct (B eq_refl) as (B1 & B2 & B3); congruence)]).
    all: try (destruct (canc s); discriminate X). all: try (destruct b; discriminate X).
    all: try (apply F; reflexivity). all: try (apply F; congruence).
    - destruct (match mn s with MWrite _ _ _ | MClosing _ _ => true | _ => false end); [contradiction|]. destruct L as [_ L]. rewrite L in X. apply W2. exact X.
    - destruct (match hd s with HClosing _ => true | _ => false end); [contradiction|]. destruct L as [_ L]. congruence.
    - destruct (match hd s with HClosing _ => true | _ => false end); [contradiction|]. destruct L as [_ L]. congruence.
    - destruct (match hd s with HClosing _ => true | _ => false end); [contradiction|]. destruct L as [_ L]. rewrite L in X. apply W2. exact X.
  Qed.
  Lemma flushed_run d l : let s := runp (proc_start d) l in lock_ok s /\ before_open s /\ flushed s.
  Proof. apply (run_inv step _ flushed_step). repeat split; discriminate. Qed.
  Theorem nothing_after_close d l l' : let s := runp (proc_start d) l in jclosed s = true -> jr (runp s l') = jr s.
  Proof.
    intros s C. destruct (flushed_run d l) as (L & B & _). fold s in L, B.
    assert (N : mn s <> MOpen) by (intros X; destruct (B X) as (_ & X2 & _); congruence).
    enough (G : lock_ok (runp s l') /\ mn (runp s l') <> MOpen /\ jclosed (runp s l') = true /\ jr (runp s l') = jr s) by tauto.
    revert L N C. generalize s. clear s B. intros s L N C.
    apply (run_inv step (fun t => lock_ok t /\ mn t <> MOpen /\ jclosed t = true /\ jr t = jr s)); [|auto].
    intros t a t' (H1 & H2 & H3 & H4) E. destruct (frozen_step t a t' H1 H2 H3 E) as (K1 & K2 & K3). split; [exact (lock_step t a t' H1 E)|]. rewrite K1. auto.
  Qed.

  (** ** The handler *)
  Definition terms (l : list sig) : bool := existsb is_term l.
  Definition hand_ok (s : proc) : Prop :=
    match hd s with
    | HWait => asked s = terms (took s) /\ (asked s = true -> canc s = true)
    | HTook g => exists a, took s = a ++ [g] /\ asked s = terms a /\ (asked s = true -> canc s = true)
    | HProfiles g => is_term g = true /\ asked s = true /\ terms (took s) = true
    | HDiag g => if is_term g then asked s = true /\ terms (took s) = true else asked s = terms (took s) /\ (asked s = true -> canc s = true)
    | HStore => asked s = true /\ terms (took s) = true
    | HCancel => asked s = true /\ terms (took s) = true /\ inter s = true
    | HExit g | HClosing g | HEnd g => asked s = true /\ canc s = true /\ exists a, took s = a ++ [g] /\ is_term g = true /\ terms a = true
    end /\ (canc s = true -> inter s = true) /\ (asked s = false -> canc s = false) /\
    (forall g, pend s = Some g -> In g (sent s)) /\ (forall g, In g (took s) -> In g (sent s)) /\
    (sent s <> [] -> pend s <> None \/ took s <> []).
  Lemma terms_app a b : terms (a ++ b) = terms a || terms b.
  Proof. apply existsb_app. Qed.
  Lemma hand_step_ok s a s' : hand_ok s -> step s a = Some s' -> hand_ok s'.
  Proof.
    intros I E. step_cases E; unfold hand_ok in *; destruct I as (I1 & I2 & I3 & I4 & I5 & I6); unfold close_write in *; try (destruct (write _ _)); fields;
      repeat match goal with H : hd _ = _ |- _ => rewrite H in * end; fields;
      try (split; [solve [auto | destruct (hd s); auto] | solve [auto 6]]).
    all: try exact (conj I1 (conj I2 (conj I3 (conj I4 (conj I5 I6))))).
    - split; [exact I1|]. split; [exact I2|]. split; [exact I3|]. split; [|split].
      + intros g0 X. apply in_or_app. destruct (pend s) as [p|] eqn:P; [left; apply I4; exact X | right; left; congruence].
      + intros g0 X. apply in_or_app. left. auto.
      + intros _. left. destruct (pend s); discriminate.
    - split; [exists (took s); tauto|]. split; [exact I2|]. split; [exact I3|]. split; [discriminate|]. split.
      + intros g X. apply in_app_or in X as [X|[<-|[]]]; auto.
      + intros _. right. destruct (took s); discriminate.
    - destruct I1 as (a & A1 & A2 & A3). split; [|exact (conj I2 (conj I3 (conj I4 (conj I5 I6))))]. split; [auto|]. split; [auto|]. exists a. repeat split; congruence.
    - destruct I1 as (a & A1 & A2 & A3). split; [|split; [exact I2|split; [discriminate|exact (conj I4 (conj I5 I6))]]]. split; [auto|]. split; [auto|]. rewrite A1, terms_app. cbn. rewrite Heqb. apply orb_true_r.
    - destruct I1 as (a & A1 & A2 & A3). split; [|exact (conj I2 (conj I3 (conj I4 (conj I5 I6))))]. rewrite Heqb. split; [|auto]. rewrite A1, terms_app. cbn. rewrite Heqb, A2, !orb_false_r. reflexivity.
    - split; [|exact (conj I2 (conj I3 (conj I4 (conj I5 I6))))]. destruct I1 as (A1 & A2 & A3). rewrite A1. auto.
    - rewrite Heqb in I1. split; [exact I1|]. exact (conj I2 (conj I3 (conj I4 (conj I5 I6)))).
    - rewrite Heqb in I1. split; [exact I1|]. exact (conj I2 (conj I3 (conj I4 (conj I5 I6)))).
    - split; [destruct I1; auto|]. split; [auto|]. exact (conj I3 (conj I4 (conj I5 I6))).
    - destruct I1 as (A1 & A2 & A3). split; [split; congruence|]. split; [auto|]. split; [congruence|]. exact (conj I4 (conj I5 I6)).
  Qed.
  Lemma hand_run d l : hand_ok (runp (proc_start d) l).
  Proof. apply (run_inv step _ hand_step_ok). unfold hand_ok, proc_start; fields. repeat split; try discriminate; try contradiction; auto. Qed.

  (** ** The main goroutine: progress and the end *)
  Variable jobs0 : list job.
  Hypothesis J0 : jobs_ok jobs0.
  Definition rest_ok (s : proc) (r : list bytes) : Prop := pending_files key listed (j_completed (last_job jobs0)) = Some (todo s) /\ acked s ++ r = todo s.
  Definition result_ok (s : proc) (r : option ierr) : Prop :=
    match r with None => rest_ok s [] | Some ECanceled => canc s = true | Some EOther => True end.
  Definition main_ok (s : proc) : Prop :=
    match mn s with
    | MOpen => disk (jr s) = map encode_job jobs0 /\ acked s = [] /\ worked s = [] /\ heard s = true
    | MHook | MStart | MList => mem (jr s) = jobs0 ++ [last_job jobs0] /\ acked s = [] /\ worked s = [] /\ heard s = true
    | MLoop size rest => rest_ok s rest /\ worked s = acked s /\ heard s = true
    | MWork _ b size rest => rest_ok s (b ++ rest) /\ worked s = acked s /\ heard s = true
    | MCommit b size rest | MWrite b size rest => rest_ok s (b ++ rest) /\ worked s = acked s ++ b /\ heard s = true
    | MClose PRun r | MClosing PRun r | MStop r => result_ok s r /\ heard s = true
    | MClose PDefer r | MClosing PDefer r | MLeave r => result_ok s r /\ heard s = false
    | MClose PExit r | MClosing PExit r => heard s = false /\ exists e, r = Some e
    | MBye => heard s = false
    end.
  Definition end_ok (s : proc) : Prop :=
    match gone s with
    | None => True
    | Some c => heard s = false /\ (c = 1 \/ c = 0 /\ rest_ok s [] \/ exists g, c = kill_code g) \/
                exists a g, c = sig_code g /\ took s = a ++ [g] /\ is_term g = true /\ terms a = true
    end.
  Lemma main_step_ok s a s' : main_ok s /\ before_open s -> step s a = Some s' -> main_ok s'.
  Proof.
    intros I E. step_cases E; destruct I as (I1 & B); unfold main_ok in *; unfold close_write in *; try (destruct (write _ _) as [j' w] eqn:W); fields;
      repeat match goal with H : mn _ = _ |- _ => rewrite H in * | H : hd _ = _ |- _ => rewrite H in * end; fields.
    all: unfold result_ok, rest_ok in *; fields.
    all: try exact I1. all: try tauto.
    all: try (match goal with e : ierr |- _ => destruct e; unfold may_fail in *; tauto end).
    - rewrite Heqb in I1. exact I1.
    - destruct (mn s) as [| | | | | | | |[] [[]|]|[] [[]|]|[[]|]|[[]|]|]; tauto.
    - unfold before_open, hand_in in B. destruct (write_disk _ _ _ _ W) as (W1 & W2 & W3). rewrite W1. destruct (mn s); try exact I1.
      destruct (B eq_refl) as (_ & _ & B'). rewrite Heqh in B'. discriminate.
    - destruct I1 as (A1 & A2 & A3 & A4). split; [|auto]. unfold open_journal in *. rewrite A1, read_back in * by exact J0. 
      match goal with H : Some (write _ _) = Some _ |- _ => injection H as W end. destruct (write_disk _ _ _ _ W) as (W1 & _). exact W1.
    - destruct I1 as (A1 & A2 & A3 & A4). rewrite A1, last_last_job in *. split; [split; [assumption|] | split; congruence]. rewrite A2. reflexivity.
    - rewrite firstn_skipn. exact I1.
    - destruct I1 as (A1 & A2 & A3). rewrite A2. auto.
    - destruct I1 as (A1 & A2 & A3). rewrite A2. auto.
    - destruct I1 as ((A1 & A2) & A3). rewrite <- app_assoc. auto.
    - destruct p; cbn [after_close]; tauto.
    - destruct p; cbn [after_close]; tauto.
    - destruct p; cbn [after_close]; tauto.
    - split; [tauto|]. eauto.
  Qed.
  Lemma heard_step s a s' : step s a = Some s' -> heard s = false -> heard s' = false.
  Proof. intros E X. step_cases E; unfold close_write; try (destruct (write _ _)); fields; congruence. Qed.
  Lemma end_step_ok s a s' : main_ok s /\ hand_ok s -> step s a = Some s' -> end_ok s'.
  Proof.
    intros I E. step_cases E; destruct I as (I1 & H1 & _); unfold end_ok, main_ok in *; unfold close_write in *; try (destruct (write _ _) as [j' w] eqn:W); fields;
      repeat match goal with H : mn _ = _ |- _ => rewrite H in * | H : hd _ = _ |- _ => rewrite H in * | H : gone _ = _ |- _ => rewrite H in * end; fields; auto.
    - left. split; [assumption|]. right. right. exists g. reflexivity.
    - destruct H1 as (_ & _ & a & A1 & A2 & A3). right. exists a, s0. auto.
    - left. destruct I1 as [I1 I2]. split; [exact I2|]. right. left. split; [reflexivity|exact I1].
  Qed.
  Definition whole (s : proc) : Prop := main_ok s /\ hand_ok s /\ (lock_ok s /\ before_open s /\ flushed s) /\ end_ok s.
  Lemma whole_step s a s' : whole s -> step s a = Some s' -> whole s'.
  Proof.
    intros (I1 & I2 & I3 & I4) E. split; [exact (main_step_ok s a s' (conj I1 (proj1 (proj2 I3))) E)|].
    split; [exact (hand_step_ok s a s' I2 E)|]. split; [exact (flushed_step s a s' I3 E) | exact (end_step_ok s a s' (conj I1 I2) E)].
  Qed.
  Lemma whole_run l : whole (runp (proc_start (map encode_job jobs0)) l).
  Proof.
    apply (run_inv step _ whole_step). split; [|split; [|split]].
    - cbn. auto.
    - exact (hand_run _ []).
    - exact (flushed_run _ []).
    - exact I.
  Qed.

  (** ** What is on disk *)
  Hypothesis key_ne : key <> [].
  Hypothesis small : forall f iv, In f listed -> parse_file f = Some iv -> below_max iv.
  Variable D0 : list (bytes * interval).
  Hypothesis D0_ok : forall k i, jobs_cover jobs0 k i <-> in_set D0 k i.
  Definition src (fs : list bytes) (k : bytes) (iv : interval) : Prop := In (k, iv) D0 \/ k = key /\ exists f, In f fs /\ parse_file f = Some iv.
  Definition opened (s : proc) : Prop :=
    hook s = true \/ hand_in s = true \/ match mn s with MOpen | MStop _ | MClose PDefer _ | MClose PExit _ | MLeave _ | MBye => False | _ => True end.
  Definition jour_ok (s : proc) : Prop := exists sp, JInv (jr s) sp /\
    (forall k iv, In (k, iv) (s_disk sp) -> src (worked s) k iv) /\ (forall k iv, In (k, iv) (s_mem sp) -> src (worked s) k iv) /\
    (forall k iv, src (acked s) k iv -> In (k, iv) (s_disk sp)) /\ (s_open sp = true -> incl (s_disk sp) (s_mem sp)) /\ (opened s -> s_open sp = true).
  Lemma src_app a b k iv : src a k iv -> src (a ++ b) k iv.
  Proof. intros [H|(H & f & Hf & P)]; [left; exact H | right; split; [exact H|]; exists f; split; [apply in_or_app; auto | exact P]]. Qed.
  Lemma jour_same s s' : jr s' = jr s -> worked s' = worked s -> acked s' = acked s -> (opened s' -> opened s) -> jour_ok s -> jour_ok s'.
  Proof. intros E1 E2 E3 E4 (sp & H1 & H2 & H3 & H4 & H5 & H6). exists sp. rewrite E1, E2, E3. split; [exact H1|]. split; [exact H2|]. split; [exact H3|]. split; [exact H4|]. split; [exact H5|]. auto. Qed.
  Lemma intervals_in b : forall iv, In iv (file_intervals b) -> exists f, In f b /\ parse_file f = Some iv.
  Proof.
    induction b as [|f b IH]; intros iv H; [destruct H|]. cbn [file_intervals] in H. destruct (parse_file f) as [x|] eqn:P; [|destruct H].
    destruct H as [<-|H]; [exists f; split; [left; reflexivity | exact P]|]. destruct (IH iv H) as (g & G1 & G2). exists g. split; [right; exact G1 | exact G2].
  Qed.
  Lemma in_intervals b : (forall f, In f b -> parse_file f <> None) -> forall f iv, In f b -> parse_file f = Some iv -> In iv (file_intervals b).
  Proof.
    induction b as [|f b IH]; intros A g iv H P; [destruct H|]. cbn [file_intervals]. destruct (parse_file f) as [x|] eqn:Q; [|contradiction (A f (or_introl eq_refl) Q)].
    destruct H as [->|H]; [left; congruence|]. right. apply (IH (fun h Hh => A h (or_intror Hh)) g iv H P).
  Qed.
  Lemma write_ok_jour ok s j w s' : write ok (jr s) = (j, w) -> opened s -> jr s' = j -> worked s' = worked s -> acked s' = acked s -> jour_ok s -> jour_ok s'.
  Proof.
    intros W O E1 E2 E3 (sp & H1 & H2 & H3 & H4 & H5 & H6). pose proof H1 as [M1 M2 M3 M4]. destruct (jr s) as [m d] eqn:J. cbn [mem disk] in *.
    pose proof (write_inv ok m d sp M1 M2 M3 M4) as X. rewrite W in X. cbn [fst] in X. specialize (H6 O). specialize (H5 H6).
    eexists. rewrite E1, E2, E3. split; [exact X|]. cbn [s_disk s_mem s_open]. destruct ok; (split; [|split; [|split; [|split]]]); auto.
    intros _. apply incl_refl.
  Qed.
  Lemma commit_true ok b j j' : commit_progress ok key b co sm j = (j', true) ->
    ok = true /\ forallb (fun f => match parse_file f with None => false | Some _ => true end) b = true.
  Proof.
    unfold commit_progress. destruct (mem j) as [|x l]; [discriminate|]. destruct (add_files key b _) as [c good] eqn:A. destruct good; [|discriminate].
    unfold write. destruct ok; [|discriminate]. intros _. split; [reflexivity|]. revert A. generalize (j_completed (last_job (x :: l))). clear. intros c0 A. revert c0 A.
    induction b as [|f b IH]; intros c0; cbn [add_files forallb]; [reflexivity|]. destruct (parse_file f); [|discriminate]. intros A. exact (IH _ A).
  Qed.
  Lemma open_jour ok s j r s' : open_journal ok (disk (jr s)) = Some (j, r) -> jr s' = j -> worked s' = worked s -> acked s' = acked s -> jour_ok s -> jour_ok s'.
  Proof.
    intros O E1 E2 E3 (sp & H1 & H2 & H3 & H4 & H5 & H6). destruct (run_event_inv (EOpen ok) (jr s) sp I H1) as (j' & R & X). cbn [run_event] in R. rewrite O in R. injection R as <-.
    exists (spec_event (EOpen ok) sp). rewrite E1, E2, E3. split; [exact X|]. cbn [spec_event s_disk s_mem s_open]. repeat split; auto. intros _. apply incl_refl.
  Qed.
  Lemma work_jour s s' b : jr s' = jr s -> worked s' = worked s ++ b -> acked s' = acked s -> (opened s' -> opened s) -> jour_ok s -> jour_ok s'.
  Proof.
    intros E1 E2 E3 E4 (sp & H1 & H2 & H3 & H4 & H5 & H6). exists sp. rewrite E1, E2, E3. split; [exact H1|].
    split; [intros k iv X; apply src_app; auto|]. split; [intros k iv X; apply src_app; auto|]. auto.
  Qed.
  Lemma commit_jour ok s j r s' b size rest : commit_progress ok key b co sm (jr s) = (j, r) -> mn s = MWrite b size rest -> main_ok s ->
    jr s' = j -> worked s' = worked s -> acked s' = (if r then acked s ++ b else acked s) -> jour_ok s -> jour_ok s'.
  Proof.
    intros C M K E1 E2 E3 (sp & H1 & H2 & H3 & H4 & H5 & H6). unfold main_ok in K. rewrite M in K. destruct K as ((P & A) & Wk & _).
    assert (Hb : forall f, In f b -> In f listed).
    { intros f F. pose proof (pending_in _ _ _ _ P) as Q. rewrite Forall_forall in Q. apply Q. rewrite <- A. apply in_or_app. right. apply in_or_app. auto. }
    assert (O : s_open sp = true) by (apply H6; unfold opened; rewrite M; auto).
    assert (Ev : event_ok (ECommit ok key b co sm)).
    { split; [exact key_ne|]. apply Forall_forall. intros iv Hi. destruct (intervals_in b iv Hi) as (f & F1 & F2). exact (small f iv (Hb f F1) F2). }
    destruct (run_event_inv _ (jr s) sp Ev H1) as (j' & R & X). cbn [run_event] in R. rewrite C in R. injection R as <-.
    exists (spec_event (ECommit ok key b co sm) sp). rewrite E1, E2, E3. split; [exact X|]. cbn [spec_event]. rewrite O. cbn [s_disk s_mem s_open].
    assert (Hm : forall k iv, In (k, iv) (s_mem sp ++ map (pair key) (file_intervals b)) -> src (worked s) k iv).
    { intros k iv Hi. apply in_app_or in Hi as [Hi|Hi]; [auto|]. apply in_map_iff in Hi as (x & Q & Hi). injection Q as <- <-.
      destruct (intervals_in b x Hi) as (f & F1 & F2). right. split; [reflexivity|]. exists f. split; [rewrite Wk; apply in_or_app; auto | exact F2]. }
    specialize (H5 O). split; [|split; [exact Hm|split; [|split; [|reflexivity]]]].
    - destruct (ok && _); [exact Hm | exact H2].
    - destruct r.
      + destruct (commit_true ok b (jr s) j C) as [-> G]. rewrite G. cbn [andb]. intros k iv [Hs|(-> & f & F1 & F2)].
        * apply in_or_app. left. apply H5, H4. left. exact Hs.
        * apply in_or_app. apply in_app_or in F1 as [F1|F1]; [left; apply H5, H4; right; split; [reflexivity|]; exists f; auto|]. right. apply in_map.
          apply (in_intervals b) with f; [|exact F1|exact F2]. intros h Hh N. rewrite forallb_forall in G. specialize (G h Hh). rewrite N in G. discriminate.
      + intros k iv Hs. apply H4 in Hs. destruct (ok && _); [apply in_or_app; left; apply H5; exact Hs | exact Hs].
    - intros _. destruct (ok && _); [apply incl_refl|]. intros x Hx. apply in_or_app. left. apply H5. exact Hx.
  Qed.
  Lemma jour_step s a s' : whole s /\ jour_ok s -> step s a = Some s' -> jour_ok s'.
  Proof.
    intros (I & J) E. pose proof I as (I1 & I2 & (I3 & I3' & _) & _). revert J. step_cases E; intros J.
    all: unfold close_write in *; try (match goal with |- context [write ?o ?x] => destruct (write o x) as [j' w] eqn:W end).
    all: try (apply (jour_same s); [reflexivity | reflexivity | reflexivity | | exact J]; unfold opened, hand_in; fields;
      repeat match goal with H : mn _ = _ |- _ => rewrite H in * | H : hd _ = _ |- _ => rewrite H in * end; tauto).
    - apply (jour_same s); [reflexivity | reflexivity | reflexivity | | exact J]. intros _. left. destruct (hook s); [reflexivity | discriminate].
    - apply (write_ok_jour ok s j' w); [exact W | | reflexivity | reflexivity | reflexivity | exact J]. unfold opened, hand_in. rewrite Heqh. auto.
    - eapply open_jour; [eassumption | reflexivity | reflexivity | reflexivity | exact J].
    - eapply open_jour; [eassumption | reflexivity | reflexivity | reflexivity | exact J].
    - apply (work_jour s _ b); [reflexivity | reflexivity | reflexivity | | exact J]. unfold opened. rewrite Heqm. auto.
    - apply (work_jour s _ b); [reflexivity | reflexivity | reflexivity | | exact J]. unfold opened. rewrite Heqm. auto.
    - eapply commit_jour; [eassumption | eassumption | exact I1 | reflexivity | reflexivity | reflexivity | exact J].
    - eapply commit_jour; [eassumption | eassumption | exact I1 | reflexivity | reflexivity | reflexivity | exact J].
    - apply (jour_same s); [reflexivity | reflexivity | reflexivity | | exact J]. unfold opened, hand_in. fields. destruct p; cbn [after_close]; tauto.
    - apply (jour_same s); [reflexivity | reflexivity | reflexivity | | exact J]. unfold opened, hand_in. fields. destruct p; cbn [after_close]; tauto.
    - apply (jour_same s); [reflexivity | reflexivity | reflexivity | | exact J]. intros _. unfold opened. rewrite Heqm. destruct p; auto; destruct (hook s); auto; discriminate.
    - apply (write_ok_jour ok s j' w); [exact W | | reflexivity | reflexivity | reflexivity | exact J]. unfold opened. rewrite Heqm. auto.
  Qed.
  Lemma jour_run l : jour_ok (runp (proc_start (map encode_job jobs0)) l).
  Proof.
    enough (G : whole (runp (proc_start (map encode_job jobs0)) l) /\ jour_ok (runp (proc_start (map encode_job jobs0)) l)) by exact (proj2 G).
    apply (run_inv step (fun s => whole s /\ jour_ok s)).
    - intros s a s' H E. split; [exact (whole_step s a s' (proj1 H) E) | exact (jour_step s a s' H E)].
    - split; [exact (whole_run [])|]. exists (mk_spec false [] D0). cbn [proc_start jr worked acked s_disk s_mem s_open]. split; [|split; [|split; [|split; [|split]]]].
      + constructor; cbn [mem disk s_open s_mem s_disk].
        * constructor.
        * intros k i. split; [intros (x & X & _); discriminate X | intros (iv & [] & _)].
        * split; [discriminate | intros X; contradiction X; reflexivity].
        * exists jobs0. auto.
      + intros k iv H. left. exact H.
      + intros k iv [].
      + intros k iv [H|(_ & f & [] & _)]; exact H.
      + discriminate.
      + intros [H|[H|H]]; [discriminate H | discriminate H | destruct H].
  Qed.
End Signals.

Lemma cover_list jobs : exists D, forall k i, jobs_cover jobs k i <-> in_set D k i.
Proof.
  unfold jobs_cover, key_covers. generalize (j_completed (last_job jobs)). intros c.
  exists (flat_map (fun x => match get_key (fst x) c with Some l => map (pair (fst x)) l | None => [] end) c). intros k i. unfold in_set, covers. split.
  - intros (l & G & iv & H1 & H2). exists iv. split; [|exact H2]. apply in_flat_map. exists (k, l). split; [exact (get_key_In _ _ _ G)|]. cbn [fst]. rewrite G. apply in_map. exact H1.
  - intros (iv & H1 & H2). apply in_flat_map in H1 as ((k' & l') & H1 & H3). cbn [fst] in H3. destruct (get_key k' c) as [l|] eqn:G; [|destruct H3].
    apply in_map_iff in H3 as (x & Q & H3). injection Q as <- <-. exists l. split; [exact G|]. exists x. auto.
Qed.
(** What the file of the journal holds, in every state. *)
Theorem disk_bounds key listed batch co sm jobs0 l : jobs_ok jobs0 -> key <> [] -> (forall f iv, In f listed -> parse_file f = Some iv -> below_max iv) ->
  let s := run (proc_step key listed batch co sm) (proc_start (map encode_job jobs0)) l in
  exists jobs, all_some (map decode_job (disk (jr s))) = Some jobs /\
    (forall k i, jobs_cover jobs k i -> jobs_cover jobs0 k i \/ k = key /\ exists f iv, In f (worked s) /\ parse_file f = Some iv /\ (iv_s iv <= i <= iv_e iv)%N) /\
    (forall k i, jobs_cover jobs0 k i -> jobs_cover jobs k i) /\
    (forall f iv i, In f (acked s) -> parse_file f = Some iv -> (iv_s iv <= i <= iv_e iv)%N -> jobs_cover jobs key i).
Proof.
  intros J K S s. destruct (cover_list jobs0) as (D & HD). destruct (jour_run key listed batch co sm jobs0 J K S D HD l) as (sp & H1 & H2 & _ & H4 & _). fold s in H1, H2, H4.
  destruct (ji_disk _ _ H1) as (jobs & Q & Ok & Cov). exists jobs. rewrite Q. split; [exact (read_back jobs Ok)|]. split; [|split].
  - intros k i H. apply Cov in H as (iv & Hi & Hr). destruct (H2 k iv Hi) as [X|(-> & f & F1 & F2)]; [left; apply HD; exists iv; auto | right; split; [reflexivity|]; exists f, iv; auto].
  - intros k i H. apply HD in H as (iv & Hi & Hr). apply Cov. exists iv. split; [|exact Hr]. apply H4. left. exact Hi.
  - intros f iv i F1 F2 Hr. apply Cov. exists iv. split; [|exact Hr]. apply H4. right. split; [reflexivity|]. exists f. auto.
Qed.

(** ** The end *)
Lemma pending_split key files c : forall fs, pending_files key files c = Some fs -> forall f, In f files ->
  exists iv, parse_file f = Some iv /\ (In f fs \/ contains_completed c key iv = true).
Proof.
  induction files as [|g files IH]; intros fs H f Hf; [destruct Hf|]. cbn [pending_files] in H. destruct (parse_file g) as [iv|] eqn:P; [|discriminate].
  destruct (pending_files key files c) as [r|] eqn:R; [|discriminate]. destruct Hf as [->|Hf].
  - exists iv. split; [exact P|]. destruct (contains_completed c key iv); [auto|]. injection H as <-. left. left. reflexivity.
  - destruct (IH r eq_refl f Hf) as (x & X1 & X2). exists x. split; [exact X1|]. destruct X2 as [X2|X2]; [left | auto]. destruct (contains_completed c key iv); injection H as <-; [exact X2 | right; exact X2].
Qed.
Theorem exit_zero key listed batch co sm jobs0 l : jobs_ok jobs0 -> key <> [] -> (forall f iv, In f listed -> parse_file f = Some iv -> below_max iv) ->
  let s := run (proc_step key listed batch co sm) (proc_start (map encode_job jobs0)) l in gone s = Some 0 ->
  exists jobs, all_some (map decode_job (disk (jr s))) = Some jobs /\
    forall f, In f listed -> exists iv, parse_file f = Some iv /\ forall i, (iv_s iv <= i <= iv_e iv)%N -> jobs_cover jobs key i.
Proof.
  intros J K S s G. destruct (whole_run key listed batch co sm jobs0 J l) as (_ & _ & _ & E). fold s in E. unfold end_ok in E. rewrite G in E.
  assert (R : rest_ok key listed jobs0 s []).
  { destruct E as [(_ & [X|[(_ & X)|(g & X)]])|(a & g & X & _)]; [discriminate X | exact X | destruct g; discriminate X | destruct g; discriminate X]. }
  destruct R as (R1 & R2). rewrite app_nil_r in R2. destruct (disk_bounds key listed batch co sm jobs0 l J K S) as (jobs & D1 & _ & D3 & D4). fold s in D1, D4.
  exists jobs. split; [exact D1|]. intros f Hf. destruct (pending_split _ _ _ _ R1 f Hf) as (iv & P & [X|X]); exists iv; (split; [exact P|]); intros i Hi.
  - apply (D4 f iv i); [rewrite R2; exact X | exact P | exact Hi].
  - apply D3. unfold contains_completed in X. destruct (get_key key (j_completed (last_job jobs0))) as [li|] eqn:Gk; [|discriminate X].
    pose proof (jobs_ok_last _ J) as St. destruct (St key li (get_key_In _ _ _ Gk)) as (_ & Hc & _). pose proof (parse_file_valid f iv P) as Hu. unfold in_uint in Hu.
    exists li. split; [exact Gk|]. apply (contains_ok li key _ iv Gk Hc ltac:(lia)); [|exact Hi]. unfold contains_completed. rewrite Gk. exact X.
Qed.

(** ** Signals *)
Section More.
  Variables (key : bytes) (listed : list bytes) (batch : Z) (co sm : bool).
  Notation step := (proc_step key listed batch co sm).
  Notation runp := (run step).
  Lemma canc_step s a s' : step s a = Some s' -> canc s = true -> canc s' = true /\ begun s' = begun s.
  Proof. intros E C. revert C. step_cases E; intros C; unfold close_write; try (destruct (write _ _)); fields; try congruence; auto. Qed.
  Theorem no_new_batch l s : canc s = true -> canc (runp s l) = true /\ begun (runp s l) = begun s.
  Proof.
    intros C. apply (run_inv step (fun t => canc t = true /\ begun t = begun s)); [|auto].
    intros t a t' (H1 & H2) E. destruct (canc_step t a t' E H1) as (X1 & X2). split; congruence.
  Qed.
  Lemma acked_step s a s' : step s a = Some s' -> incl (acked s) (acked s').
  Proof. intros E. step_cases E; unfold close_write; try (destruct (write _ _)); fields; try apply incl_refl. intros x X. apply in_or_app. auto. Qed.
  Theorem acked_stays l s : incl (acked s) (acked (runp s l)).
  Proof.
    apply (run_inv step (fun t => incl (acked s) (acked t))); [|apply incl_refl]. intros t a t' H E. exact (incl_tran H (acked_step t a t' E)).
  Qed.

  Definition diag_ok (s : proc) : Prop := match hd s with HTook g | HProfiles g | HDiag g => In g (took s) | _ => True end.
  Lemma diag_step s a s' : diag_ok s -> step s a = Some s' -> diag_ok s'.
  Proof.
    intros I E. step_cases E; unfold diag_ok in *; unfold close_write; try (destruct (write _ _)); fields; try exact I;
      repeat match goal with H : hd _ = _ |- _ => rewrite H in * end; auto. apply in_or_app. right. left. reflexivity.
  Qed.
  Lemma diag_run d l : diag_ok (runp (proc_start d) l).
  Proof. apply (run_inv step _ diag_step). exact I. Qed.

  (** The handler alone brings the cancellation. *)
  Lemma hand_next s s' n : gone s = None -> hand_step true s = Some s' -> runp s (repeat (AHand true) (S n)) = runp s' (repeat (AHand true) n).
  Proof. intros G E. cbn [repeat]. rewrite run_cons. unfold do, proc_step at 2. rewrite G, E. reflexivity. Qed.
  Definition soon (k : nat) (s : proc) : Prop := exists n, n <= k /\ canc (runp s (repeat (AHand true) n)) = true.
  Lemma soon_next k s s' : gone s = None -> hand_step true s = Some s' -> soon k s' -> soon (S k) s.
  Proof. intros G E (n & L & X). exists (S n). split; [lia|]. rewrite (hand_next s s' n G E). exact X. Qed.
  Lemma soon_cancel s : gone s = None -> hd s = HCancel -> soon 1 s.
  Proof. intros G H. eapply soon_next; [exact G | unfold hand_step; rewrite H; reflexivity|]. exists 0. split; [lia | reflexivity]. Qed.
  Lemma soon_store s : gone s = None -> hd s = HStore -> soon 2 s.
  Proof. intros G H. eapply soon_next; [exact G | unfold hand_step; rewrite H; reflexivity|]. apply soon_cancel; [exact G | reflexivity]. Qed.
  Lemma soon_diag s g : gone s = None -> hd s = HDiag g -> is_term g = true -> soon 3 s.
  Proof. intros G H T. eapply soon_next; [exact G | unfold hand_step; rewrite H, T; reflexivity|]. apply soon_store; [exact G | reflexivity]. Qed.
  Lemma soon_profiles s g : gone s = None -> hd s = HProfiles g -> is_term g = true -> soon 4 s.
  Proof. intros G H T. eapply soon_next; [exact G | unfold hand_step; rewrite H; reflexivity|]. apply (soon_diag _ g); [exact G | reflexivity | exact T]. Qed.
  Lemma soon_took s g : gone s = None -> hd s = HTook g -> is_term g = true -> asked s = false -> soon 5 s.
  Proof. intros G H T A. eapply soon_next; [exact G | unfold hand_step; rewrite H, T, A; reflexivity|]. apply (soon_profiles _ g); [exact G | reflexivity | exact T]. Qed.
  Lemma soon_wait s g : gone s = None -> hd s = HWait -> pend s = Some g -> is_term g = true -> asked s = false -> soon 6 s.
  Proof. intros G H P T A. eapply soon_next; [exact G | unfold hand_step; rewrite H, P; reflexivity|]. apply (soon_took _ g); [exact G | reflexivity | exact T | exact A]. Qed.
  Lemma soon_le k k' s : k <= k' -> soon k s -> soon k' s.
  Proof. intros L (n & H & X). exists n. split; [lia | exact X]. Qed.
  Theorem cancels s : hand_ok s -> diag_ok s -> gone s = None -> sent s <> [] -> forallb is_term (sent s) = true -> soon 6 s.
  Proof.
    intros H Dg G N T. destruct (canc s) eqn:C; [exists 0; split; [lia | exact C]|].
    assert (All : forall g, In g (sent s) -> is_term g = true) by (rewrite forallb_forall in T; exact T).
    destruct H as (H1 & _ & H3 & H4 & H5 & H6).
    assert (Tk : forall g, In g (took s) -> is_term g = true) by auto.
    assert (NT : terms (took s) = false -> took s = []).
    { intros X. destruct (took s) as [|g l] eqn:Q; [reflexivity|]. unfold terms in X. cbn in X. rewrite (Tk g (or_introl eq_refl)) in X. discriminate. }
    unfold diag_ok in Dg. destruct (hd s) as [|g|g|g| | |g|g|g] eqn:Hd.
    - destruct H1 as (A1 & A2). assert (A : asked s = false) by (destruct (asked s); [rewrite A2 in C by reflexivity; discriminate | reflexivity]).
      rewrite A in A1. symmetry in A1. apply NT in A1. destruct (pend s) as [g|] eqn:P; [|destruct (H6 N) as [X|X]; congruence]. apply (soon_wait s g G Hd P); auto.
    - destruct H1 as (a & A1 & A2 & A3). assert (A : asked s = false) by (destruct (asked s); [rewrite A3 in C by reflexivity; discriminate | reflexivity]).
      apply (soon_le 5); [lia|]. apply (soon_took s g G Hd); auto.
    - apply (soon_le 4); [lia|]. apply (soon_profiles s g G Hd); auto.
    - apply (soon_le 3); [lia|]. apply (soon_diag s g G Hd); auto.
    - apply (soon_le 2); [lia|]. apply (soon_store s G Hd).
    - apply (soon_le 1); [lia|]. apply (soon_cancel s G Hd).
    - destruct H1 as (_ & X & _). congruence.
    - destruct H1 as (_ & X & _). congruence.
    - destruct H1 as (_ & X & _). congruence.
  Qed.

  (** ** The second termination signal *)
  Definition count (l : list sig) : nat := length (filter is_term l).
  Definition once (s : proc) : Prop :=
    match hd s with HTook _ => count (removelast (took s)) <= 1 | HExit _ | HClosing _ | HEnd _ => True | _ => count (took s) <= 1 end.
  Lemma count_terms l : terms l = false -> count l = 0.
  Proof. unfold terms, count. induction l as [|g l IH]; [reflexivity|]. cbn. destruct (is_term g); [discriminate | exact IH]. Qed.
  Lemma count_snoc l g : count (l ++ [g]) = count l + (if is_term g then 1 else 0).
  Proof. unfold count. rewrite filter_app, app_length. cbn. destruct (is_term g); reflexivity. Qed.
  Lemma once_step s a s' : hand_ok s /\ once s -> step s a = Some s' -> once s'.
  Proof.
    intros I E. step_cases E; destruct I as ((H1 & _) & O); unfold once in *; unfold close_write; try (destruct (write _ _)); fields; try exact O;
      repeat match goal with H : hd _ = _ |- _ => rewrite H in * end; auto.
    - rewrite removelast_last. exact O.
    - destruct H1 as (a & A1 & A2 & _). rewrite A1, removelast_last in *. rewrite count_snoc, count_terms by congruence. destruct (is_term s0); lia.
    - destruct H1 as (a & A1 & A2 & _). rewrite A1, removelast_last in *. rewrite count_snoc, Heqb. lia.
  Qed.
  Lemma once_run d l : hand_ok (runp (proc_start d) l) /\ once (runp (proc_start d) l).
  Proof.
    apply (run_inv step (fun s => hand_ok s /\ once s)).
    - intros s a s' H E. split; [exact (hand_step_ok key listed batch co sm s a s' (proj1 H) E) | exact (once_step s a s' H E)].
    - split; [exact (hand_run key listed batch co sm d [])|]. cbn. lia.
  Qed.
  (** It can always bring the end, after at most one step of the main goroutine. *)
  Definition ends_by (k m : nat) (g : sig) (s : proc) : Prop := exists l, length l <= k /\ length (filter (fun a => match a with AMain _ _ => true | _ => false end) l) <= m /\
    (forall a, In a l -> a = AHand true \/ a = AMain true EOther) /\ gone (runp s l) = Some (sig_code g).
  Lemma ends_hand k m g s s' : gone s = None -> hand_step true s = Some s' -> ends_by k m g s' -> ends_by (S k) m g s.
  Proof.
    intros G E (l & L1 & L2 & L3 & L4). exists (AHand true :: l). cbn [length filter]. split; [lia|]. split; [exact L2|]. split; [intros a [<-|A]; auto|].
    rewrite run_cons. unfold do, proc_step at 2. rewrite G, E. exact L4.
  Qed.
  Lemma ends_main k m g s s' : gone s = None -> main_step key listed batch co sm true EOther s = Some s' -> ends_by k m g s' -> ends_by (S k) (S m) g s.
  Proof.
    intros G E (l & L1 & L2 & L3 & L4). exists (AMain true EOther :: l). cbn [length filter]. split; [lia|]. split; [lia|]. split; [intros a [<-|A]; auto|].
    rewrite run_cons. unfold do, proc_step at 2. rewrite G, E. exact L4.
  Qed.
  Lemma ends_end s g : gone s = None -> hd s = HEnd g -> ends_by 1 0 g s.
  Proof.
    intros G H. eapply ends_hand; [exact G | unfold hand_step; rewrite H; reflexivity|]. exists []. cbn. split; [lia|]. split; [lia|]. split; [intros a []|reflexivity].
  Qed.
  Lemma ends_closing s g : gone s = None -> hd s = HClosing g -> ends_by 2 0 g s.
  Proof.
    intros G H. eapply ends_hand; [exact G | unfold hand_step; rewrite H; reflexivity|]. apply ends_end; [|reflexivity]. unfold close_write. destruct (write _ _). exact G.
  Qed.
  Lemma ends_free s g : gone s = None -> hd s = HExit g -> locked s = false -> ends_by 3 0 g s.
  Proof.
    intros G H L. destruct (hook s) eqn:K; [destruct (jclosed s) eqn:C|].
    - eapply ends_hand; [exact G | unfold hand_step; rewrite H, K, L, C; reflexivity|]. destruct (ends_end (with_hand (HEnd g) s) g G eq_refl) as (l & L1 & L2). exists l. split; [lia | exact L2].
    - eapply ends_hand; [exact G | unfold hand_step; rewrite H, K, L, C; reflexivity|]. apply ends_closing; [exact G | reflexivity].
    - eapply ends_hand; [exact G | unfold hand_step; rewrite H, K; reflexivity|]. destruct (ends_end (with_hand (HEnd g) s) g G eq_refl) as (l & L1 & L2). exists l. split; [lia | exact L2].
  Qed.
  Lemma ends_le k k' m m' g s : k <= k' -> m <= m' -> ends_by k m g s -> ends_by k' m' g s.
  Proof. intros A B (l & L1 & L2 & L3). exists l. split; [lia|]. split; [lia | exact L3]. Qed.
  Lemma ends_exit s g : lock_ok s -> gone s = None -> hd s = HExit g -> ends_by 4 1 g s.
  Proof.
    intros L G H. destruct (locked s) eqn:K; [|apply (ends_le 3 4 0 1); [lia | lia | exact (ends_free s g G H K)]].
    unfold lock_ok, hand_in in L. rewrite H in L. unfold main_in in L. destruct (mn s) as [| | | | | | |b size rest|p r|p r| | |] eqn:M; try congruence.
    - destruct (commit_progress true key b co sm (jr s)) as [j r] eqn:C. destruct r; (eapply ends_main; [exact G | unfold main_step; rewrite M, C; reflexivity|]);
        (apply ends_free; [exact G | exact H | reflexivity]).
    - eapply ends_main; [exact G | unfold main_step; rewrite M; reflexivity|]. unfold close_write. destruct (write _ _). apply ends_free; [exact G | exact H | reflexivity].
  Qed.
  Theorem second_ends s : lock_ok s -> hand_ok s -> once s -> gone s = None -> 2 <= count (took s) -> exists a g, took s = a ++ [g] /\ is_term g = true /\ ends_by 5 1 g s.
  Proof.
    intros L (H1 & _) O G C. unfold once in O. destruct (hd s) as [|g|g|g| | |g|g|g] eqn:Hd; try lia.
    - destruct H1 as (a & A1 & A2 & A3). rewrite A1, removelast_last in *. rewrite count_snoc in C. destruct (is_term g) eqn:T; [|lia]. exists a, g. split; [reflexivity|]. split; [exact T|].
      assert (A : asked s = true). { rewrite A2. destruct (terms a) eqn:Q; [reflexivity|]. apply count_terms in Q. lia. }
      eapply ends_hand; [exact G | unfold hand_step; rewrite Hd, T, A; reflexivity|]. apply ends_exit; [|exact G | reflexivity]. unfold lock_ok, main_in, hand_in in *. rewrite Hd in L. exact L.
    - destruct H1 as (_ & _ & a & A1 & A2 & _). exists a, g. split; [exact A1|]. split; [exact A2|]. apply (ends_le 4 5 1 1); [lia | lia | exact (ends_exit s g L G Hd)].
    - destruct H1 as (_ & _ & a & A1 & A2 & _). exists a, g. split; [exact A1|]. split; [exact A2|]. apply (ends_le 2 5 0 1); [lia | lia | exact (ends_closing s g G Hd)].
    - destruct H1 as (_ & _ & a & A1 & A2 & _). exists a, g. split; [exact A1|]. split; [exact A2|]. apply (ends_le 1 5 0 1); [lia | lia | exact (ends_end s g G Hd)].
  Qed.

  (** ** Before a forced end the hook closes the journal *)
  Definition hooked (s : proc) : Prop :=
    match mn s with MStart | MList | MLoop _ _ | MWork _ _ _ _ | MCommit _ _ _ | MWrite _ _ _ => hook s = true | _ => True end /\
    (hook s = true \/ begun s = 0) /\ match mn s with MOpen | MHook => begun s = 0 | _ => True end.
  Lemma hooked_step s a s' : hooked s -> step s a = Some s' -> hooked s'.
  Proof.
    intros (H1 & H2 & H3) E. unfold hooked in *. step_cases E; unfold close_write; try (destruct (write _ _)); fields;
      repeat match goal with H : mn _ = _ |- _ => rewrite H in * end; try tauto; auto.
    all: try (split; [destruct (canc s); auto | split; [tauto | destruct (canc s); auto]]; fail).
    all: try (match goal with p : place |- _ => destruct p; cbn [after_close]; tauto end).
    all: try (match goal with |- context [if ?b then _ else _] => destruct b; cbn; tauto end).
  Qed.
  Definition flushed_end (s : proc) : Prop := match hd s with HEnd _ => 0 < begun s -> jclosed s = true | _ => True end.
  Lemma flushed_end_step s a s' : hand_ok s -> hooked s -> flushed_end s -> a <> AHand false -> step s a = Some s' -> flushed_end s'.
  Proof.
    intros H K F Na E. destruct H as (H & _). destruct K as (_ & K & _). unfold flushed_end in *.
    step_cases E; unfold close_write, write in *; fields; repeat match goal with H : hd _ = _ |- _ => rewrite H in * end; auto;
      try (destruct K as [K|K]; [congruence || (rewrite K in *; discriminate) | lia]); try (intros X; congruence).
    all: try (destruct ok; [|contradiction Na; reflexivity]; fields; intros _; apply orb_true_r).
    all: try (destruct (if is_term _ then _ else _); exact I).
    all: try (destruct (is_term _); exact I).
    all: try (destruct (hd s); try exact I; intros X; rewrite (F X); reflexivity).
    all: try (destruct (hd s); try exact I; destruct H as (_ & H & _); congruence).
    all: try (destruct (hd s); try exact I; intros X; specialize (F X); congruence).
    all: try (destruct ok; fields; destruct (hd s); try exact I; intros X; rewrite (F X); reflexivity).
  Qed.
  Lemma flushed_end_run d l : ~ In (AHand false) l -> let s := runp (proc_start d) l in hand_ok s /\ hooked s /\ flushed_end s.
  Proof.
    induction l as [|a l IH] using rev_ind; intros N s.
    - split; [exact (hand_run key listed batch co sm d [])|]. split; [unfold hooked; cbn; auto | exact I].
    - unfold s. rewrite run_app, run_cons. set (t := runp (proc_start d) l) in *. change (runp (do step t a) []) with (do step t a). unfold do. destruct IH as (I1 & I2 & I3); [intros X; apply N, in_or_app; auto|].
      destruct (step t a) as [s'|] eqn:E; [|auto].
      split; [exact (hand_step_ok key listed batch co sm _ a s' I1 E)|]. split; [exact (hooked_step _ a s' I2 E)|].
      apply (flushed_end_step _ a s' I1 I2 I3); [|exact E]. intros ->. apply N, in_or_app. right. left. reflexivity.
  Qed.
End More.
