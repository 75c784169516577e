(** Proofs about ServeModel: a signal ends the process. *)
From Verif Require Import Base BaseLemmas SysModel SysProofs ServeModel ServeProofs.

(** ** The end after a signal *)
Section Ends.
  Variable now : bool.
  Variable wait : nat.
  Notation step := (serve_step now wait).
  Notation state l := (run step serve_start l).

  Definition asked (s : srv) : Prop := ended s <> None \/ sg s = SCancel \/ sg s = SStop \/ sg s = SEnd \/ (sg s = SWait /\ queue s <> []).
  Definition taken (s : srv) : Prop := ended s <> None \/ sg s = SCancel \/ sg s = SStop \/ sg s = SEnd.
  Definition cancelled (s : srv) : Prop := ended s <> None \/ canc s <> None.
  Definition waits (d : nat) (s : srv) : Prop := ended s <> None \/ wd s = WSleep d.
  Definition late (d : nat) (s : srv) : Prop := ended s <> None \/ (wd s = WSleep d /\ d <= clock s).

  Ltac cases E :=
    repeat match type of E with
    | None = Some _ => discriminate E
    | Some _ = Some _ => injection E as <-
    | context [match ?x with _ => _ end] => destruct x eqn:?
    end.
  (** One step changes the goroutine of the signals, the context and the watchdog in their own steps only. *)
  Lemma others s a s' : ended s = None -> step s a = Some s' -> ended s' <> None \/
    match a with
    | ASigGo => True
    | AWatch => sg s' = sg s /\ queue s' = queue s /\ canc s' = canc s /\ clock s' = clock s
    | ASignal _ => sg s' = sg s /\ queue s' <> [] /\ canc s' = canc s /\ wd s' = wd s /\ clock s' = clock s
    | ATime d => sg s' = sg s /\ queue s' = queue s /\ canc s' = canc s /\ wd s' = wd s /\ clock s' = clock s + d
    | AMain _ => (sg s' = sg s \/ sg s = sg serve_start \/ mn s = MNotify) /\ queue s' = queue s /\ canc s' = canc s /\ (wd s' = wd s \/ mn s = MNotify) /\ clock s' = clock s
    | _ => sg s' = sg s /\ queue s' = queue s /\ canc s' = canc s /\ wd s' = wd s /\ clock s' = clock s
    end.
  Proof.
    intros N E. unfold serve_step in E. rewrite N in E. destruct s as [m lo t g w ar q ca uc ss dn ck an up en]. cbn in *. subst en.
    destruct a as [ok|ok|ch| | | |sg0|d| ]; cbn in E.
    - unfold main_step in E. cbn in E. destruct m, ok; cases E; cbn; first [left; discriminate | right; tauto].
    - unfold loop_step, give in E. cbn in E. destruct lo, m, t; cbn in E; cases E; cbn; right; tauto.
    - unfold timer_step in E. cbn in E. destruct t, ch; cbn in E; cases E; cbn; first [left; discriminate | right; tauto].
    - right. exact Logic.I.
    - unfold watch_step in E. cbn in E. cases E; cbn; first [left; discriminate | right; tauto].
    - cases E; cbn; right; tauto.
    - destruct ar; [|injection E as <-; left; discriminate]. match type of E with context [if ?b then _ else _] => destruct b eqn:B end; injection E as <-; right; cbn.
      + repeat split; auto. destruct q; discriminate.
      + repeat split; auto. destruct q; [discriminate B | discriminate].
    - injection E as <-. right. cbn. tauto.
    - cases E; cbn; right; tauto.
  Qed.

  Lemma canc_told s : good wait s -> sg s <> SStop -> sg s <> SEnd -> canc s = None.
  Proof. intros G A B. destruct (canc s) eqn:C; [|reflexivity]. exfalso. pose proof (proj1 (g_canc wait s G)) as X. rewrite C in X. destruct (X ltac:(discriminate)); contradiction. Qed.
  (** The own step of the goroutine of the signals. *)
  Lemma own s s' : good wait s -> ended s = None -> step s ASigGo = Some s' ->
    ended s' = None /\ wd s' = wd s /\ clock s' = clock s /\ (canc s <> None -> canc s' = canc s) /\
    (sg s = SWait /\ queue s <> [] /\ sg s' = SCancel \/ sg s = SCancel /\ sg s' = SStop /\ canc s' = Some (clock s) \/ sg s = SStop /\ sg s' = SEnd /\ canc s' = canc s).
  Proof.
    intros G N E. unfold serve_step, sig_step in E. rewrite N in E.
    destruct (sg s) eqn:S0; try discriminate E.
    - destruct (queue s) eqn:Q.
      + rewrite (canc_told s G) in E by congruence. discriminate E.
      + injection E as <-. cbn. repeat split; auto. left. repeat split; auto. discriminate.
    - assert (C : canc s = None) by (apply (canc_told s G); congruence).
      injection E as <-. cbn. rewrite C. repeat split; auto; try congruence; try (right; left; auto).
    - injection E as <-. cbn. repeat split; auto.
  Qed.

  Lemma not_notify s : good wait s -> mn s = MNotify -> sg s = SOff /\ wd s = WOff /\ canc s = None.
  Proof.
    intros G M. assert (X : sg s = SOff) by (apply (g_off wait s G); exact M). split; [exact X|]. split; [apply (g_wd wait s G); exact M|].
    apply (canc_told s G); congruence.
  Qed.

  Ltac begin s a G :=
    unfold do; destruct (ended s) as [e0|] eqn:N;
      [unfold serve_step; rewrite N; left; rewrite N; discriminate|];
    destruct (step s a) as [s'|] eqn:E; [|assumption].

  Lemma asked_keeps s a : good wait s -> asked s -> asked (do step s a).
  Proof.
    intros G H. begin s a G. destruct H as [H|H]; [congruence|]. unfold asked.
    destruct a; try (destruct (others s _ s' N E) as [X|X]; [left; exact X|]; right);
      try (destruct X as (X1 & X2 & _); rewrite X1, X2; exact H).
    - destruct X as (X1 & X2 & _). assert (M : mn s <> MNotify) by (intros M; destruct (not_notify s G M) as (Y & _); rewrite Y in H; intuition discriminate).
      destruct X1 as [X1|[X1|X1]]; [rewrite X1, X2; exact H | cbn in X1; rewrite X1 in H; intuition discriminate | contradiction].
    - clear X. destruct (own s s' G N E) as (_ & _ & _ & _ & [X|[X|X]]); tauto.
    - destruct X as (X1 & X2 & _). rewrite X1. tauto.
  Qed.
  Lemma taken_keeps s a : good wait s -> taken s -> taken (do step s a).
  Proof.
    intros G H. begin s a G. destruct H as [H|H]; [congruence|]. unfold taken.
    destruct a; try (destruct (others s _ s' N E) as [X|X]; [left; exact X|]; right);
      try (destruct X as (X1 & X2 & _); rewrite X1; exact H).
    - destruct X as (X1 & X2 & _). assert (M : mn s <> MNotify) by (intros M; destruct (not_notify s G M) as (Y & _); rewrite Y in H; intuition discriminate).
      destruct X1 as [X1|[X1|X1]]; [rewrite X1; exact H | cbn in X1; rewrite X1 in H; intuition discriminate | contradiction].
    - clear X. destruct (own s s' G N E) as (_ & _ & _ & _ & [X|[X|X]]); tauto.
  Qed.
  Lemma cancelled_keeps s a : good wait s -> cancelled s -> cancelled (do step s a).
  Proof.
    intros G H. begin s a G. destruct H as [H|H]; [congruence|]. unfold cancelled.
    destruct a; try (destruct (others s _ s' N E) as [X|X]; [left; exact X|]; right; destruct X as (_ & _ & X & _); rewrite X; exact H).
    destruct (own s s' G N E) as (_ & _ & _ & X & _). right. rewrite (X H). exact H.
  Qed.
  Lemma watch_own s s' d : ended s = None -> wd s = WSleep d -> step s AWatch = Some s' -> ended s' <> None.
  Proof. intros N W E. unfold serve_step, watch_step in E. rewrite N, W in E. destruct (d <=? clock s); [|discriminate E]. injection E as <-. discriminate. Qed.
  Lemma waits_keeps d s a : good wait s -> waits d s -> waits d (do step s a).
  Proof.
    intros G H. begin s a G. destruct H as [H|H]; [congruence|]. unfold waits.
    destruct a; try (destruct (others s _ s' N E) as [X|X]; [left; exact X|]; right; destruct X as (_ & _ & _ & X & _); rewrite X; exact H).
    - destruct (others s _ s' N E) as [X|X]; [left; exact X|]. right. destruct X as (_ & _ & _ & [X|X] & _); [rewrite X; exact H|].
      destruct (not_notify s G X) as (_ & Y & _). congruence.
    - destruct (own s s' G N E) as (_ & X & _). right. rewrite X. exact H.
    - left. exact (watch_own s s' d N H E).
  Qed.
  Lemma clock_grows s a : clock s <= clock (do step s a).
  Proof.
    unfold do. destruct (step s a) as [s'|] eqn:E; [|lia]. unfold serve_step in E. destruct (ended s) eqn:N; [discriminate E|].
    destruct s as [m lo t g w ar q ca uc ss dn ck an up en]. cbn in *. subst en. destruct a as [ok|ok|ch| | | |sg0|d| ]; cbn in E.
    - unfold main_step in E. cbn in E. destruct m, ok; cases E; cbn; lia.
    - unfold loop_step, give in E. cbn in E. destruct lo, m, t; cbn in E; cases E; cbn; lia.
    - unfold timer_step in E. cbn in E. destruct t, ch; cbn in E; cases E; cbn; lia.
    - unfold sig_step in E. cbn in E. cases E; cbn; lia.
    - unfold watch_step in E. cbn in E. cases E; cbn; lia.
    - cases E; cbn; lia.
    - destruct ar; [match type of E with context [if ?b then _ else _] => destruct b eqn:B end|]; injection E as <-; cbn; lia.
    - injection E as <-. cbn. lia.
    - cases E; cbn; lia.
  Qed.
  Lemma late_keeps d s a : good wait s -> late d s -> late d (do step s a).
  Proof.
    intros G [H|(H & L)]; [left; unfold do, serve_step; destruct (ended s) eqn:N; [rewrite N; discriminate | congruence]|].
    pose proof (clock_grows s a) as C. destruct (waits_keeps d s a G (or_intror H)) as [X|X]; [left; exact X | right; split; [exact X | lia]].
  Qed.

  (** The steps that lead on. *)
  Lemma asked_taken s : good wait s -> asked s -> taken (do step s ASigGo).
  Proof.
    intros G H. destruct H as [H|[H|[H|[H|(H & Q)]]]]; try (apply taken_keeps; [exact G | unfold taken; tauto]).
    unfold do. destruct (step s ASigGo) as [s'|] eqn:E.
    - destruct (ended s) eqn:N; [unfold serve_step in E; rewrite N in E; discriminate E|].
      destruct (own s s' G N E) as (_ & _ & _ & _ & [X|[X|X]]); unfold taken; tauto.
    - unfold serve_step in E. destruct (ended s) eqn:N; [left; congruence|]. exfalso. unfold sig_step in E. rewrite H in E. destruct (queue s); [contradiction | discriminate E].
  Qed.
  Lemma taken_cancelled s : good wait s -> taken s -> cancelled (do step s ASigGo).
  Proof.
    intros G H. destruct H as [H|[H|H]]; [apply cancelled_keeps; [exact G | left; exact H] | | apply cancelled_keeps; [exact G|]; right; apply (g_canc wait s G); exact H].
    unfold do. destruct (step s ASigGo) as [s'|] eqn:E.
    - destruct (ended s) eqn:N; [unfold serve_step in E; rewrite N in E; discriminate E|].
      destruct (own s s' G N E) as (_ & _ & _ & _ & [X|[X|X]]); try (exfalso; destruct X as (X & _); congruence). right. destruct X as (_ & _ & X). rewrite X. discriminate.
    - unfold serve_step in E. destruct (ended s) eqn:N; [left; congruence|]. exfalso. unfold sig_step in E. rewrite H in E. discriminate E.
  Qed.
  Lemma cancelled_waits s : good wait s -> cancelled s -> exists d, waits d (do step s AWatch).
  Proof.
    intros G H. destruct H as [H|H]; [exists 0; apply waits_keeps; [exact G | left; exact H]|].
    destruct (wd s) as [| |d] eqn:W; [| |exists d; apply waits_keeps; [exact G | right; exact W]].
    - exfalso. apply H. apply (not_notify s G). apply (g_wd wait s G). exact W.
    - exists (clock s + wait). unfold do, serve_step. destruct (ended s) eqn:N; [left; congruence|]. unfold watch_step. rewrite W. destruct (canc s); [right; reflexivity | contradiction].
  Qed.
  Lemma late_ends d s : late d s -> ended (do step s AWatch) <> None.
  Proof.
    intros [H|(W & L)]; unfold do, serve_step; destruct (ended s) eqn:N; try congruence. unfold watch_step. rewrite W.
    apply Nat.leb_le in L. rewrite L. discriminate.
  Qed.
  Lemma signal_asks s g : good wait s -> asked (do step s (ASignal g)).
  Proof.
    intros G. unfold do, serve_step. destruct (ended s) eqn:N; [left; congruence|]. destruct (armed s) eqn:A; [|left; discriminate].
    apply (g_armed wait s G) in A. unfold asked. destruct (length (queue s) <? 2) eqn:L; cbn; [|].
    - destruct A as [A|[A|A]]; rewrite A; try tauto. do 4 right. split; [reflexivity|]. destruct (queue s); discriminate.
    - destruct A as [A|[A|A]]; rewrite A; try tauto. do 4 right. split; [reflexivity|]. destruct (queue s); discriminate.
  Qed.

  Definition often {A} (f : nat -> A) (a : A) : Prop := forall n, exists m, n <= m /\ f m = a.
  (** Time goes on. *)
  Definition elapsed (l : list action) : nat := fold_right (fun a n => match a with ATime d => d + n | _ => n end) 0 l.
  Definition time_passes (f : nat -> action) : Prop := forall t, exists n, t <= elapsed (prefix f n).

  Lemma good_prefix f n : good wait (state (prefix f n)).
  Proof. apply good_run. Qed.
  Lemma stays (P : srv -> Prop) f n : (forall s a, good wait s -> P s -> P (do step s a)) -> P (state (prefix f n)) -> forall m, n <= m -> P (state (prefix f m)).
  Proof.
    intros K H m L. induction L as [|m L IH]; [exact H|]. cbn [prefix]. rewrite run_app. cbn. apply K; [apply good_run | exact IH].
  Qed.
  Lemma leads (P Q : srv -> Prop) a f n : (forall s b, good wait s -> P s -> P (do step s b)) -> (forall s, good wait s -> P s -> Q (do step s a)) -> often f a ->
    P (state (prefix f n)) -> exists m, Q (state (prefix f m)).
  Proof.
    intros K W O H. destruct (O n) as (m & L & E). exists (S m). cbn [prefix]. rewrite run_app, E. cbn. apply W; [apply good_run|]. exact (stays P f n K H m L).
  Qed.
  Lemma elapsed_app l l' : elapsed (l ++ l') = elapsed l + elapsed l'.
  Proof. unfold elapsed. induction l as [|a l IH]; cbn; [reflexivity|]. destruct a; cbn; lia. Qed.
  Lemma clock_elapsed f n : ended (state (prefix f n)) = None -> clock (state (prefix f n)) = elapsed (prefix f n).
  Proof.
    induction n as [|n IH]; [reflexivity|]. cbn [prefix]. rewrite run_app, elapsed_app. cbn. set (s := state (prefix f n)) in *.
    intros N. unfold do in *. destruct (step s (f n)) as [s'|] eqn:E.
    - assert (N0 : ended s = None) by (unfold serve_step in E; destruct (ended s); [discriminate E | reflexivity]). rewrite <- (IH N0).
      destruct (f n) eqn:F; try (destruct (others s _ s' N0 E) as [X|X]; [congruence|]; decompose [and] X; lia).
      destruct (own s s' (good_run now wait _) N0 E) as (_ & _ & X & _). lia.
    - rewrite <- (IH N). destruct (f n) eqn:F; try lia. unfold serve_step in E. rewrite N in E. discriminate E.
  Qed.
  Theorem signal_ends f n g : often f ASigGo -> often f AWatch -> time_passes f -> f n = ASignal g -> exists m, ended (state (prefix f m)) <> None.
  Proof.
    intros O1 O2 T F.
    assert (A : asked (state (prefix f (S n)))) by (cbn [prefix]; rewrite run_app, F; cbn; apply signal_asks; apply good_run).
    destruct (leads asked taken ASigGo f (S n) asked_keeps asked_taken O1 A) as (n1 & A1).
    destruct (leads taken cancelled ASigGo f n1 taken_keeps taken_cancelled O1 A1) as (n2 & A2).
    destruct (leads cancelled (fun s => exists d, waits d s) AWatch f n2 cancelled_keeps cancelled_waits O2 A2) as (n3 & d & A3).
    destruct (T d) as (n4 & A4). set (k := Nat.max n3 n4).
    assert (A5 : late d (state (prefix f k))).
    { destruct (stays (waits d) f n3 (waits_keeps d) A3 k ltac:(lia)) as [X|X]; [left; exact X|].
      destruct (ended (state (prefix f k))) eqn:N; [left; congruence|]. right. split; [exact X|]. rewrite (clock_elapsed f k N).
      assert (Mono : forall b c, b <= c -> elapsed (prefix f b) <= elapsed (prefix f c)).
      { intros b c L. induction L as [|c L IH]; [lia|]. cbn [prefix]. rewrite elapsed_app. lia. }
      pose proof (Mono n4 k ltac:(lia)). lia. }
    destruct (leads (late d) (fun s => ended s <> None) AWatch f k (late_keeps d) (fun s _ => late_ends d s) O2 A5) as (m & A6).
    exists m. exact A6.
  Qed.

  (** ** When *)
  (** A signal was sent, at time [t] at the latest. *)
  Definition sent_by (t : nat) (l : list action) : Prop := exists l1 g l2, l = l1 ++ ASignal g :: l2 /\ elapsed l1 <= t.
  Lemma sent_more t l a : sent_by t l -> sent_by t (l ++ [a]).
  Proof. intros (l1 & g & l2 & -> & H). exists l1, g, (l2 ++ [a]). split; [rewrite <- app_assoc; reflexivity | exact H]. Qed.
  Lemma sent_later t t' l : t <= t' -> sent_by t l -> sent_by t' l.
  Proof. intros L (l1 & g & l2 & E & H). exists l1, g, l2. split; [exact E | lia]. Qed.
  Definition timed (l : list action) (s : srv) : Prop :=
    clock s <= elapsed l /\ (ended s = None -> clock s = elapsed l /\ (queue s <> [] \/ sg s = SCancel -> sent_by (clock s) l)) /\ (forall t, canc s = Some t -> sent_by t l).
  Lemma timed_run l : timed l (state l).
  Proof.
    induction l as [|a l IH] using rev_ind; [split; [cbn; lia|]; split; [intros _; split; [reflexivity|]; intros [H|H]; [elim H; reflexivity | discriminate H] | intros t H; discriminate H]|].
    rewrite run_app. cbn. set (s := state l) in *. pose proof (good_run now wait l) as G. fold s in G. destruct IH as (I1 & I2 & I3).
    pose proof (clock_grows s a) as CG. unfold timed. rewrite elapsed_app. unfold do in *. destruct (step s a) as [s'|] eqn:E.
    2:{ split; [lia|]. split; [|intros t T; apply sent_more; exact (I3 t T)]. intros N. destruct (I2 N) as (C & Q). split.
        - destruct a; cbn; try lia. unfold serve_step in E. rewrite N in E. discriminate E.
        - intros X. apply sent_more. auto. }
    assert (N0 : ended s = None) by (unfold serve_step in E; destruct (ended s); [discriminate E | reflexivity]). destruct (I2 N0) as (C & Q).
    assert (K : canc s' = canc s \/ canc s' = Some (clock s) /\ sg s = SCancel).
    { unfold serve_step in E. rewrite N0 in E. clear - E. destruct s as [m lo t g w ar q ca uc ss dn ck an up en]. cbn in *. destruct a as [ok|ok|ch| | | |sg0|d| ]; cbn in E.
      - unfold main_step in E. cbn in E. destruct m, ok; cases E; cbn; auto.
      - unfold loop_step, give in E. cbn in E. destruct lo, m, t; cbn in E; cases E; cbn; auto.
      - unfold timer_step in E. cbn in E. destruct t, ch; cbn in E; cases E; cbn; auto.
      - unfold sig_step in E. cbn in E. cases E; cbn; auto. destruct ca; auto.
      - unfold watch_step in E. cbn in E. cases E; cbn; auto.
      - cases E; cbn; auto.
      - destruct ar; [match type of E with context [if ?b then _ else _] => destruct b eqn:B end|]; injection E as <-; cbn; auto.
      - injection E as <-. cbn. auto.
      - cases E; cbn; auto. }
    assert (T : forall t, canc s' = Some t -> sent_by t (l ++ [a])).
    { intros t T. apply sent_more. destruct K as [K|(K & K')]; [apply I3; congruence|]. assert (clock s = t) by congruence. subst t. apply Q. auto. }
    assert (Ck : clock s' <= elapsed l + elapsed [a] /\ (ended s' = None -> clock s' = elapsed l + elapsed [a])).
    { destruct (ended s') eqn:N1.
      - split; [|discriminate]. unfold serve_step in E. rewrite N0 in E. clear - E N1 C. destruct s as [m lo t g w ar q ca uc ss dn ck an up en]. cbn in *.
        assert (X : forall w', clock (finish w' (mk_srv m lo t g w ar q ca uc ss dn ck an up en)) = ck) by reflexivity.
        destruct a as [ok|ok|ch| | | |sg0|d| ]; cbn in E.
        + unfold main_step in E. cbn in E. destruct m, ok; cases E; cbn; lia.
        + unfold loop_step, give in E. cbn in E. destruct lo, m, t; cbn in E; cases E; cbn; lia.
        + unfold timer_step in E. cbn in E. destruct t, ch; cbn in E; cases E; cbn; lia.
        + unfold sig_step in E. cbn in E. cases E; cbn; lia.
        + unfold watch_step in E. cbn in E. cases E; cbn; lia.
        + cases E; cbn; lia.
        + destruct ar; [match type of E with context [if ?b then _ else _] => destruct b eqn:B end|]; injection E as <-; cbn; lia.
        + injection E as <-. cbn. lia.
        + cases E; cbn; lia.
      - destruct a; cbn; try (destruct (others s _ s' N0 E) as [X|X]; [congruence|]; decompose [and] X; split; [lia | intros; lia]).
        destruct (own s s' G N0 E) as (_ & _ & X & _). split; [lia | intros; lia]. }
    split; [apply Ck|]. split; [|exact T]. intros N1. split; [apply Ck; exact N1|]. intros X.
    destruct a; try (destruct (others s _ s' N0 E) as [Y|Y]; [congruence|]); try (decompose [and] Y;
      match goal with H1 : sg s' = sg s, H2 : queue s' = queue s |- _ => rewrite H1, H2 in X end; apply sent_more; apply (sent_later (clock s)); [lia | apply Q; exact X]).
    - destruct Y as (Y1 & Y2 & _ & _ & Y3). rewrite Y2, Y3 in *. apply sent_more. apply Q. destruct X as [X|X]; [left; exact X|].
      destruct Y1 as [Y1|[Y1|Y1]]; [right; congruence | |].
      + exfalso. clear - E N0 X Y1. unfold serve_step, main_step in E. rewrite N0 in E. destruct s as [m lo t g w ar q ca uc ss dn ck an up en]. cbn in *. subst g. destruct m, ok; cases E; cbn in X; discriminate X.
      + exfalso. clear - E N0 X Y1. unfold serve_step, main_step in E. rewrite N0, Y1 in E. injection E as <-. discriminate X.
    - clear Y. destruct (own s s' G N0 E) as (_ & _ & Y3 & _ & Y). rewrite Y3. apply sent_more. apply Q.
      destruct Y as [(_ & Y & _)|[(Y & _)|(Y & Y' & _)]]; auto. destruct X as [X|X]; [|congruence]. left.
      unfold serve_step, sig_step in E. rewrite N0, Y in E. injection E as <-. exact X.
    - destruct Y as (_ & _ & _ & _ & Y). rewrite Y. exists l, g, []. split; [reflexivity | lia].
  Qed.
  Theorem not_before l : ended (state l) = Some (Crash Watchdog) -> exists l1 g l2, l = l1 ++ ASignal g :: l2 /\ wait <= elapsed l2.
  Proof.
    intros H. destruct (timed_run l) as (C & _ & T). pose proof (g_end wait _ (good_run now wait l)) as E. rewrite H in E. destruct E as (t & E1 & E2).
    destruct (T t E1) as (l1 & g & l2 & El & E3). exists l1, g, l2. split; [exact El|]. assert (X : elapsed l = elapsed l1 + elapsed l2) by (rewrite El, elapsed_app; reflexivity). lia.
  Qed.

  (** ** A second signal *)
  Definition stopped (s : srv) : Prop := ended s <> None \/ sg s = SStop \/ sg s = SEnd.
  Theorem second l g g' : let s := state (l ++ [ASignal g; ASigGo; ASigGo; ASigGo]) in ended s = None -> ended (do step s (ASignal g')) = Some (Killed g').
  Proof.
    intros s N. assert (X : sg s = SEnd).
    { unfold s in *. rewrite run_app in *. cbn in *. pose proof (good_run now wait l) as G. set (s0 := state l) in *.
      pose proof (signal_asks s0 g G) as A0. assert (G0 : good wait (do step s0 (ASignal g))). { unfold do. destruct (step s0 (ASignal g)) eqn:E; [exact (good_step _ _ _ _ _ G E) | exact G]. }
      set (s1 := do step s0 (ASignal g)) in *. clearbody s1. clear G s0.
      assert (Gn : forall x, good wait x -> good wait (do step x ASigGo)) by (intros x Gx; unfold do; destruct (step x ASigGo) eqn:E; [exact (good_step _ _ _ _ _ Gx E) | exact Gx]).
      assert (D : forall x, good wait x -> ended (do step x ASigGo) = None -> ended x = None) by (intros x _; unfold do, serve_step; destruct (ended x) eqn:N1; [rewrite N1; discriminate | reflexivity]).
      pose proof (D _ (Gn _ (Gn _ G0)) N) as N2. pose proof (D _ (Gn _ G0) N2) as N1. pose proof (D _ G0 N1) as N0.
      assert (St : forall x, good wait x -> ended x = None -> sg (do step x ASigGo) = match sg x with SWait => match queue x with [] => SWait | _ => SCancel end | SCancel => SStop | SStop => SEnd | y => y end).
      { intros x Gx Nx. unfold do, serve_step, sig_step. rewrite Nx. destruct (sg x) eqn:Sx; try (rewrite Sx; reflexivity); try reflexivity.
        destruct (queue x); [|reflexivity]. rewrite (canc_told x Gx) by congruence. exact Sx. }
      rewrite (St _ (Gn _ (Gn _ G0)) N2), (St _ (Gn _ G0) N1), (St _ G0 N0).
      destruct A0 as [A|[A|[A|[A|(A & Q)]]]]; [congruence| | | |]; rewrite A; try reflexivity. destruct (queue s1); [contradiction | reflexivity]. }
    pose proof (good_run now wait (l ++ [ASignal g; ASigGo; ASigGo; ASigGo])) as G. fold s in G. unfold do, serve_step. rewrite N.
    destruct (armed s) eqn:A; [|reflexivity]. exfalso. apply (g_armed wait s G) in A. rewrite X in A. intuition discriminate.
  Qed.
End Ends.
