(** C96: the life of the map server command. *)
From Verif Require Import Base BaseLemmas SysModel SysProofs ServeModel ServeProofs ServeRuns ServeEnds.

Notation state now wait l := (run (serve_step now wait) serve_start l).

(** ** Why the process ends *)
(** With os.Exit only after a call that failed, and then with code 1; with a panic or by a signal only if a signal was sent. *)
Theorem C96_causes : forall now wait l e, ended (state now wait l) = Some e ->
  match e with
  | Exit c => c = 1 /\ (In (AMain false) l \/ now = true /\ In (ALoop false) l)
  | Crash _ => exists g, In (ASignal g) l
  | Killed g => In (ASignal g) l
  end.
Proof.
  intros now wait l e E. pose proof (good_run now wait l) as G. pose proof (hist_run now wait l) as H. pose proof (g_end wait _ G) as X. rewrite E in X.
  destruct e as [c|[|]|g].
  - split; [exact X|]. pose proof (g_main wait _ G) as M. destruct (h_exit now _ _ H c E) as [Y|Y]; [exact (h_ret now _ _ H true Y eq_refl)|]. rewrite Y in M. contradiction.
  - destruct X as (t & X & _). apply (h_canc now _ _ H). congruence.
  - apply (h_canc now _ _ H). exact (proj1 X).
  - exact (h_killed now _ _ H g E).
Qed.
(** So code 0, and the message "exiting", are never reached. *)
Theorem C96_never_zero : forall now wait l, ended (state now wait l) <> Some (Exit 0).
Proof. intros now wait l E. destruct (C96_causes now wait l _ E) as (X & _). discriminate X. Qed.
(** Without a signal and a failure it does not end. *)
Theorem C96_runs : forall now wait l, (forall g, ~ In (ASignal g) l) -> ~ In (AMain false) l -> ~ In (ALoop false) l -> ended (state now wait l) = None.
Proof.
  intros now wait l A B C. destruct (ended (state now wait l)) as [e|] eqn:E; [|reflexivity]. exfalso. pose proof (C96_causes now wait l e E) as X.
  destruct e as [c|w|g]; [destruct X as (_ & [X|(_ & X)]); contradiction | destruct X as (g & X); exact (A g X) | exact (A g X)].
Qed.

(** ** updateNow *)
(** Requests are answered only after an update without an error. *)
Theorem C96_ready : forall wait l, answered (state true wait l) <> [] -> In true (updates (state true wait l)).
Proof. intros wait l H. apply (h_ready true l _ (hist_run true wait l) eq_refl). auto. Qed.

(** ** After a signal *)
(** If the two goroutines of the signals get their turns and time goes on, the process ends, whatever the others do and whenever the signal is sent. *)
Theorem C96_ends : forall now wait f n g,
  (forall k, exists m, k <= m /\ f m = ASigGo) -> (forall k, exists m, k <= m /\ f m = AWatch) ->
  (forall t, exists m, t <= elapsed (prefix f m)) -> f n = ASignal g ->
  exists m, ended (state now wait (prefix f m)) <> None.
Proof. exact signal_ends. Qed.
(** If it ends by the panic of the watchdog, the waiting time has passed since a signal. *)
Theorem C96_not_before : forall now wait l, ended (state now wait l) = Some (Crash Watchdog) ->
  exists l1 g l2, l = l1 ++ ASignal g :: l2 /\ wait <= elapsed l2.
Proof. exact not_before. Qed.
(** Three steps of the goroutine after a signal, the next signal ends the process at once. *)
Theorem C96_second : forall now wait l g g', let s := state now wait (l ++ [ASignal g; ASigGo; ASigGo; ASigGo]) in
  ended s = None -> ended (state now wait ((l ++ [ASignal g; ASigGo; ASigGo; ASigGo]) ++ [ASignal g'])) = Some (Killed g').
Proof. intros now wait l g g' s N. rewrite run_app. exact (second now wait l g g' N). Qed.

(** ** The results of the updates *)
(** Exactly while an update is going on or its result is to be sent, one goroutine waits for the result; and the goroutine of the timer is there only after the start. *)
Record awaited (s : srv) : Prop := {
  a_some : lp s = LWork \/ (exists e, lp s = LSend1 e) -> mn s = MWait \/ tm s = TWait;
  a_main : mn s = MWait -> lp s = LWork \/ exists e, lp s = LSend1 e;
  a_timer : tm s = TWait -> lp s = LWork \/ exists e, lp s = LSend1 e;
  a_late : tm s = TOff \/ mn s = MListen \/ exists e, mn s = MReturn e;
  a_early : match mn s with MNotify | MConf | MNew => lp s = LOff | _ => True end }.
Ltac aw0 := try discriminate; try solve [auto | match goal with D : ?t = TOff \/ _ |- ?t = TOff \/ _ => destruct D as [D|[D|[? D]]]; [left; exact D | discriminate D | discriminate D] end | match goal with D : ?t = TOff \/ _ |- _ => destruct D as [D|[D|[? D]]]; [discriminate D | auto | eauto] end | eauto 6 | intuition (eauto; congruence) | intros [X|[? X]]; discriminate X | intros [X|[? X]]; auto | match goal with A : ?q -> _ \/ _, D : _ \/ _ \/ _ |- ?q -> _ => let X := fresh in intros X; exfalso; destruct (A X); destruct D as [?|[?|[? ?]]]; congruence end | match goal with B : ?m = MWait -> _ |- ?m = MWait -> _ => let X := fresh in intros X; exfalso; destruct (B X) as [?|[? ?]]; congruence end | match goal with C : ?t = TWait -> _ |- ?t = TWait -> _ => let X := fresh in intros X; exfalso; destruct (C X) as [?|[? ?]]; congruence end].
Lemma awaited_step now wait s a s' : awaited s -> serve_step now wait s a = Some s' -> awaited s'.
Proof.
  intros [A B C D F] E. destruct s as [m l t g w ar q ca uc ss dn ck an up en]. unfold serve_step in E. cbn in *. destruct en; [discriminate E|].
  assert (NB : mn (mk_srv m l t g w ar q ca uc ss dn ck an up None) = MWait -> t <> TWait).
  { cbn. intros -> ->. destruct D as [D|[D|[e D]]]; discriminate. }
  cbn in NB. destruct a.
  - unfold main_step in E. cbn in E. destruct m; cbn in E; try discriminate E;
      repeat match type of E with context [if ?b then _ else _] => destruct b end; try (destruct l; try discriminate E); try discriminate E; injection E as <-; split; cbn; aw0.
  - unfold loop_step, give in E. cbn in E. destruct l; cbn in E; try discriminate E.
    + destruct ca; [|discriminate E]. injection E as <-. split; cbn; aw0; try (destruct m; auto; discriminate F).
    + injection E as <-. split; cbn; aw0; try (destruct m; auto; discriminate F).
    + destruct m; try (destruct t; try discriminate E); cbn in E; injection E as <-; try destruct err; split; cbn; aw0.
    + injection E as <-. destruct ok; split; cbn; aw0; try (destruct m; auto; discriminate F).
    + destruct m; try (destruct t; try discriminate E); cbn in E; injection E as <-; split; cbn; aw0.
  - unfold timer_step in E. cbn in E. destruct t; cbn in E; try discriminate E.
    + injection E as <-. split; cbn; aw0.
    + destruct uc; [injection E as <-; split; cbn; aw0|]. destruct l, ch; injection E as <-; split; cbn; aw0; try (destruct m; auto; discriminate F).
    + destruct ch; [injection E as <-; split; cbn; aw0|]. destruct ca; [|discriminate E]. injection E as <-; split; cbn; aw0.
  - unfold sig_step in E. cbn in E. destruct g; cbn in E; try discriminate E; [destruct q; [destruct ca; [|discriminate E]|]|..]; injection E as <-; split; cbn; aw0.
  - unfold watch_step in E. cbn in E. destruct w; try discriminate E; [destruct ca; [|discriminate E]|destruct (d <=? ck); [|discriminate E]]; injection E as <-; split; cbn; aw0.
  - destruct ss; [|discriminate E]. injection E as <-; split; cbn; aw0.
  - destruct ar; [match type of E with context [if ?b then _ else _] => destruct b end|]; injection E as <-; split; cbn; aw0.
  - injection E as <-; split; cbn; aw0.
  - destruct m; try discriminate E. destruct dn; [discriminate E|]. injection E as <-; split; cbn; aw0.
Qed.
Lemma awaited_run now wait l : awaited (state now wait l).
Proof. apply run_inv; [exact (awaited_step now wait)|]. split; cbn; aw0. Qed.
(** The result of an update is always taken at once: its sender is never in the way of the next update. *)
Theorem C96_taken : forall now wait l e ok, ended (state now wait l) = None -> lp (state now wait l) = LSend1 e -> lp (state now wait (l ++ [ALoop ok])) = LReload.
Proof.
  intros now wait l e ok N E. rewrite run_app. cbn. unfold do, serve_step. destruct (awaited_run now wait l) as [A _ _ _ _]. specialize (A (or_intror (ex_intro _ e E))). set (s := run _ _ _) in *.
  rewrite N. unfold loop_step. rewrite E. unfold give. destruct A as [A|A]; [rewrite A; reflexivity|]. rewrite A. destruct (mn s); reflexivity.
Qed.

(** ** Concrete runs *)
Example C96_taken_ex : let l := repeat (AMain true) 5 ++ [ATimer true; ATimer true; ALoop true] in ended (state false 10 l) = None /\ lp (state false 10 l) = LSend1 false.
Proof. vm_compute. split; reflexivity. Qed.
Definition begin : list action := repeat (AMain true) 5.
Definition stop (g : sig) : list action := [ASignal g; ASigGo; ASigGo].
(** A start with an update, a request, a scheduled update, a signal, a second one. *)
Definition begin_now : list action := repeat (AMain true) 5 ++ [ALoop true; ALoop true; AMain true; ALoop true; AReq].
Example C96_serves : let s := state true 10 (begin_now ++ [ATime 3; ATimer true; ATimer true; ALoop true; ALoop true; ALoop true; AReq]) in
  ended s = None /\ answered s = [0; 3] /\ updates s = [true; true] /\ mn s = MListen /\ lp s = LSelect.
Proof. vm_compute. repeat split; reflexivity. Qed.
Example C96_second_ex : let s := state true 10 (begin_now ++ [ASignal SigTerm; ASigGo; ASigGo; ASigGo]) in
  ended s = None /\ canc s = Some 0 /\ ended (state true 10 ((begin_now ++ [ASignal SigTerm; ASigGo; ASigGo; ASigGo]) ++ [ASignal SigInt])) = Some (Killed SigInt).
Proof. vm_compute. repeat split; reflexivity. Qed.
Example C96_exit_ex : ended (state true 10 (repeat (AMain true) 5 ++ [ALoop false; ALoop true; AMain true])) = Some (Exit 1).
Proof. vm_compute. reflexivity. Qed.
Definition ex_turns (n : nat) : action :=
  if n <? 4 then nth n (stop SigInt) (ATime 0) else nth (n mod 3) [ASigGo; AWatch; ATime 1] AWatch.
Example C96_ends_ex : (forall k, exists m, k <= m /\ ex_turns m = ASigGo) /\ (forall k, exists m, k <= m /\ ex_turns m = AWatch) /\
  (forall t, exists m, t <= elapsed (prefix ex_turns m)) /\ ex_turns 0 = ASignal SigInt.
Proof.
  assert (T : forall k j, j < 3 -> ex_turns (6 + k * 3 + j) = nth j [ASigGo; AWatch; ATime 1] AWatch).
  { intros k j L. unfold ex_turns. replace (6 + k * 3 + j <? 4) with false by (symmetry; apply Nat.ltb_ge; lia). f_equal.
    replace (6 + k * 3 + j) with (j + (2 + k) * 3) by lia. rewrite Nat.mod_add by lia. apply Nat.mod_small. exact L. }
  split; [intros k; exists (6 + k * 3 + 0); split; [lia | rewrite T by lia; reflexivity]|].
  split; [intros k; exists (6 + k * 3 + 1); split; [lia | rewrite T by lia; reflexivity]|]. split; [|reflexivity].
  intros t. exists (6 + t * 3). induction t as [|t IH]; [lia|]. replace (6 + S t * 3) with (S (S (S (6 + t * 3 + 0)))) by lia. cbn [prefix].
  replace (S (S (6 + t * 3 + 0))) with (6 + t * 3 + 2) by lia. rewrite (T t 2) by lia. rewrite !elapsed_app. replace (6 + t * 3 + 0) with (6 + t * 3) in * by lia. cbn. cbn in IH. lia.
Qed.

(** ** What is false *)
(** An orderly end: all calls succeed and nothing is being updated, but the server goes on to answer, and then a panic ends it. *)
Theorem C96_clean_refuted : exists l, ~ In (AMain false) l /\ ~ In (ALoop false) l /\
  let s := state false 10 l in updates s = [] /\ ended s = Some (Crash Watchdog) /\ exists t, In t (answered s) /\ 9 <= t.
Proof.
  exists (begin ++ stop SigTerm ++ [ASigGo; AWatch; ALoop true; ATime 9; AReq; ATime 1; AWatch]).
  split; [cbn; intuition discriminate|]. split; [cbn; intuition discriminate|]. split; [reflexivity|]. split; [vm_compute; reflexivity|]. exists 9. split; [vm_compute; auto | lia].
Qed.
(** ten seconds: if the time of the first update comes after the signal, its goroutine sends on the closed channel: a panic, at once. *)
Theorem C96_early_refuted : exists l1 g l2, (forall g', ~ In (ASignal g') l1) /\ ended (state false 10 l1) = None /\
  ended (state false 10 (l1 ++ ASignal g :: l2)) = Some (Crash ClosedSend) /\ elapsed l2 = 0.
Proof.
  exists begin, SigTerm, [ASigGo; ASigGo; ALoop true; ATimer true; ATimer true]. split; [cbn; intros g'; intuition discriminate|]. repeat split; vm_compute; reflexivity.
Qed.
(** An update that has begun is not brought to its end. *)
Theorem C96_cut_refuted : exists l, ~ In (AMain false) l /\ ~ In (ALoop false) l /\
  let s := state false 10 l in ended s = Some (Crash Watchdog) /\ lp s = LWork /\ updates s = [].
Proof.
  exists (begin ++ [ATimer true; ATimer true] ++ stop SigInt ++ [AWatch; ATime 10; AWatch]).
  split; [cbn; intuition discriminate|]. split; [cbn; intuition discriminate|]. repeat split; vm_compute; reflexivity.
Qed.
(** Updates for ever: when the reload of the root fails once, its error has no reader. Nothing is updated any more, whatever happens, while requests are answered. *)
Record blocked (u : list bool) (s : srv) : Prop := { b_lp : lp s = LSend2; b_mn : match mn s with MNotify | MConf | MNew | MWait => False | _ => True end; b_tm : tm s <> TWait; b_up : updates s = u }.
Lemma blocked_step now wait u s a s' : blocked u s -> serve_step now wait s a = Some s' -> blocked u s'.
Proof.
  intros [A B C D] E. destruct s as [m l t g w ar q ca uc ss dn ck an up en]. unfold serve_step in E. cbn in *. destruct en; [discriminate E|]. subst l. destruct a.
  - unfold main_step in E. cbn in E. destruct m; cbn in E; try contradiction; try discriminate E;
      repeat match type of E with context [if ?b then _ else _] => destruct b end; try discriminate E; injection E as <-; split; cbn; auto; discriminate.
  - unfold loop_step, give in E. cbn in E. destruct m; try contradiction; destruct t; cbn in E; try discriminate E; congruence.
  - unfold timer_step in E. cbn in E. destruct t; cbn in E; try discriminate E; [|destruct uc|destruct ch; [|destruct ca; [|discriminate E]]]; injection E as <-; split; cbn; auto; discriminate.
  - unfold sig_step in E. cbn in E. destruct g; cbn in E; try discriminate E; [destruct q; [destruct ca; [|discriminate E]|]|..]; injection E as <-; split; cbn; auto.
  - unfold watch_step in E. cbn in E. destruct w; try discriminate E; [destruct ca; [|discriminate E]|destruct (d <=? ck); [|discriminate E]]; injection E as <-; split; cbn; auto.
  - destruct ss; [|discriminate E]. injection E as <-; split; cbn; auto.
  - destruct ar; [match type of E with context [if ?b then _ else _] => destruct b end|]; injection E as <-; split; cbn; auto.
  - injection E as <-; split; cbn; auto.
  - destruct m; try discriminate E. destruct dn; [discriminate E|]. injection E as <-; split; cbn; auto.
Qed.
Theorem C96_stale_refuted : (forall now wait l l', lp (state now wait l) = LReload -> ended (state now wait l) = None -> updates (state now wait (l ++ ALoop false :: l')) = updates (state now wait l)) /\
  exists l, ~ In (AMain false) l /\ (forall g, ~ In (ASignal g) l) /\ let s := state true 10 (l ++ [ALoop false; AMain true; ATime 7; AReq]) in
    lp (state true 10 l) = LReload /\ ended (state true 10 l) = None /\ answered s = [7] /\ updates s = [true] /\ forall l', updates (state true 10 ((l ++ [ALoop false; AMain true; ATime 7; AReq]) ++ l')) = [true].
Proof.
  assert (G : forall now wait l l', lp (state now wait l) = LReload -> ended (state now wait l) = None -> updates (state now wait (l ++ ALoop false :: l')) = updates (state now wait l)).
  { intros now wait l l' E N. rewrite run_app, run_cons. unfold do, serve_step at 2. destruct (awaited_run now wait l) as [_ A B _ C]. set (s := run (serve_step now wait) serve_start l) in *.
    rewrite N. unfold loop_step. rewrite E. apply (b_up (updates s)). apply (run_inv (serve_step now wait) (blocked (updates s)) (blocked_step now wait (updates s))). split; cbn; [reflexivity| |intros X; apply B in X as [X|[e X]]; congruence|reflexivity].
    destruct (mn s); auto; try congruence. destruct (A eq_refl) as [X|[e X]]; congruence. }
  split; [exact G|]. exists (repeat (AMain true) 5 ++ [ALoop true; ALoop true]). split; [cbn; intuition discriminate|]. split; [cbn; intros g; intuition discriminate|]. cbv zeta.
  split; [vm_compute; reflexivity|]. split; [vm_compute; reflexivity|]. split; [vm_compute; reflexivity|]. split; [vm_compute; reflexivity|].
  intros l'. rewrite <- app_assoc. change ([ALoop false; AMain true; ATime 7; AReq] ++ l') with (ALoop false :: [AMain true; ATime 7; AReq] ++ l'). rewrite G; vm_compute; reflexivity.
Qed.

Print Assumptions C96_taken. Print Assumptions C96_stale_refuted.
Print Assumptions C96_causes. Print Assumptions C96_never_zero. Print Assumptions C96_runs. Print Assumptions C96_ready. Print Assumptions C96_ends.
Print Assumptions C96_not_before. Print Assumptions C96_second. Print Assumptions C96_clean_refuted. Print Assumptions C96_early_refuted. Print Assumptions C96_cut_refuted.
