(** Proofs about ServeModel. *)
From Verif Require Import Base BaseLemmas SysModel SysProofs ServeModel.

Section Serve.
  Variable now : bool.
  Variable wait : nat.
  Notation step := (serve_step now wait).
  Notation state l := (run step serve_start l).

  Lemma finished_stays s a e : ended s = Some e -> do step s a = s.
  Proof. intros H. unfold do, serve_step. rewrite H. reflexivity. Qed.

  (** What holds in every state: the parts of the five goroutines and of the signals. *)
  Definition told (s : srv) : Prop := sg s = SStop \/ sg s = SEnd.
  Record good (s : srv) : Prop := {
    g_stop : stop_sent s = false;
    g_down : down s = false;
    g_canc : canc s <> None <-> told s;
    g_armed : armed s = true <-> (sg s = SWait \/ sg s = SCancel \/ sg s = SStop);
    g_off : sg s = SOff <-> mn s = MNotify;
    g_wd : wd s = WOff <-> mn s = MNotify;
    g_time : forall t, canc s = Some t -> t <= clock s;
    g_sleep : forall d, wd s = WSleep d -> exists t, canc s = Some t /\ t + wait <= d;
    g_uclosed : uclosed s = true -> canc s <> None /\ lp s = LEnd;
    g_main : match mn s with MReturn false => False | _ => True end;
    g_loop : match mn s with MNotify | MConf | MNew => lp s = LOff | _ => True end;
    g_end : match ended s with
            | None => True
            | Some (Exit c) => c = 1
            | Some (Crash Watchdog) => exists t, canc s = Some t /\ t + wait <= clock s
            | Some (Crash ClosedSend) => canc s <> None /\ uclosed s = true
            | Some (Killed g) => sg s = SOff \/ sg s = SEnd
            end }.

  Ltac simp := cbn -[Nat.leb] in *.
  Ltac brk :=
    repeat match goal with
    | H : Some _ = Some _ |- _ => apply (f_equal (fun o => match o with Some x => x | None => serve_start end)) in H; cbn in H; subst
    | H : None = Some _ |- _ => discriminate H
    | H : option_map _ (give _ _) = Some _ |- _ => unfold give in H
    | H : option_map _ _ = Some _ |- _ => progress cbn in H
    | H : context [match ?x with _ => _ end] |- _ => destruct x eqn:?
    end.

  Lemma good_start : good serve_start.
  Proof. split; cbn; unfold told; cbn; try tauto; try (split; intros H; (congruence || (repeat destruct H as [H|H]; congruence))); try congruence. Qed.

  Ltac fin0 := cbn in *; unfold told in *; cbn in *;
    try solve [assumption | congruence | lia | tauto | intuition congruence | match goal with m : main |- _ => destruct m; (exact Logic.I || congruence) end].
  Lemma good_step s a s' : good s -> step s a = Some s' -> good s'.
  Proof.
    intros [G1 G2 G3 G4 G5 G6 G7 G8 G9 G10 GL G11] E. unfold serve_step in E. destruct (ended s) as [e|] eqn:En; [discriminate E|]. clear G11.
    destruct s as [m l t g w ar q ca uc ss dn ck an up en]. cbn in *. subst en ss dn. unfold told in *. cbn in *.
    destruct a as [ok|ok|ch| | | |sg0|d| ]; cbn in E.
    - unfold main_step in E. cbn in E. destruct m; cbn in E.
      + injection E as <-. destruct G5 as [_ G5]. specialize (G5 eq_refl). subst g. split; cbn; fin0.
      + destruct ok; injection E as <-; split; cbn; fin0.
      + destruct ok; injection E as <-; split; cbn; fin0.
      + destruct ok, now; injection E as <-; split; cbn; fin0.
      + destruct uc; [injection E as <-; split; cbn; fin0|]. destruct l; try discriminate E. injection E as <-; split; cbn; fin0.
      + discriminate E.
      + injection E as <-; split; cbn; fin0.
      + destruct ok; [discriminate E|]. injection E as <-; split; cbn; fin0.
      + destruct err; [|contradiction]. injection E as <-; split; cbn; fin0.
    - unfold loop_step, give in E. cbn in E. destruct l; cbn in E; try discriminate E.
      + destruct ca as [c|]; [|discriminate E]. injection E as <-; split; cbn; fin0; try solve [intros _; split; [discriminate | reflexivity]].
      + injection E as <-; split; cbn; fin0.
      + destruct m; try (destruct t; try discriminate E); cbn in E; injection E as <-; try destruct err; split; cbn; fin0.
      + destruct ok; injection E as <-; split; cbn; fin0.
      + destruct m; try (destruct t; try discriminate E); cbn in E; injection E as <-; split; cbn; fin0.
    - unfold timer_step in E. cbn in E. destruct t; cbn in E; try discriminate E.
      + injection E as <-; split; cbn; fin0.
      + destruct uc; [injection E as <-; split; cbn; fin0|]. destruct l, ch; injection E as <-; split; cbn; fin0.
      + destruct ch; [injection E as <-; split; cbn; fin0|]. destruct ca; [|discriminate E]. injection E as <-; split; cbn; fin0.
    - unfold sig_step in E. cbn in E. destruct g; cbn in E; try discriminate E.
      + destruct q as [|x q]; [destruct ca; [|discriminate E]|]; injection E as <-; split; cbn; fin0.
      + injection E as <-. assert (C : ca = None). { destruct ca; [|reflexivity]. exfalso. destruct G3 as [G3 _]. destruct (G3 ltac:(discriminate)); discriminate. }
        subst ca. split; cbn; fin0; try solve [split; [intros _; left; reflexivity | discriminate] | intros t0 T; injection T as <-; lia | intros d D; destruct (G8 d D) as (t0 & T & _); discriminate T].
      + injection E as <-; split; cbn; fin0. 
    - unfold watch_step in E. cbn in E. destruct w; try discriminate E.
      + destruct ca as [c|]; [|discriminate E]. injection E as <-; split; cbn; fin0. intros d D. injection D as <-. exists c. specialize (G7 c eq_refl). split; [reflexivity | lia].
      + destruct (d <=? ck) eqn:D; [|discriminate E]. apply Nat.leb_le in D. injection E as <-; split; cbn; fin0. destruct (G8 d eq_refl) as (t0 & T & L). exists t0. split; [exact T | lia].
    - discriminate E.
    - destruct ar.
      + match type of E with context [if ?b then _ else _] => destruct b end; injection E as <-; split; cbn; fin0.
      + injection E as <-; split; cbn; fin0. destruct g; auto; exfalso; destruct G4 as [_ G4]; assert (F : false = true) by (apply G4; auto); discriminate F.
    - injection E as <-; split; cbn; fin0. intros t0 T. specialize (G7 t0 T). lia.
    - destruct m; try discriminate E. injection E as <-; split; cbn; fin0.
  Qed.
  Lemma good_run l : good (state l).
  Proof. apply run_inv; [exact good_step | exact good_start]. Qed.

  (** ** Where things come from *)
  Lemma run_hist (I : list action -> srv -> Prop) : I [] serve_start -> (forall l s a, I l s -> step s a = None -> I (l ++ [a]) s) ->
    (forall l s a s', I l s -> step s a = Some s' -> I (l ++ [a]) s') -> forall l, I l (state l).
  Proof.
    intros H0 H1 H2 l. induction l as [|a l IH] using rev_ind; [exact H0|]. rewrite run_app. cbn. unfold do.
    destruct (step (run step serve_start l) a) as [s'|] eqn:E; [exact (H2 _ _ _ _ IH E) | exact (H1 _ _ _ IH E)].
  Qed.
  Definition bad_call (l : list action) : Prop := In (AMain false) l \/ now = true /\ In (ALoop false) l.
  Definition signalled (l : list action) : Prop := exists g, In (ASignal g) l.
  Record hist (l : list action) (s : srv) : Prop := {
    h_canc : canc s <> None -> signalled l;
    h_sig : sg s = SCancel -> signalled l;
    h_queue : queue s <> [] -> signalled l;
    h_killed : forall g, ended s = Some (Killed g) -> In (ASignal g) l;
    h_now : mn s = MSend \/ mn s = MWait -> now = true;
    h_wait : mn s = MWait -> lp s = LWork \/ exists e, lp s = LSend1 e;
    h_send : lp s = LSend1 true -> In (ALoop false) l;
    h_ret : forall e, mn s = MReturn e -> e = true -> bad_call l;
    h_exit : forall c, ended s = Some (Exit c) -> mn s = MReturn true \/ mn s = MReturn false;
    h_upd : lp s = LSend1 false -> In true (updates s);
    h_ready : now = true -> mn s = MSchedule \/ mn s = MListen \/ answered s <> [] -> In true (updates s) }.

  Lemma signalled_snoc l a : signalled l -> signalled (l ++ [a]).
  Proof. intros (g & H). exists g. apply in_or_app. auto. Qed.
  Lemma bad_snoc l a : bad_call l -> bad_call (l ++ [a]).
  Proof. intros [H|[N H]]; [left | right; split; [exact N|]]; apply in_or_app; auto. Qed.
  Lemma hist_more l s a : hist l s -> hist (l ++ [a]) s.
  Proof.
    intros [H1 H2 H3 H4 H5 H6 H7 H8 H9 H10 H11]. split; auto using signalled_snoc.
    - intros g G. apply in_or_app. left. exact (H4 g G).
    - intros G. apply in_or_app. left. exact (H7 G).
    - intros e E1 E2. apply bad_snoc. exact (H8 e E1 E2).
  Qed.
  Lemma hist_start : hist [] serve_start.
  Proof. split; cbn; try congruence; try (intros [H|H]; discriminate H); try (intros _ [H|[H|H]]; congruence). Qed.

End Serve.
