(** General facts about the systems of SysModel. *)
From Verif Require Import Base SysModel.

Section Sys.
  Context {S A : Type}.
  Variable step : S -> A -> option S.

  Lemma run_app s l1 l2 : run step s (l1 ++ l2) = run step (run step s l1) l2.
  Proof. apply fold_left_app. Qed.
  Lemma run_cons s a l : run step s (a :: l) = run step (do step s a) l.
  Proof. reflexivity. Qed.

  (** An invariant of every step is one of every run. *)
  Lemma run_inv (I : S -> Prop) : (forall s a s', I s -> step s a = Some s' -> I s') -> forall l s, I s -> I (run step s l).
  Proof.
    intros H l. induction l as [|a l IH]; intros s Hs; [exact Hs|]. rewrite run_cons. apply IH. unfold do.
    destruct (step s a) as [s'|] eqn:E; [exact (H s a s' Hs E) | exact Hs].
  Qed.

  (** Termination: a well-founded relation along the steps from states satisfying an invariant. *)
  Section Term.
    Variable I : S -> Prop.
    Hypothesis I_step : forall s a s', I s -> step s a = Some s' -> I s'.
    Variable R : S -> S -> Prop.
    Hypothesis R_wf : well_founded R.
    Hypothesis R_step : forall s a s', I s -> step s a = Some s' -> R s' s.
    Hypothesis progress : forall s, I s -> stuck step s \/ exists a, step s a <> None.

    (** Some schedule leads to a stuck state, from every state. *)
    Lemma can_finish s : I s -> exists l, stuck step (run step s l).
    Proof.
      induction s as [s IH] using (well_founded_ind R_wf). intros Hs. destruct (progress s Hs) as [H|[a Ha]]; [exists []; exact H|].
      destruct (step s a) as [s'|] eqn:E; [|contradiction]. destruct (IH s' (R_step s a s' Hs E) (I_step s a s' Hs E)) as [l Hl].
      exists (a :: l). rewrite run_cons. unfold do. rewrite E. exact Hl.
    Qed.

    (** Every fair schedule leads to a stuck state. *)
    Lemma fair_finishes f s : I s -> fair f -> exists n, stuck step (run step s (prefix f n)).
    Proof.
      intros Hs Hf.
      assert (G : forall s, I s -> forall s0 n, run step s0 (prefix f n) = s -> exists m, stuck step (run step s0 (prefix f m))).
      2:{ exact (G s Hs s 0 eq_refl). }
      clear s Hs. intros s. induction s as [s IH] using (well_founded_ind R_wf). intros Hs s0 n En.
      destruct (progress s Hs) as [H|[a Ha]]; [exists n; rewrite En; exact H|].
      destruct (Hf n a) as (m & Hm & Em).
      assert (K : forall k, (run step s0 (prefix f (n + k)) = s) \/
                            (exists j s' b, run step s0 (prefix f j) = s' /\ step s b = Some s')).
      { induction k as [|k IHk]; [left; rewrite Nat.add_0_r; exact En|]. destruct IHk as [E|E]; [|right; exact E].
        replace (n + Datatypes.S k) with (Datatypes.S (n + k)) by lia. cbn [prefix]. rewrite run_app, E. cbn.
        unfold do. destruct (step s (f (n + k))) as [s'|] eqn:Es; [|left; reflexivity].
        right. exists (Datatypes.S (n + k)), s', (f (n + k)). split; [|exact Es]. cbn [prefix]. rewrite run_app, E. cbn. unfold do. rewrite Es. reflexivity. }
      destruct (K (m - n)) as [E|(j & s' & b & Ej & Eb)].
      - replace (n + (m - n)) with m in E by lia. destruct (step s a) as [s'|] eqn:Es; [|contradiction].
        apply (IH s' (R_step s a s' Hs Es) (I_step s a s' Hs Es) s0 (Datatypes.S m)). cbn [prefix]. rewrite run_app, E. cbn.
        unfold do. rewrite Em, Es. reflexivity.
      - exact (IH s' (R_step s b s' Hs Eb) (I_step s b s' Hs Eb) s0 j Ej).
    Qed.
  End Term.

  (** With a numeric measure: a bound on the number of steps of every schedule. *)
  Lemma effective_bound (I : S -> Prop) (mu : S -> nat) : (forall s a s', I s -> step s a = Some s' -> I s' /\ mu s' < mu s) ->
    forall l s, I s -> effective step s l <= mu s.
  Proof.
    intros H l. induction l as [|a l IH]; intros s Hs; cbn; [lia|]. destruct (step s a) as [s'|] eqn:E; [|apply IH; exact Hs].
    destruct (H s a s' Hs E) as [Hs' Hmu]. specialize (IH s' Hs'). lia.
  Qed.
End Sys.
