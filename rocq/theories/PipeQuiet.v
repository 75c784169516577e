(** A linear pipeline in which nothing fails delivers everything. *)
From Verif Require Import Base BaseLemmas SysModel SysProofs UtilModel UtilMisc PipeModel PipeSpec LexProofs PipeProofs PipeData.
From Coq Require Import Permutation.

Section Quiet.
  Context {D : Type}.
  Variable tick : D.
  Variable bs : nat -> @behaviour D.
  Variable N : nat.
  Hypothesis source_ok : source_items tick (bs 0) N.
  Hypothesis others_ok : forall k, 0 < k -> never_fails (bs k).
  Notation stage := (@stage D).
  Notation pipe := (@pipe D).
  Notation step := (pipe_step tick bs).

  Lemma source_ends : match snd (proc (bs 0) (repeat tick (S N))) with RNoMore | RErr _ => True | _ => False end.
  Proof. rewrite (proj2 source_ok). exact I. Qed.

  Definition at_end (k : nat) (s : stage) : Prop := if k =? 0 then length (rcvd s) = S N else ended s = true.
  (** Up to the order, which only orderly stages keep. *)
  Definition perm_ok (b : @behaviour D) (s : stage) : Prop :=
    match pc s with
    | Recv => ended s = false /\ Permutation (sent s) (full b s)
    | Send outs st more brk false =>
        Permutation (sent s ++ outs ++ (if st && negb brk then stream_outs more else [])) (full b s) /\ (ended s = true -> brk = true)
    | _ => True
    end.
  Definition all_sent (b : @behaviour D) (s : stage) : Prop := Permutation (sent s) (full b s) /\ (orderly b -> sent s = full b s).

  Lemma remove_perm {A} (l : list A) : forall i x, nth_error l i = Some x -> Permutation l (x :: remove i l).
  Proof.
    induction l as [|y l IH]; intros [|i] x H; try discriminate H; cbn in H.
    - injection H as ->. reflexivity.
    - unfold remove. cbn [firstn skipn app]. rewrite (IH i x H) at 1. unfold remove. apply perm_swap.
  Qed.
  Lemma perm_local k (s s' : stage) : local bs k s s' -> perm_ok (bs k) s -> perm_ok (bs k) s'.
  Proof.
    intros L Hp. destruct L as [s x H|s i x H|s H|s i e t H|s t H|s e H].
    - unfold perm_ok in *. rewrite H in Hp. destruct Hp as [He Hp]. assert (Hf : full (bs k) (receive (bs k) s x) = images (bs k) (rcvd s) ++ outs_of (bs k) (rcvd s ++ [x])).
      { unfold full. rewrite receive_ended, receive_rcvd, app_nil_r, images_snoc. reflexivity. }
      unfold full in Hp. rewrite He, app_nil_r in Hp. rewrite Hf. unfold receive, outs_of. destruct (proc (bs k) (rcvd s ++ [x])) as [o r] eqn:Ep. cbn [fst snd].
      destruct r; cbn [processed pc ended sent andb negb is_stream]; auto; (split; [|discriminate || reflexivity]); rewrite ?app_nil_r; apply Permutation_app; auto.
    - destruct (offer_send _ _ _ _ H) as (outs & st & more & brk & serr & E & Hc & Hn & Eq). rewrite Eq. unfold perm_ok in *. rewrite E in Hp. cbn [pc].
      destruct serr; [exact I|]. destruct Hp as [Hp Hb]. unfold full in *. cbn [rcvd sent ended]. split; [|exact Hb]. rewrite <- Hp, <- app_assoc. apply Permutation_app_head.
      apply (Permutation_app_tail (if st && negb brk then stream_outs more else [])) with (1 := Permutation_sym (remove_perm outs i x Hn)).
    - unfold perm_ok in *. rewrite H in Hp. destruct Hp as [He Hp]. unfold full in Hp. rewrite He, app_nil_r in Hp. unfold see_end, full, last_outs. destruct (nomore (bs k) (rcvd s)) as [o r] eqn:Ep.
      destruct r; cbn [processed pc ended sent rcvd andb negb is_stream]; auto; rewrite Ep; cbn [fst]; (split; [|reflexivity]); rewrite ?andb_false_r, ?app_nil_r; apply Permutation_app; auto.
    - unfold hear in H. unfold perm_ok. destruct (pc s) as [|outs st more brk serr| | |]; try discriminate H.
      + injection H as <-. exact I.
      + destruct (can_send (how (bs k)) i && (i <? length outs)); [|discriminate H]. injection H as <-. exact I.
      + injection H as <-. cbn [pc with_pc]. destruct (coalesce (found s) e); exact I.
    - unfold go_on in H. unfold perm_ok in *. destruct (pc s) as [|[|x outs] st more brk serr| | |] eqn:E; try discriminate H.
      destruct (brk || serr) eqn:Eb; [injection H as <-; exact I|]. apply orb_false_iff in Eb as [-> ->]. destruct Hp as (H1 & H2).
      assert (He : ended s = false) by (destruct (ended s); [specialize (H2 eq_refl); discriminate | reflexivity]).
      destruct st; [destruct more as [|[o r] more]|]; injection H as <-; cbn [pc with_pc]; unfold full in *; cbn [rcvd sent ended with_pc] in *; cbn [app andb negb] in *.
      + split; [exact H1 | exact H2].
      + split; [|exact H2]. cbn [stream_outs] in H1. destruct (is_stream r); exact H1.
      + split; [exact He|]. rewrite app_nil_r in H1. exact H1.
    - exact I.
  Qed.

  (** Nothing bad has happened at a stage. *)
  Definition calm (k : nat) (s : stage) : Prop :=
    found s = [] /\
    match pc s with
    | Recv => True
    | Send _ _ _ brk serr => serr = false /\ (brk = true -> at_end k s)
    | SendErr _ => False
    | _ => at_end k s /\ all_sent (bs k) s
    end.

  Record qinv (n : nat) (p : pipe) : Prop := {
    q_p : pinv n p;
    q_s : sinv tick N p;
    q_d : dinv bs n p;
    q_perm : forall k s, get p k = Some s -> perm_ok (bs k) s;
    q_calm : forall k s, get p k = Some s -> calm k s;
    q_top : match pump p with Telling _ => False | _ => True end /\ (waited p = None \/ waited p = Some []) }.

  Lemma full_ended (b : @behaviour D) (s : stage) : data_ok b s -> forall st more brk, pc s = Send [] st more brk false -> brk = true -> sent s = full b s.
  Proof. intros H st more brk E ->. unfold data_ok in H. rewrite E in H. destruct H as [H _]. rewrite andb_false_r in H. cbn in H. rewrite app_nil_r in H. exact H. Qed.

  Lemma perm_ended (b : @behaviour D) (s : stage) : perm_ok b s -> forall st more brk, pc s = Send [] st more brk false -> brk = true -> Permutation (sent s) (full b s).
  Proof. intros H st more brk E ->. unfold perm_ok in H. rewrite E in H. destruct H as [H _]. rewrite andb_false_r in H. cbn in H. rewrite app_nil_r in H. exact H. Qed.

  Lemma coalesce_nil : coalesce [] [] = []. Proof. reflexivity. Qed.

  Lemma qinv_step n p a p' : qinv n p -> step p a = Some p' -> qinv n p'.
  Proof.
    intros [QP QS QD QM QC QT] H. pose proof (pinv_step tick bs n p a p' QP H) as QP'. pose proof (proj1 (sinv_step tick bs N source_ends p a p' QS H)) as QS'.
    pose proof (dinv_step tick bs n p a p' QP QD H) as QD'. apply step_trans in H.
    assert (QM' : forall k s, get p' k = Some s -> perm_ok (bs k) s).
    { intros k s Hk. destruct (trans_local tick bs p p' H k s Hk) as [G|(s0 & G & L)]; [exact (QM k s G) | exact (perm_local k s0 s L (QM k s0 G))]. }
    (* nobody that still works can hear anything: the next stage ends only after this one closed its output *)
    assert (Hquiet : forall k s, get p k = Some s -> closed_out s = false ->
               match get p (S k) with Some s' => err_of s' = None | None => drained p = false end).
    { intros k s Hk Hc. destruct (get p (S k)) as [s'|] eqn:Ek'.
      - pose proof (QC _ _ Ek') as [_ Hcalm]. unfold err_of. destruct (pc s') eqn:Ep; try reflexivity; [contradiction|].
        destruct Hcalm as [He _]. unfold at_end in He. cbn in He. rewrite (d_end _ _ _ QD k s s' Hk Ek' He) in Hc. discriminate.
      - destruct (drained p) eqn:Ed; [|reflexivity]. rewrite (i_drained _ _ QP Ed k s Hk) in Hc; [discriminate|].
        apply nth_error_None in Ek'. unfold get in Hk. assert (k < length (stages p)) by (apply nth_error_Some; rewrite Hk; discriminate). rewrite (i_len _ _ QP) in *. lia. }
    assert (Hhear : forall k i (s : stage) t, calm k s -> hear (bs k) s i [] = Some t -> pc s = Brk -> calm k t).
    { intros k i s t [Hf Hcl] Hh Hp. unfold hear in Hh. rewrite Hp in Hh. injection Hh as <-. unfold calm. rewrite Hp in Hcl.
      rewrite Hf, coalesce_nil. cbn. split; [reflexivity|]. exact Hcl. }
    assert (Hclosed : forall k (s : stage) i e t, hear (bs k) s i e = Some t -> closed_out s = true -> pc s = Brk).
    { intros k s i e t Hh Hc. unfold hear in Hh. unfold closed_out in Hc. destruct (pc s); try discriminate; reflexivity. }
    assert (Hrecv : forall k (s : stage) x, get p k = Some s -> pc s = Recv -> (k = 0 -> x = tick) -> calm k (receive (bs k) s x)).
    { intros k s x Hk Hp Hx. destruct (QC _ _ Hk) as [Hf _]. unfold calm, receive.
      assert (Hfine : fine (snd (proc (bs k) (rcvd s ++ [x]))) \/ k = 0 /\ snd (proc (bs k) (rcvd s ++ [x])) = RNoMore /\ length (rcvd s ++ [x]) = S N).
      { destruct k as [|k]; [|left; apply (proj1 (others_ok (S k) ltac:(lia)))]. rewrite (Hx eq_refl). rewrite (rcvd_repeat tick _ (j_ticks _ _ _ QS s Hk)).
        pose proof (j_left _ _ _ QS s Hk) as Hl. unfold reading in Hl. rewrite Hp in Hl. specialize (Hl eq_refl).
        rewrite app_length in *. cbn [length] in *. rewrite repeat_length. destruct (Nat.eq_dec (length (rcvd s)) N) as [En|En].
        - right. replace (length (rcvd s) + 1) with (S N) by lia. split; [reflexivity|]. split; [exact (proj2 source_ok) | reflexivity].
        - left. apply (proj1 source_ok). lia. }
      destruct (proc (bs k) (rcvd s ++ [x])) as [o r]. cbn [snd] in Hfine.
      destruct r; cbn [processed found pc]; (split; [exact Hf || (destruct Hfine as [[F|F]|[_ [F _]]]; discriminate F)|]).
      - split; [reflexivity | discriminate].
      - split; [reflexivity|]. intros _. destruct Hfine as [[F|F]|(-> & _ & F)]; try discriminate F. exact F.
      - destruct Hfine as [[F|F]|[_ [F _]]]; discriminate F.
      - split; [reflexivity | discriminate]. }
    assert (Hend : forall k (s : stage), 0 < k -> get p k = Some s -> pc s = Recv -> calm k (see_end (bs k) s)).
    { intros k s H0 Hk Hp. destruct (QC _ _ Hk) as [Hf _]. unfold calm, see_end, at_end. destruct (others_ok k H0) as [_ Hn]. specialize (Hn (rcvd s)).
      destruct (nomore (bs k) (rcvd s)) as [o r]. cbn [snd] in Hn. replace (k =? 0) with false by (symmetry; apply Nat.eqb_neq; lia).
      destruct r; cbn [processed found pc ended]; try (split; [exact Hf|]; split; [reflexivity|reflexivity]). exfalso. exact (Hn e eq_refl). }
    assert (Hsend : forall k (s : stage) i x, calm k s -> offer (bs k) s i = Some x -> calm k (did_send s i x)).
    { intros k s i x [Hf Hc] Ho. destruct (offer_send _ _ _ _ Ho) as (outs & st & more & brk & serr & E & _ & _ & Eq). rewrite Eq. rewrite E in Hc. unfold calm. cbn. split; [exact Hf | exact Hc]. }
    assert (Hgo : forall k (s t : stage), get p k = Some s -> go_on s = Some t -> calm k t).
    { intros k s t Hk Hg. destruct (QC _ _ Hk) as [Hf Hc]. pose proof (d_data _ _ _ QD k s Hk) as Hd. pose proof (QM k s Hk) as Hm. unfold go_on in Hg.
      destruct (pc s) as [|[|x outs] st more brk serr| | |] eqn:E; try discriminate Hg. destruct Hc as [-> Hb].
      destruct brk; cbn [orb] in Hg.
      - injection Hg as <-. unfold calm. cbn. split; [exact Hf|]. split; [exact (Hb eq_refl)|]. split; [exact (perm_ended _ _ Hm _ _ _ E eq_refl) | intros Ho; exact (full_ended _ _ (Hd Ho) _ _ _ E eq_refl)].
      - destruct st; [destruct more as [|[o r] more]|]; injection Hg as <-; unfold calm; cbn; (split; [exact Hf|]); auto; (split; [reflexivity | discriminate]). }
    assert (Hfin : forall k (s : stage) e, calm k s -> err_of s = Some e -> e = [] /\ calm k (finished s)).
    { intros k s e [Hf Hc] He. unfold err_of in He. destruct (pc s) eqn:E; try discriminate He; [contradiction|]. injection He as <-. split; [reflexivity|]. unfold calm. cbn. auto. }
    split; try assumption.
    - intros j s' Hj. unfold get in Hj. destruct H as [s H H0 H1|k i s s0 x H H0 H1 H2|k i s x H H0 H1 H2|k s s0 H H0 H1 H2|k i s s0 e t H H0 H1 H2|k i s t H H0 H1 H2|k s t H H0|k s H H0 H1 H2|s e H H0 H1|e H H0]; cbn [stages with_stages] in Hj; try exact (QC j s' Hj).
      + rewrite (get_set1 p 0 s _ H0) in Hj. at_idx j 0; [injection Hj as <-; apply Hrecv; auto | exact (QC j s' Hj)].
      + rewrite (get_set2' p k s s0 _ _ H H1) in Hj. at_idx j k; [injection Hj as <-; exact (Hsend k s i x (QC _ _ H) H0)|].
        at_idx j (S k); [injection Hj as <-; apply Hrecv; auto; discriminate | exact (QC j s' Hj)].
      + rewrite (get_set1 p k s _ H) in Hj. at_idx j k; [injection Hj as <-; exact (Hsend k s i x (QC _ _ H) H0) | exact (QC j s' Hj)].
      + rewrite (get_set1 p (S k) s _ H0) in Hj. at_idx j (S k); [injection Hj as <-; apply Hend; auto; lia | exact (QC j s' Hj)].
      + rewrite (get_set2 p k s s0 _ _ H H0) in Hj. destruct (Hfin (S k) s0 e (QC _ _ H0) H1) as [-> Hf0]. at_idx j k.
        * injection Hj as <-. apply (Hhear k i s t (QC _ _ H) H2). apply (Hclosed k s i [] t H2). destruct (closed_out s) eqn:Ec; [reflexivity|]. specialize (Hquiet k s H Ec). rewrite H0 in Hquiet. congruence.
        * at_idx j (S k); [injection Hj as <-; exact Hf0 | exact (QC j s' Hj)].
      + rewrite (get_set1 p k s _ H) in Hj. at_idx j k; [|exact (QC j s' Hj)].
        injection Hj as <-. apply (Hhear k i s t (QC _ _ H) H2). apply (Hclosed k s i [] t H2). destruct (closed_out s) eqn:Ec; [reflexivity|]. specialize (Hquiet k s H Ec). rewrite H0 in Hquiet. congruence.
      + rewrite (get_set1 p k s _ H) in Hj. at_idx j k; [injection Hj as <-; exact (Hgo k s t H H0) | exact (QC j s' Hj)].
      + rewrite (get_set1 p 0 s _ H0) in Hj. destruct (Hfin 0 s e (QC _ _ H0) H1) as [_ Hf0]. at_idx j 0; [injection Hj as <-; exact Hf0 | exact (QC j s' Hj)].
    - destruct QT as [QT1 QT2]. destruct H as [s H H0 H1|k i s s0 x H H0 H1 H2|k i s x H H0 H1 H2|k s s0 H H0 H1 H2|k i s s0 e t H H0 H1 H2|k i s t H H0 H1 H2|k s t H H0|k s H H0 H1 H2|s e H H0 H1|e H H0]; cbn [pump waited with_stages]; auto.
      + destruct (Hfin 0 s e (QC _ _ H0) H1) as [-> _]. auto.
      + split; [exact I|]. right. destruct H0 as [H0|[_ ->]]; [rewrite H0 in QT1; contradiction | reflexivity].
  Qed.

  Lemma qinv_start n : qinv n (pipe_start n).
  Proof.
    split; [apply pinv_start | apply sinv_start | apply dinv_start | | | cbn; auto].
    { intros k s H. unfold get in H. cbn [stages pipe_start] in H. apply nth_error_In, repeat_spec in H. subst. unfold perm_ok. cbn. auto. }
    intros k s H. unfold get in H. cbn [stages pipe_start] in H. apply nth_error_In, repeat_spec in H. subst. unfold calm. cbn. auto.
  Qed.
  Lemma qinv_run n l : qinv n (run step (pipe_start n) l).
  Proof. apply (run_inv step (qinv n) (qinv_step n)). apply qinv_start. Qed.

  Lemma expected_SS n k : expected tick bs n (S (S k)) = images (bs (S k)) (expected tick bs n (S k)) ++ last_outs (bs (S k)) (expected tick bs n (S k)).
  Proof. reflexivity. Qed.

  (** When Wait returns, there is no error, and every stage has sent exactly the outputs for what it received, in order if it is
      orderly. *)
  Lemma quiet_exactly_once n l : 0 < n -> let p := run step (pipe_start n) l in waited p <> None ->
    waited p = Some [] /\
    (forall s, get p 0 = Some s -> rcvd s = repeat tick (S N) /\ Permutation (sent s) (images (bs 0) (rcvd s)) /\ (orderly (bs 0) -> sent s = images (bs 0) (rcvd s))) /\
    (forall k s, 0 < k -> get p k = Some s -> Permutation (sent s) (images (bs k) (rcvd s) ++ last_outs (bs k) (rcvd s)) /\
                                      (orderly (bs k) -> sent s = images (bs k) (rcvd s) ++ last_outs (bs k) (rcvd s))) /\
    (forall k s s', get p k = Some s -> get p (S k) = Some s' -> rcvd s' = sent s).
  Proof.
    intros Hn p Hw. pose proof (qinv_run n l) as HQ. fold p in HQ. clearbody p. destruct HQ as [QP QS QD QM QC [_ QT]].
    destruct (waited_over n p Hn QP Hw) as (_ & _ & HD). split; [destruct QT; [contradiction | assumption]|].
    split; [|split; [|exact (d_link _ _ _ QD)]].
    - intros s Hs. pose proof (QC 0 s Hs) as [_ Hc]. rewrite (HD 0 s Hs) in Hc. destruct Hc as [Hl Hf]. unfold at_end in Hl. cbn in Hl.
      split; [rewrite (j_ticks _ _ _ QS s Hs), Hl; reflexivity|]. unfold all_sent, full in Hf. rewrite (j_ended _ _ _ QS s Hs), app_nil_r in Hf. exact Hf.
    - intros k s Hk Hs. pose proof (QC k s Hs) as [_ Hc]. rewrite (HD k s Hs) in Hc. destruct Hc as [He Hf]. unfold at_end in He. destruct k; [lia|]. cbn in He.
      unfold all_sent, full in Hf. rewrite He in Hf. exact Hf.
  Qed.

  (** If all stages are orderly: every stage received exactly what it had to, and sent it on. *)
  Lemma quiet_delivers n l : (forall k, orderly (bs k)) -> 0 < n -> let p := run step (pipe_start n) l in waited p <> None ->
    waited p = Some [] /\ forall k s, get p k = Some s -> rcvd s = expected tick bs N k /\ sent s = expected tick bs N (S k).
  Proof.
    intros Ho Hn p Hw. destruct (quiet_exactly_once n l Hn Hw) as (H1 & H2 & H3 & H4). fold p in H1, H2, H3, H4. split; [exact H1|].
    induction k as [|k IH]; intros s Hs.
    - destruct (H2 s Hs) as (Hr & _ & Hf). split; [exact Hr|]. rewrite (Hf (Ho 0)), Hr. reflexivity.
    - destruct (get p k) as [s0|] eqn:E.
      2:{ exfalso. apply nth_error_None in E. assert (S k < length (stages p)) by (apply nth_error_Some; unfold get in Hs; rewrite Hs; discriminate). lia. }
      destruct (IH s0 eq_refl) as [_ Hsent]. pose proof (H4 k s0 s E Hs) as Hl. rewrite Hsent in Hl.
      split; [exact Hl|]. destruct (H3 (S k) s ltac:(lia) Hs) as [_ Hf]. rewrite (Hf (Ho (S k))), Hl, expected_SS. reflexivity.
  Qed.
End Quiet.
