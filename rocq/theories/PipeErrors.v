(** Errors in the linear pipeline reach Wait. *)
From Verif Require Import Base BaseLemmas SysModel SysProofs UtilModel UtilMisc PipeModel PipeSpec LexProofs PipeProofs PipeData.

Lemma coalesce_in a b e : In e (coalesce a b) <-> In e a \/ In e b.
Proof.
  assert (Hm : forall x, In e (messages [as_error x]) <-> In e x).
  { intros x. destruct x as [|y x]; [cbn; tauto|]. unfold messages. cbn [flat_map as_error app]. rewrite app_nil_r.
    cbn [flatten]. rewrite flat_map_concat_map, map_map. cbn [flatten]. rewrite <- flat_map_concat_map.
    rewrite in_flat_map. split; [intros (m & Hm & [<-|[]]); exact Hm | intros H; exists e; cbn; auto]. }
  assert (Hm2 : In e (messages [as_error a; as_error b]) <-> In e a \/ In e b).
  { rewrite <- (Hm a), <- (Hm b). unfold messages. cbn [flat_map]. rewrite !app_nil_r. apply in_app_iff. }
  unfold coalesce. destruct (errors_coalesce [as_error a; as_error b]) as [l|] eqn:E.
  - rewrite (proj2 (coalesce_some _ _ E) e). exact Hm2.
  - apply coalesce_none in E. rewrite E in Hm2. cbn [In] in *. exact Hm2.
Qed.

Section Errors.
  Context {D : Type}.
  Variable tick : D.
  Variable bs : nat -> @behaviour D.
  Notation stage := (@stage D).
  Notation pipe := (@pipe D).
  Notation step := (pipe_step tick bs).
  Notation local := (local bs).

  (** ** One stage *)
  Definition lone (b : @behaviour D) (outs : list D) (more : list (list D * ret)) : Prop :=
    how b = MCyc \/ (length outs <= 1 /\ forall o, In o more -> length (fst o) <= 1).
  Record stage_ok (b : @behaviour D) (s : stage) : Prop := {
    o_recv : pc s = Recv -> ended s = false /\ found s = [];
    o_send : forall o st m br se, pc s = Send o st m br se -> (br = false -> ended s = false) /\ (se = false -> found s = []) /\ (stops_at_error b -> lone b o m /\ (se = true -> o = []));
    o_raised : forall e, raised b s e -> closed_out s = true }.

  Lemma raised_receive b (s : stage) x e : raised b (receive b s x) e -> (exists h t, rcvd s = h ++ t /\ h <> [] /\ snd (proc b h) = RErr e) \/ snd (proc b (rcvd s ++ [x])) = RErr e.
  Proof.
    intros [(h & t & H1 & H2 & H3)|[H _]].
    - rewrite receive_rcvd in H1. destruct t as [|y t] using rev_ind; [rewrite app_nil_r in H1; subst; right; exact H3|].
      rewrite app_assoc in H1. apply app_inj_tail in H1 as [H1 _]. left. exists h, t. auto.
    - rewrite receive_ended in H. discriminate.
  Qed.
  Lemma same_raised b (s t : stage) e : rcvd t = rcvd s -> ended t = ended s -> raised b t e -> raised b s e.
  Proof. unfold raised. intros -> ->. auto. Qed.

  Lemma stage_ok_local k (s s' : stage) : local k s s' -> stage_ok (bs k) s -> stage_ok (bs k) s'.
  Proof.
    intros L [O1 O2 O3]. destruct L as [s x H|s i x H|s H|s i e t H|s t H|s e H].
    - destruct (O1 H) as [He Hf]. unfold receive.
      assert (Hl : stops_at_error (bs k) -> lone (bs k) (fst (proc (bs k) (rcvd s ++ [x]))) (stream (bs k) (rcvd s ++ [x]))).
      { intros [Hc|Hc]; [left; exact Hc|]. destruct (Hc (rcvd s ++ [x])) as (A & _ & B). right. auto. }
      assert (Hr : forall e, raised (bs k) (receive (bs k) s x) e -> snd (proc (bs k) (rcvd s ++ [x])) = RErr e).
      { intros e Hr. apply raised_receive in Hr as [Hr|Hr]; [|exact Hr]. exfalso. specialize (O3 e (or_introl Hr)). unfold closed_out in O3. rewrite H in O3. discriminate. }
      unfold receive in Hr. destruct (proc (bs k) (rcvd s ++ [x])) as [o r] eqn:Ep. cbn [fst snd] in *.
      split.
      + destruct r; discriminate.
      + intros o1 st m br se E. destruct r; try discriminate E; injection E as <- <- <- <- <-; cbn [ended found processed]; (split; [reflexivity|]); (split; [intros _; exact Hf|]); intros Hs; (split; [exact (Hl Hs) | discriminate]).
      + intros e Hx. specialize (Hr e Hx). subst. reflexivity.
    - destruct (offer_send _ _ _ _ H) as (outs & st & more & brk & serr & E & Hc & Hn & Eq). rewrite Eq. destruct (O2 _ _ _ _ _ E) as (A & B & C). split.
      + discriminate.
      + intros o1 st1 m1 br1 se1 E1. cbn in E1. injection E1 as <- <- <- <- <-. cbn [ended found]. split; [exact A|]. split; [exact B|]. intros Hs. destruct (C Hs) as [C1 C2].
        assert (Hlen : S (length (remove i outs)) = length outs) by (apply remove_length; apply nth_error_Some; rewrite Hn; discriminate).
        split; [destruct C1 as [C1|[C1 C3]]; [left; exact C1 | right; split; [lia | exact C3]]|]. intros ->. rewrite (C2 eq_refl) in Hlen. cbn in Hlen. lia.
      + intros e Hr. assert (raised (bs k) s e) by exact Hr. specialize (O3 e H0). unfold closed_out in O3. rewrite E in O3. discriminate.
    - destruct (O1 H) as [He Hf]. unfold see_end.
      assert (Hl : stops_at_error (bs k) -> lone (bs k) (fst (nomore (bs k) (rcvd s))) (stream (bs k) (rcvd s))).
      { intros [Hc|Hc]; [left; exact Hc|]. destruct (Hc (rcvd s)) as (_ & A & B). right. auto. }
      assert (Hr : forall e, raised (bs k) (see_end (bs k) s) e -> snd (nomore (bs k) (rcvd s)) = RErr e).
      { intros e [Hr|[_ Hr]]; rewrite see_end_rcvd in Hr; [|exact Hr]. exfalso. specialize (O3 e (or_introl Hr)). unfold closed_out in O3. rewrite H in O3. discriminate. }
      unfold see_end in Hr. destruct (nomore (bs k) (rcvd s)) as [o r] eqn:Ep. cbn [fst snd] in *.
      split.
      + destruct r; discriminate.
      + intros o1 st m br se E. destruct r; try discriminate E; injection E as <- <- <- <- <-; cbn [ended found processed]; (split; [discriminate|]); (split; [intros _; exact Hf|]); intros Hs; (split; [exact (Hl Hs) | discriminate]).
      + intros e Hx. specialize (Hr e Hx). subst. reflexivity.
    - destruct (hear_data _ _ _ _ _ H) as (E1 & E2 & E3). unfold hear in H. destruct (pc s) as [|outs st more brk serr| | |] eqn:E; try discriminate H.
      + injection H as <-. split; try discriminate. reflexivity.
      + destruct (can_send (how (bs k)) i) eqn:Ec; [|discriminate H]. destruct (i <? length outs) eqn:El; [|discriminate H]. cbn in H. injection H as <-.
        apply Nat.ltb_lt in El. destruct (O2 _ _ _ _ _ eq_refl) as (A & B & C). split; [discriminate| |].
        * intros o1 st1 m1 br1 se1 F. cbn in F. injection F as <- <- <- <- <-. cbn [ended found with_pc]. split; [exact A|]. split; [discriminate|]. intros Hs. destruct (C Hs) as [[C1|[C1 C3]] C2].
          -- rewrite C1. split; [left; exact C1 | reflexivity].
          -- pose proof (remove_length i outs El). assert (G : match how (bs k) with MCyc => [] | _ => remove i outs end = []).
             { destruct (how (bs k)); try reflexivity; apply length_zero_iff_nil; lia. }
             rewrite G. split; [right; split; [cbn; lia | exact C3] | reflexivity].
        * intros e1 Hr. apply (same_raised _ s) in Hr; [|exact E1|exact E3]. specialize (O3 e1 Hr). unfold closed_out in O3. rewrite E in O3. discriminate.
      + injection H as <-. split; cbn [pc with_pc]; [destruct (coalesce (found s) e); discriminate | destruct (coalesce (found s) e); discriminate|]. intros e1 _. unfold closed_out. cbn. destruct (coalesce (found s) e); reflexivity.
    - destruct (go_data _ _ H) as (E1 & E2 & E3). unfold go_on in H. destruct (pc s) as [|[|x outs] st more brk serr| | |] eqn:E; try discriminate H.
      destruct (O2 _ _ _ _ _ eq_refl) as (A & B & C).
      assert (Hno : forall e, raised (bs k) t e -> False).
      { intros e Hr. apply (same_raised _ s) in Hr; [|exact E1|exact E3]. specialize (O3 e Hr). unfold closed_out in O3. rewrite E in O3. discriminate. }
      destruct (brk || serr) eqn:Eb; [injection H as <-; split; try discriminate; reflexivity|]. apply orb_false_iff in Eb as [-> ->].
      destruct st; [destruct more as [|[o r] more]|]; injection H as <-; split; try discriminate; try (intros e Hr; exfalso; exact (Hno e Hr)); cbn [pc with_pc ended found].
      + intros o1 st1 m1 br1 se1 F. injection F as <- <- <- <- <-. split; [exact A|]. split; [exact B|]. intros Hs. split; [exact (proj1 (C Hs)) | discriminate].
      + intros o1 st1 m1 br1 se1 F. injection F as <- <- <- <- <-. split; [exact A|]. split; [exact B|]. intros Hs. split; [|discriminate].
        destruct (C Hs) as [[C1|[_ C3]] _]; [left; exact C1|]. right. split; [exact (C3 (o, r) (or_introl eq_refl)) | intros o' Ho'; exact (C3 o' (or_intror Ho'))].
      + intros _. split; [exact (A eq_refl) | exact (B eq_refl)].
    - split; try discriminate. reflexivity.
  Qed.

  (** ** Where an error can be *)
  Definition holds (s : stage) (e : bytes) : Prop :=
    match pc s with
    | Brk => In e (found s)
    | Send o _ _ _ true => o = [] /\ In e (found s)
    | SendErr es => In e es
    | _ => False
    end.
  Definition held (p : pipe) (e : bytes) : Prop :=
    (exists k s, get p k = Some s /\ holds s e) \/ (exists es, pump p = Telling es /\ In e es) \/ (exists es, waited p = Some es /\ In e es).

  Lemma hear_holds k (s : stage) i es t e : stops_at_error (bs k) -> stage_ok (bs k) s -> hear (bs k) s i es = Some t -> In e es -> holds t e.
  Proof.
    intros Hs Ho Hh He. pose proof (stage_ok_local k s t (L_hear bs k s i es t Hh) Ho) as [_ O2 _]. unfold hear in Hh. unfold holds. destruct (pc s) as [|outs st more brk serr| | |]; try discriminate Hh.
    - injection Hh as <-. exact He.
    - destruct (can_send (how (bs k)) i && (i <? length outs)); [|discriminate Hh]. injection Hh as <-. cbn [pc with_pc found] in *.
      split; [|exact He]. apply (O2 _ _ _ _ _ eq_refl); [exact Hs | reflexivity].
    - injection Hh as <-. cbn [pc with_pc]. assert (In e (coalesce (found s) es)) by (apply coalesce_in; right; exact He).
      destruct (coalesce (found s) es); [contradiction H | exact H].
  Qed.
  Lemma hear_keeps b (s : stage) i es t e : hear b s i es = Some t -> holds s e -> holds t e.
  Proof.
    unfold hear, holds. intros Hh He. destruct (pc s) as [|outs st more brk [|]| | |]; try contradiction; try discriminate Hh.
    - destruct He as [-> _]. cbn in Hh. destruct (can_send (how b) i); discriminate Hh.
    - injection Hh as <-. cbn [pc with_pc]. assert (In e (coalesce (found s) es)) by (apply coalesce_in; left; exact He).
      destruct (coalesce (found s) es); [contradiction H | exact H].
  Qed.
  Lemma go_keeps (s t : stage) e : go_on s = Some t -> holds s e -> holds t e.
  Proof.
    unfold go_on, holds. intros Hg He. destruct (pc s) as [|[|x outs] st more brk [|]| | |]; try contradiction; try discriminate Hg.
    rewrite orb_true_r in Hg. injection Hg as <-. exact (proj2 He).
  Qed.

  Record einv (p : pipe) : Prop := {
    e_stage : forall k s, get p k = Some s -> stage_ok (bs k) s;
    e_held : (forall k, stops_at_error (bs k)) -> forall k s e, get p k = Some s -> raised (bs k) s e -> held p e }.

  Lemma einv_start n : einv (pipe_start n).
  Proof.
    assert (G : forall k s, get (pipe_start n) k = Some s -> s = @stage_start D).
    { intros k s H. unfold get in H. cbn [stages pipe_start] in H. apply nth_error_In, repeat_spec in H. exact H. }
    assert (R : forall b e, ~ raised b (@stage_start D) e).
    { intros b e [(h & t & H1 & H2 & _)|[H _]]; [|discriminate]. cbn in H1. destruct h; [contradiction|discriminate]. }
    split.
    - intros k s H. apply G in H. subst. split; [auto | discriminate|]. intros e H. exfalso. exact (R _ _ H).
    - intros _ k s e H Hr. apply G in H. subst. exfalso. exact (R _ _ Hr).
  Qed.

  (** The moves of the other stages leave a holder alone. *)
  Lemma einv_step p a p' : einv p -> step p a = Some p' -> einv p'.
  Proof.
    intros [E1 E2] H. apply step_trans in H.
    assert (HS : forall k s, get p' k = Some s -> stage_ok (bs k) s).
    { intros k s Hk. destruct (trans_local tick bs p p' H k s Hk) as [G|(s0 & G & L)]; [exact (E1 k s G) | exact (stage_ok_local k s0 s L (E1 k s0 G))]. }
    split; [exact HS|]. intros Hall.
    (* held stays held *)
    assert (HK : forall e, held p e -> held p' e).
    { intros e [(j & s & Hj & Hh)|[(es & Hp & He)|(es & Hw & He)]].
      - destruct H as [s1 H H0 H1|k i s1 s0 x H H0 H1 H2|k i s1 x H H0 H1 H2|k s1 s0 H H0 H1 H2|k i s1 s0 es t H H0 H1 H2|k i s1 t H H0 H1 H2|k s1 t H H0|k s1 H H0 H1 H2|s1 es H H0 H1|es H H0].
        + left. exists j, s. split; [|exact Hh]. unfold get. cbn [stages with_stages]. rewrite (get_set1 p 0 s1 _ H0). at_idx j 0; [|exact Hj]. exfalso. assert (s = s1) by congruence. subst. unfold holds in Hh. rewrite H1 in Hh. exact Hh.
        + left. exists j, s. split; [|exact Hh]. unfold get. cbn [stages with_stages]. rewrite (get_set2' p k s1 s0 _ _ H H1). at_idx j k.
          * exfalso. assert (s = s1) by congruence. subst. destruct (offer_send _ _ _ _ H0) as (outs & st & more & brk & serr & F & _ & Fn & _). unfold holds in Hh. rewrite F in Hh. destruct serr; [|exact Hh]. destruct Hh as [-> _]. destruct i; discriminate Fn.
          * at_idx j (S k); [|exact Hj]. exfalso. assert (s = s0) by congruence. subst. unfold holds in Hh. rewrite H2 in Hh. exact Hh.
        + left. exists j, s. split; [|exact Hh]. unfold get. cbn [stages with_stages]. rewrite (get_set1 p k s1 _ H). at_idx j k; [|exact Hj].
          exfalso. assert (s = s1) by congruence. subst. destruct (offer_send _ _ _ _ H0) as (outs & st & more & brk & serr & F & _ & Fn & _). unfold holds in Hh. rewrite F in Hh. destruct serr; [|exact Hh]. destruct Hh as [-> _]. destruct i; discriminate Fn.
        + left. exists j, s. split; [|exact Hh]. unfold get. cbn [stages with_stages]. rewrite (get_set1 p (S k) s1 _ H0). at_idx j (S k); [|exact Hj]. exfalso. assert (s = s1) by congruence. subst. unfold holds in Hh. rewrite H1 in Hh. exact Hh.
        + left. at_idx j k.
          * exists k, t. unfold get. cbn [stages with_stages]. rewrite (get_set2 p k s1 s0 _ _ H H0), Nat.eqb_refl. split; [reflexivity|]. assert (s = s1) by congruence. subst. exact (hear_keeps _ _ _ _ _ _ H2 Hh).
          * at_idx j (S k).
            -- exists k, t. unfold get. cbn [stages with_stages]. rewrite (get_set2 p k s1 s0 _ _ H H0), Nat.eqb_refl. split; [reflexivity|]. assert (s = s0) by congruence. subst.
               unfold err_of in H1. unfold holds in Hh. destruct (pc s0) as [|o st m br [|]| |es'|] eqn:Ep; try discriminate H1; try contradiction. injection H1 as ->. exact (hear_holds k s1 i es t e (Hall k) (E1 k s1 H) H2 Hh).
            -- exists j, s. split; [|exact Hh]. unfold get. cbn [stages with_stages]. rewrite (get_set2 p k s1 s0 _ _ H H0). at_idx j k; [contradiction|]. at_idx j (S k); [contradiction | exact Hj].
        + left. at_idx j k.
          * exists k, t. unfold get. cbn [stages with_stages]. rewrite (get_set1 p k s1 _ H), Nat.eqb_refl. split; [reflexivity|]. assert (s = s1) by congruence. subst. exact (hear_keeps _ _ _ _ _ _ H2 Hh).
          * exists j, s. split; [|exact Hh]. unfold get. cbn [stages with_stages]. rewrite (get_set1 p k s1 _ H). at_idx j k; [contradiction | exact Hj].
        + left. at_idx j k.
          * exists k, t. unfold get. cbn [stages with_stages]. rewrite (get_set1 p k s1 _ H), Nat.eqb_refl. split; [reflexivity|]. assert (s = s1) by congruence. subst. exact (go_keeps _ _ _ H0 Hh).
          * exists j, s. split; [|exact Hh]. unfold get. cbn [stages with_stages]. rewrite (get_set1 p k s1 _ H). at_idx j k; [contradiction | exact Hj].
        + left. exists j, s. auto.
        + at_idx j 0.
          * right. left. assert (s = s1) by congruence. subst. unfold err_of in H1. unfold holds in Hh. destruct (pc s1) as [|o st m br [|]| |es'|] eqn:Ep; try discriminate H1; try contradiction. injection H1 as ->. exists es. cbn [pump]. split; [|exact Hh]. destruct es; [contradiction Hh | reflexivity].
          * left. exists j, s. split; [|exact Hh]. unfold get. cbn [stages]. rewrite (get_set1 p 0 s1 _ H0). at_idx j 0; [contradiction | exact Hj].
        + left. exists j, s. auto.
      - destruct H as [s1 H H0 H1|k i s1 s0 x H H0 H1 H2|k i s1 x H H0 H1 H2|k s1 s0 H H0 H1 H2|k i s1 s0 es1 t H H0 H1 H2|k i s1 t H H0 H1 H2|k s1 t H H0|k s1 H H0 H1 H2|s1 es1 H H0 H1|es1 H H0]; try (right; left; exists es; cbn [pump with_stages]; auto; fail); [congruence|].
        right. right. exists es1. cbn [waited]. split; [reflexivity|]. destruct H0 as [H0|[H0 _]]; congruence.
      - right. right. exists es. split; [|exact He]. destruct H as [s1 H H0 H1|k i s1 s0 x H H0 H1 H2|k i s1 x H H0 H1 H2|k s1 s0 H H0 H1 H2|k i s1 s0 es1 t H H0 H1 H2|k i s1 t H H0 H1 H2|k s1 t H H0|k s1 H H0 H1 H2|s1 es1 H H0 H1|es1 H H0]; cbn [waited with_stages]; auto. congruence. }
    intros k s' e Hk Hr. destruct (trans_local tick bs p p' H k s' Hk) as [G|(s & G & L)]; [exact (HK e (E2 Hall k s' e G Hr))|].
    destruct L as [s x F|s i x F|s F|s i es t F|s t F|s es F].
    - apply raised_receive in Hr. destruct Hr as [Hr|Hr]; [exact (HK e (E2 Hall k s e G (or_introl Hr)))|].
      left. exists k, (receive (bs k) s x). split; [exact Hk|]. unfold receive, holds. destruct (proc (bs k) (rcvd s ++ [x])) as [o r]. cbn [snd] in Hr. subst. cbn. auto.
    - apply HK, (E2 Hall k s e G). destruct (did_send_data _ _ _ _ F) as (A & _ & B & _). exact (same_raised _ _ _ _ A B Hr).
    - destruct Hr as [Hr|[_ Hr]]; rewrite see_end_rcvd in Hr; [exact (HK e (E2 Hall k s e G (or_introl Hr)))|].
      left. exists k, (see_end (bs k) s). split; [exact Hk|]. unfold see_end, holds. destruct (nomore (bs k) (rcvd s)) as [o r]. cbn [snd] in Hr. subst. cbn. auto.
    - apply HK, (E2 Hall k s e G). destruct (hear_data _ _ _ _ _ F) as (A & _ & B). exact (same_raised _ _ _ _ A B Hr).
    - apply HK, (E2 Hall k s e G). destruct (go_data _ _ F) as (A & _ & B). exact (same_raised _ _ _ _ A B Hr).
    - exact (HK e (E2 Hall k s e G Hr)).
  Qed.
  Lemma einv_run n l : einv (run step (pipe_start n) l).
  Proof. apply (run_inv step einv einv_step). apply einv_start. Qed.

  (** Every error that a processing function returned is in what Wait returns. *)
  Lemma errors_reach n l : 0 < n -> (forall k, stops_at_error (bs k)) -> let p := run step (pipe_start n) l in
    forall k s e es, get p k = Some s -> raised (bs k) s e -> waited p = Some es -> In e es.
  Proof.
    intros Hn Hall p k s e es Hk Hr Hw. destruct (pipe_stops tick bs n l Hn) as (Hp & _ & HD); [fold p; congruence|]. fold p in Hp, HD.
    destruct (e_held _ (einv_run n l) Hall k s e Hk Hr) as [(j & s0 & Hj & Hh)|[(es0 & Ht & _)|(es0 & Hw' & He)]].
    - fold p in Hj. unfold holds in Hh. rewrite (HD j s0 Hj) in Hh. contradiction.
    - fold p in Ht. congruence.
    - fold p in Hw'. congruence.
  Qed.

  (** ** Nothing is invented. *)
  Definition blamed (p : pipe) (e : bytes) : Prop := exists k s, get p k = Some s /\ raised (bs k) s e.
  Record vinv (p : pipe) : Prop := {
    v_e : einv p;
    v_found : forall k s e, get p k = Some s -> In e (found s) -> blamed p e;
    v_send : forall k s es e, get p k = Some s -> pc s = SendErr es -> In e es -> blamed p e;
    v_pump : forall es e, pump p = Telling es -> In e es -> blamed p e;
    v_wait : forall es e, waited p = Some es -> In e es -> blamed p e }.

  Lemma raised_local k (s s' : stage) e : local k s s' -> stage_ok (bs k) s -> raised (bs k) s e -> raised (bs k) s' e.
  Proof.
    intros L [O1 O2 O3] Hr. destruct L as [s x F|s i x F|s F|s i es t F|s t F|s es F].
    - exfalso. specialize (O3 e Hr). unfold closed_out in O3. rewrite F in O3. discriminate.
    - destruct (did_send_data _ _ _ _ F) as (A & _ & B & _). unfold raised in *. rewrite A, B. exact Hr.
    - exfalso. specialize (O3 e Hr). unfold closed_out in O3. rewrite F in O3. discriminate.
    - destruct (hear_data _ _ _ _ _ F) as (A & _ & B). unfold raised in *. rewrite A, B. exact Hr.
    - destruct (go_data _ _ F) as (A & _ & B). unfold raised in *. rewrite A, B. exact Hr.
    - exact Hr.
  Qed.
  Lemma blamed_step p p' e : einv p -> trans tick bs p p' -> blamed p e -> blamed p' e.
  Proof.
    intros HE H (k & s & Hk & Hr). destruct (get_trans_back tick bs p p' H k s Hk) as (s' & Hk' & [->|L]); [exists k, s; auto|].
    exists k, s'. split; [exact Hk' | exact (raised_local k s s' e L (e_stage _ HE k s Hk) Hr)].
  Qed.

  (** What one stage can get into its variables. *)
  Lemma local_errors k (s s' : stage) e : local k s s' -> (In e (found s') \/ exists es, pc s' = SendErr es /\ In e es) ->
    In e (found s) \/ (exists es, pc s = SendErr es /\ In e es) \/ raised (bs k) s' e \/ exists i es, hear (bs k) s i es = Some s' /\ In e es.
  Proof.
    intros L Hin. destruct L as [s x F|s i x F|s F|s i es t F|s t F|s es F].
    - assert (Hr : rcvd (receive (bs k) s x) = rcvd s ++ [x]) by apply receive_rcvd. unfold receive in *. destruct (proc (bs k) (rcvd s ++ [x])) as [o r] eqn:Ep.
      destruct r; cbn in Hin; destruct Hin as [Hin|(es & Hin & _)]; try discriminate Hin; auto. destruct Hin as [<-|[]]. right. right. left. left.
      exists (rcvd s ++ [x]), []. rewrite app_nil_r. split; [exact Hr|]. split; [destruct (rcvd s); discriminate | rewrite Ep; reflexivity].
    - destruct (offer_send _ _ _ _ F) as (outs & st & more & brk & serr & _ & _ & _ & Eq). rewrite Eq in Hin. cbn in Hin. destruct Hin as [Hin|(es & Hin & _)]; [auto | discriminate].
    - assert (Hr : rcvd (see_end (bs k) s) = rcvd s) by apply see_end_rcvd. unfold see_end in *. destruct (nomore (bs k) (rcvd s)) as [o r] eqn:Ep.
      destruct r; cbn in Hin; destruct Hin as [Hin|(es & Hin & _)]; try discriminate Hin; auto. destruct Hin as [<-|[]]. right. right. left. right. cbn. rewrite Ep. auto.
    - unfold hear in F. destruct (pc s) as [|outs st more brk serr| | |] eqn:E; try discriminate F.
      + injection F as <-. cbn in Hin. destruct Hin as [Hin|(es1 & Hin & _)]; [|discriminate]. right. right. right. exists i, es. unfold hear. rewrite E. auto.
      + destruct (can_send (how (bs k)) i && (i <? length outs)) eqn:Ec; [|discriminate F]. injection F as <-. cbn in Hin. destruct Hin as [Hin|(es1 & Hin & _)]; [|discriminate]. right. right. right. exists i, es. unfold hear. rewrite E, Ec. auto.
      + injection F as <-. cbn [found pc with_pc] in Hin. assert (Hc : In e (coalesce (found s) es)).
        { destruct Hin as [Hin|(es1 & Hp & Hin)]; [exact Hin|]. destruct (coalesce (found s) es); [discriminate|]. injection Hp as <-. exact Hin. }
        apply coalesce_in in Hc as [Hc|Hc]; [auto|]. right. right. right. exists i, es. unfold hear. rewrite E. auto.
    - unfold go_on in F. destruct (pc s) as [|[|x outs] st more brk serr| | |] eqn:E; try discriminate F.
      destruct (brk || serr); [injection F as <-; destruct Hin as [Hin|(es1 & Hin & _)]; [auto | discriminate]|].
      destruct st; [destruct more as [|[o r] more]|]; injection F as <-; (destruct Hin as [Hin|(es1 & Hin & _)]; [auto | discriminate]).
    - destruct Hin as [Hin|(es1 & Hin & _)]; [auto | discriminate].
  Qed.

  Lemma vinv_step p a p' : vinv p -> step p a = Some p' -> vinv p'.
  Proof.
    intros [VE V1 V2 V3 V4] H. pose proof (einv_step p a p' VE H) as VE'. apply step_trans in H.
    assert (HB : forall e, blamed p e -> blamed p' e) by (intros e; exact (blamed_step p p' e VE H)).
    assert (Herr : forall k s es e, get p k = Some s -> err_of s = Some es -> In e es -> blamed p e).
    { intros k s es e Hk He Hin. unfold err_of in He. destruct (pc s) eqn:E; try discriminate He; injection He as <-; [exact (V2 k s _ e Hk E Hin) | contradiction]. }
    assert (HL : forall k s' e, get p' k = Some s' -> (In e (found s') \/ exists es, pc s' = SendErr es /\ In e es) -> blamed p' e).
    { intros k s' e Hk Hin. destruct (trans_local tick bs p p' H k s' Hk) as [G|(s & G & L)].
      - apply HB. destruct Hin as [Hin|(es & Hp & Hin)]; [exact (V1 k s' e G Hin) | exact (V2 k s' es e G Hp Hin)].
      - destruct (local_errors k s s' e L Hin) as [Hi|[(es & Hp & Hi)|[Hi|(i & es & Hh & Hi)]]].
        + exact (HB e (V1 k s e G Hi)).
        + exact (HB e (V2 k s es e G Hp Hi)).
        + exists k, s'. auto.
        + (* it heard it from the next stage *)
          clear L. unfold get in Hk. destruct H as [s1 H H0 H1|j i1 s1 s0 x H H0 H1 H2|j i1 s1 x H H0 H1 H2|j s1 s0 H H0 H1 H2|j i1 s1 s0 es1 t H H0 H1 H2|j i1 s1 t H H0 H1 H2|j s1 t H H0|j s1 H H0 H1 H2|s1 es1 H H0 H1|es1 H H0]; cbn [stages with_stages] in Hk.
          all: try (apply HB; unfold get in G; assert (s = s') by congruence; subst; unfold hear in Hh; destruct Hin as [Hin|(es9 & Hp & Hin)]; [exact (V1 k s' e G Hin) | exact (V2 k s' es9 e G Hp Hin)]).
          * rewrite (get_set1 p 0 s1 _ H0) in Hk. at_idx k 0.
            -- injection Hk as <-. assert (s = s1) by congruence. subst. unfold hear in Hh. rewrite H1 in Hh. injection Hh as Hh. pose proof (f_equal rcvd Hh) as X. cbn in X. rewrite receive_rcvd in X. apply (f_equal (@length D)) in X. rewrite app_length in X. cbn in X. lia.
            -- apply HB. assert (s = s') by congruence. subst. destruct Hin as [Hin|(es9 & Hp & Hin)]; [exact (V1 k s' e G Hin) | exact (V2 k s' es9 e G Hp Hin)].
          * rewrite (get_set2' p j s1 s0 _ _ H H1) in Hk. at_idx k j; [|at_idx k (S j)].
            -- injection Hk as <-. assert (s = s1) by congruence. subst. destruct (hear_data _ _ _ _ _ Hh) as (_ & X & _). destruct (did_send_data _ _ _ _ H0) as (_ & Y & _). rewrite Y in X. apply (f_equal (@length D)) in X. rewrite app_length in X. cbn in X. lia.
            -- injection Hk as <-. assert (s = s0) by congruence. subst. destruct (hear_data _ _ _ _ _ Hh) as (X & _). rewrite receive_rcvd in X. apply (f_equal (@length D)) in X. rewrite app_length in X. cbn in X. lia.
            -- apply HB. assert (s = s') by congruence. subst. destruct Hin as [Hin|(es9 & Hp & Hin)]; [exact (V1 k s' e G Hin) | exact (V2 k s' es9 e G Hp Hin)].
          * rewrite (get_set1 p j s1 _ H) in Hk. at_idx k j.
            -- injection Hk as <-. assert (s = s1) by congruence. subst. destruct (hear_data _ _ _ _ _ Hh) as (_ & X & _). destruct (did_send_data _ _ _ _ H0) as (_ & Y & _). rewrite Y in X. apply (f_equal (@length D)) in X. rewrite app_length in X. cbn in X. lia.
            -- apply HB. assert (s = s') by congruence. subst. destruct Hin as [Hin|(es9 & Hp & Hin)]; [exact (V1 k s' e G Hin) | exact (V2 k s' es9 e G Hp Hin)].
          * rewrite (get_set1 p (S j) s1 _ H0) in Hk. at_idx k (S j).
            -- injection Hk as <-. assert (s = s1) by congruence. subst. exfalso. destruct (hear_data _ _ _ _ _ Hh) as (_ & _ & X). destruct (o_recv _ _ (e_stage _ VE _ _ G) H1) as [Y _]. rewrite Y in X. unfold see_end in X. destruct (nomore (bs (S j)) (rcvd s1)) as [o []]; discriminate X.
            -- apply HB. assert (s = s') by congruence. subst. destruct Hin as [Hin|(es9 & Hp & Hin)]; [exact (V1 k s' e G Hin) | exact (V2 k s' es9 e G Hp Hin)].
          * rewrite (get_set2 p j s1 s0 _ _ H H0) in Hk. at_idx k j; [|at_idx k (S j)].
            -- injection Hk as <-. assert (s = s1) by congruence. subst. apply HB.
               destruct (local_errors j s1 t e (L_hear bs j s1 i1 es1 t H2) Hin) as [Y|[(es9 & Hp & Y)|[Y|_]]].
               ++ exact (V1 _ _ _ G Y).
               ++ exact (V2 _ _ _ _ G Hp Y).
               ++ exists j, s1. split; [exact G|]. destruct (hear_data _ _ _ _ _ H2) as (A & _ & B). exact (same_raised _ _ _ _ A B Y).
               ++ assert (X : In e (found s1) \/ In e es1).
                  { clear - H2 Hin. unfold hear in H2. destruct (pc s1) as [|outs st more brk serr| | |]; try discriminate H2.
                    - injection H2 as <-. cbn in Hin. destruct Hin as [Hin|(es9 & Hp & _)]; [auto | discriminate].
                    - destruct (can_send (how (bs j)) i1 && (i1 <? length outs)); [|discriminate H2]. injection H2 as <-. cbn in Hin. destruct Hin as [Hin|(es9 & Hp & _)]; [auto | discriminate].
                    - injection H2 as <-. cbn [found pc with_pc] in Hin. apply coalesce_in. destruct Hin as [Hin|(es9 & Hp & Hin)]; [exact Hin|]. destruct (coalesce (found s1) es1); [discriminate|]. injection Hp as <-. exact Hin. }
                  destruct X as [X|X]; [exact (V1 _ _ _ G X) | exact (Herr _ _ _ _ H0 H1 X)].
            -- injection Hk as <-. exfalso. assert (s = s0) by congruence. subst. unfold hear in Hh. unfold err_of in H1. destruct (pc s0); discriminate.
            -- apply HB. assert (s = s') by congruence. subst. destruct Hin as [Hin|(es9 & Hp & Hin)]; [exact (V1 k s' e G Hin) | exact (V2 k s' es9 e G Hp Hin)].
          * rewrite (get_set1 p j s1 _ H) in Hk. at_idx k j.
            -- injection Hk as <-. assert (s = s1) by congruence. subst. apply HB. apply (V1 _ _ _ G).
               clear - H2 Hin. unfold hear in H2. destruct (pc s1) as [|outs st more brk serr| | |]; try discriminate H2.
               ++ injection H2 as <-. cbn in Hin. destruct Hin as [Hin|(es9 & Hp & _)]; [contradiction | discriminate].
               ++ destruct (can_send (how (bs j)) i1 && (i1 <? length outs)); [|discriminate H2]. injection H2 as <-. cbn in Hin. destruct Hin as [Hin|(es9 & Hp & _)]; [contradiction | discriminate].
               ++ injection H2 as <-. cbn [found pc with_pc] in Hin. assert (X : In e (coalesce (found s1) [])) by (destruct Hin as [Hin|(es9 & Hp & Hin)]; [exact Hin|]; destruct (coalesce (found s1) []); [discriminate|]; injection Hp as <-; exact Hin).
                  apply coalesce_in in X as [X|[]]. exact X.
            -- apply HB. assert (s = s') by congruence. subst. destruct Hin as [Hin|(es9 & Hp & Hin)]; [exact (V1 k s' e G Hin) | exact (V2 k s' es9 e G Hp Hin)].
          * rewrite (get_set1 p j s1 _ H) in Hk. at_idx k j.
            -- injection Hk as <-. assert (s = s1) by congruence. subst. apply HB. destruct (local_errors j s1 t e (L_go bs j s1 t H0) Hin) as [Y|[(es9 & Hp & Y)|[Y|_]]].
               ++ exact (V1 _ _ _ G Y).
               ++ exact (V2 _ _ _ _ G Hp Y).
               ++ exists j, s1. split; [exact G|]. destruct (go_data _ _ H0) as (A & _ & B). exact (same_raised _ _ _ _ A B Y).
               ++ unfold go_on in H0. unfold hear in Hh. destruct (pc s1) as [|[|y outs] st more brk serr| | |]; try discriminate H0. cbn in Hh. rewrite andb_false_r in Hh. discriminate Hh.
            -- apply HB. assert (s = s') by congruence. subst. destruct Hin as [Hin|(es9 & Hp & Hin)]; [exact (V1 k s' e G Hin) | exact (V2 k s' es9 e G Hp Hin)].
          * rewrite (get_set1 p 0 s1 _ H0) in Hk. at_idx k 0.
            -- injection Hk as <-. exfalso. assert (s = s1) by congruence. subst. unfold hear in Hh. unfold err_of in H1. destruct (pc s1); discriminate.
            -- apply HB. assert (s = s') by congruence. subst. destruct Hin as [Hin|(es9 & Hp & Hin)]; [exact (V1 k s' e G Hin) | exact (V2 k s' es9 e G Hp Hin)]. }
    split; [exact VE' | intros k s e Hk Hin; exact (HL k s e Hk (or_introl Hin)) | intros k s es e Hk Hp Hin; apply (HL k s e Hk); eauto | |].
    - intros es e Hp Hin. apply HB. destruct H as [s1 H H0 H1|j i1 s1 s0 x H H0 H1 H2|j i1 s1 x H H0 H1 H2|j s1 s0 H H0 H1 H2|j i1 s1 s0 es1 t H H0 H1 H2|j i1 s1 t H H0 H1 H2|j s1 t H H0|j s1 H H0 H1 H2|s1 es1 H H0 H1|es1 H H0]; cbn [pump with_stages] in Hp; try exact (V3 es e Hp Hin).
      + apply (Herr 0 s1 es1 e H0 H1). destruct es1; [discriminate Hp|]. injection Hp as <-. exact Hin.
      + discriminate Hp.
    - intros es e Hp Hin. apply HB. destruct H as [s1 H H0 H1|j i1 s1 s0 x H H0 H1 H2|j i1 s1 x H H0 H1 H2|j s1 s0 H H0 H1 H2|j i1 s1 s0 es1 t H H0 H1 H2|j i1 s1 t H H0 H1 H2|j s1 t H H0|j s1 H H0 H1 H2|s1 es1 H H0 H1|es1 H H0]; cbn [waited with_stages] in Hp; try exact (V4 es e Hp Hin).
      injection Hp as <-. destruct H0 as [H0|[_ ->]]; [exact (V3 es1 e H0 Hin) | contradiction].
  Qed.

  Lemma errors_real n l : let p := run step (pipe_start n) l in forall es e, waited p = Some es -> In e es ->
    exists k s, get p k = Some s /\ raised (bs k) s e.
  Proof.
    intros p es e. assert (HV : vinv p).
    { apply (run_inv step vinv vinv_step). split; [apply einv_start | | | discriminate | discriminate].
      - intros k s e0 H Hin. unfold get in H. cbn [stages pipe_start] in H. apply nth_error_In, repeat_spec in H. subst. contradiction.
      - intros k s es0 e0 H Hp. unfold get in H. cbn [stages pipe_start] in H. apply nth_error_In, repeat_spec in H. subst. discriminate. }
    exact (v_wait _ HV es e).
  Qed.
End Errors.
