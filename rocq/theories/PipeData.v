(** Proofs about the data in the linear pipeline. *)
From Verif Require Import Base BaseLemmas SysModel SysProofs UtilModel UtilMisc PipeModel PipeSpec LexProofs PipeProofs.

Ltac at_idx j k := destruct (Nat.eqb_spec j k) as [?|?]; [subst|].

Section Data.
  Context {D : Type}.
  Variable tick : D.
  Variable bs : nat -> @behaviour D.
  Notation stage := (@stage D).
  Notation pipe := (@pipe D).
  Notation step := (pipe_step tick bs).
  Notation trans := (trans tick bs).
  Notation local := (local bs).

  Lemma images_from_app (b : @behaviour D) h : forall pre h', images_from b pre (h ++ h') = images_from b pre h ++ images_from b (pre ++ h) h'.
  Proof.
    induction h as [|x h IH]; intros pre h'; cbn [images_from app]; [rewrite app_nil_r; reflexivity|].
    rewrite IH, <- !app_assoc. cbn [app]. reflexivity.
  Qed.
  Lemma images_snoc (b : @behaviour D) h x : images b (h ++ [x]) = images b h ++ outs_of b (h ++ [x]).
  Proof. unfold images. rewrite images_from_app. cbn. rewrite app_nil_r. reflexivity. Qed.

  Definition full (b : @behaviour D) (s : stage) : list D := images b (rcvd s) ++ (if ended s then last_outs b (rcvd s) else []).

  Definition small (b : @behaviour D) (outs : list D) (more : list (list D * ret)) : Prop :=
    how b = MSeq \/ (length outs <= 1 /\ forall o, In o more -> length (fst o) <= 1).

  Definition data_ok (b : @behaviour D) (s : stage) : Prop :=
    match pc s with
    | Recv => ended s = false /\ sent s = full b s
    | Send outs st more brk false =>
        sent s ++ outs ++ (if st && negb brk then stream_outs more else []) = full b s /\ (ended s = true -> brk = true) /\ small b outs more
    | _ => exists rest, full b s = sent s ++ rest
    end.

  (** Effects of the single moves on the data. *)
  Lemma receive_rcvd b (s : stage) x : rcvd (receive b s x) = rcvd s ++ [x].
  Proof. unfold receive. destruct (proc b (rcvd s ++ [x])) as [o []]; reflexivity. Qed.
  Lemma receive_sent b (s : stage) x : sent (receive b s x) = sent s.
  Proof. unfold receive. destruct (proc b (rcvd s ++ [x])) as [o []]; reflexivity. Qed.
  Lemma receive_ended b (s : stage) x : ended (receive b s x) = false.
  Proof. unfold receive. destruct (proc b (rcvd s ++ [x])) as [o []]; reflexivity. Qed.
  Lemma see_end_rcvd b (s : stage) : rcvd (see_end b s) = rcvd s.
  Proof. unfold see_end. destruct (nomore b (rcvd s)) as [o []]; reflexivity. Qed.
  Lemma see_end_sent b (s : stage) : sent (see_end b s) = sent s.
  Proof. unfold see_end. destruct (nomore b (rcvd s)) as [o []]; reflexivity. Qed.
  Lemma hear_data b (s : stage) i e t : hear b s i e = Some t -> rcvd t = rcvd s /\ sent t = sent s /\ ended t = ended s.
  Proof.
    unfold hear. intros H. destruct (pc s) as [|outs st more brk serr| | |]; try discriminate H.
    - injection H as <-. auto.
    - destruct (can_send (how b) i && (i <? length outs)); [|discriminate H]. injection H as <-. auto.
    - injection H as <-. auto.
  Qed.
  Lemma go_data (s t : stage) : go_on s = Some t -> rcvd t = rcvd s /\ sent t = sent s /\ ended t = ended s.
  Proof.
    unfold go_on. intros H. destruct (pc s) as [|[|x outs] st more brk serr| | |]; try discriminate H.
    destruct (brk || serr); [injection H as <-; auto|]. destruct st; [destruct more as [|[o r] more]|]; injection H as <-; auto.
  Qed.
  Lemma go_no_serr (s t : stage) o st m br : go_on s = Some t -> pc t <> Send o st m br true.
  Proof.
    unfold go_on. intros H. destruct (pc s) as [|[|x outs] st1 more brk serr| | |]; try discriminate H.
    destruct (brk || serr) eqn:E; [injection H as <-; discriminate|]. apply orb_false_iff in E as [-> ->].
    destruct st1; [destruct more as [|[o1 r] more]|]; injection H as <-; discriminate.
  Qed.
  Lemma did_send_data b (s : stage) i x : offer b s i = Some x ->
    rcvd (did_send s i x) = rcvd s /\ sent (did_send s i x) = sent s ++ [x] /\ ended (did_send s i x) = ended s /\ found (did_send s i x) = found s.
  Proof. intros H. destruct (offer_send _ _ _ _ H) as (outs & st & more & brk & serr & _ & _ & _ & Eq). rewrite Eq. auto. Qed.

  Lemma nth_single {A} (l : list A) i x : length l <= 1 -> nth_error l i = Some x -> i = 0 /\ l = [x].
  Proof. destruct l as [|a [|b l]]; intros H E; [destruct i; discriminate | destruct i as [|[|i]]; cbn in E; [injection E as ->; auto|discriminate|discriminate] | cbn in H; lia]. Qed.
  Lemma small_head b outs more i x : small b outs more -> can_send (how b) i = true -> nth_error outs i = Some x -> outs = x :: remove i outs /\ small b (remove i outs) more.
  Proof.
    intros [Hs|[Hs Hm]] Hc Hn.
    - rewrite Hs in Hc. cbn in Hc. apply Nat.eqb_eq in Hc. subst. destruct outs as [|a outs]; [discriminate|]. cbn in Hn. injection Hn as ->. split; [reflexivity | left; exact Hs].
    - destruct (nth_single outs i x Hs Hn) as [-> ->]. split; [reflexivity|]. right. split; [cbn; lia | exact Hm].
  Qed.

  Lemma data_receive b (s : stage) x : orderly b -> pc s = Recv -> data_ok b s -> data_ok b (receive b s x).
  Proof.
    intros Ho Hp Hd. unfold data_ok in Hd. rewrite Hp in Hd. destruct Hd as [He Hd]. unfold full in Hd. rewrite He, app_nil_r in Hd.
    assert (Hsm : small b (fst (proc b (rcvd s ++ [x]))) (stream b (rcvd s ++ [x]))).
    { destruct Ho as [Ho|Ho]; [left; exact Ho|]. right. destruct (Ho (rcvd s ++ [x])) as (H1 & _ & H3). split; [exact H1 | exact H3]. }
    assert (Hf : images b (rcvd s ++ [x]) ++ [] = sent s ++ fst (proc b (rcvd s ++ [x])) ++ (if is_stream (snd (proc b (rcvd s ++ [x]))) then stream_outs (stream b (rcvd s ++ [x])) else [])).
    { rewrite app_nil_r, images_snoc, Hd. reflexivity. }
    unfold receive. destruct (proc b (rcvd s ++ [x])) as [o r] eqn:Er. cbn [fst snd] in Hf, Hsm.
    unfold data_ok, full. destruct r; cbn [processed pc rcvd sent ended is_stream andb negb] in *; rewrite Hf.
    - split; [reflexivity|]. split; [discriminate | exact Hsm].
    - split; [reflexivity|]. split; [discriminate | exact Hsm].
    - exists o. rewrite app_nil_r. reflexivity.
    - split; [reflexivity|]. split; [discriminate | exact Hsm].
  Qed.
  Lemma data_end b (s : stage) : orderly b -> pc s = Recv -> data_ok b s -> data_ok b (see_end b s).
  Proof.
    intros Ho Hp Hd. unfold data_ok in Hd. rewrite Hp in Hd. destruct Hd as [He Hd]. unfold full in Hd. rewrite He, app_nil_r in Hd.
    assert (Hsm : small b (fst (nomore b (rcvd s))) (stream b (rcvd s))).
    { destruct Ho as [Ho|Ho]; [left; exact Ho|]. right. destruct (Ho (rcvd s)) as (_ & H2 & H3). split; [exact H2 | exact H3]. }
    assert (Hf : images b (rcvd s) ++ last_outs b (rcvd s) = sent s ++ fst (nomore b (rcvd s))) by (rewrite Hd; reflexivity).
    unfold see_end. destruct (nomore b (rcvd s)) as [o r] eqn:Er. cbn [fst] in Hf, Hsm.
    unfold data_ok, full. destruct r; cbn [processed pc rcvd sent ended andb negb] in *; rewrite Hf, ?app_nil_r.
    - split; [reflexivity|]. split; [reflexivity | exact Hsm].
    - split; [reflexivity|]. split; [reflexivity | exact Hsm].
    - exists o. reflexivity.
    - split; [reflexivity|]. split; [reflexivity | exact Hsm].
  Qed.
  Lemma data_prefix b (s : stage) : data_ok b s -> exists rest, full b s = sent s ++ rest.
  Proof.
    unfold data_ok. destruct (pc s) as [|outs st more brk [|]| | |]; auto.
    - intros [_ ->]. exists []. rewrite app_nil_r. reflexivity.
    - intros [<- _]. eexists. reflexivity.
  Qed.
  Lemma data_send b (s : stage) i x : offer b s i = Some x -> (forall o st m br, pc s <> Send o st m br true) -> data_ok b s -> data_ok b (did_send s i x).
  Proof.
    intros H Hs Hd. destruct (offer_send _ _ _ _ H) as (outs & st & more & brk & serr & E & Hc & Hn & Eq). rewrite Eq. unfold data_ok in *. rewrite E in Hd. cbn [pc].
    destruct serr; [exfalso; exact (Hs _ _ _ _ E)|]. destruct Hd as (H1 & H2 & H3). destruct (small_head _ _ _ _ _ H3 Hc Hn) as [Ho Hsm].
    unfold full. cbn [rcvd sent ended]. split; [|split; [exact H2 | exact Hsm]]. rewrite Ho in H1. rewrite <- app_assoc. exact H1.
  Qed.
  Lemma data_hear b (s : stage) i e t : hear b s i e = Some t -> data_ok b s -> data_ok b t.
  Proof.
    intros H Hd. destruct (hear_data b s i e t H) as (E1 & E2 & E3). apply data_prefix in Hd. destruct Hd as [rest Hd].
    assert (K : exists rest, full b t = sent t ++ rest) by (exists rest; unfold full in *; rewrite E1, E2, E3; exact Hd).
    unfold hear in H. unfold data_ok. destruct (pc s) as [|outs st more brk serr| | |]; try discriminate H.
    - injection H as <-. exact K.
    - destruct (can_send (how b) i && (i <? length outs)); [|discriminate H]. injection H as <-. exact K.
    - injection H as <-. cbn [pc with_pc] in *. destruct (coalesce (found s) e); exact K.
  Qed.
  Lemma data_go b (s t : stage) : go_on s = Some t -> data_ok b s -> data_ok b t.
  Proof.
    intros H Hd. pose proof (data_prefix b s Hd) as Hp. unfold go_on in H. unfold data_ok in *. destruct (pc s) as [|[|x outs] st more brk serr| | |] eqn:E; try discriminate H.
    destruct (brk || serr) eqn:Eb; [injection H as <-; exact Hp|]. apply orb_false_iff in Eb as [-> ->]. destruct Hd as (H1 & H2 & H3).
    assert (He : ended s = false) by (destruct (ended s); [specialize (H2 eq_refl); discriminate | reflexivity]).
    destruct st; [destruct more as [|[o r] more]|]; injection H as <-; cbn [pc with_pc]; unfold full in *; cbn [rcvd sent ended with_pc] in *; cbn [app andb negb] in *.
    - split; [exact H1|]. split; [exact H2 | exact H3].
    - split; [|split; [exact H2|]].
      + cbn [stream_outs] in H1. destruct (is_stream r); exact H1.
      + destruct H3 as [H3|[_ H3]]; [left; exact H3|]. right. split; [exact (H3 (o, r) (or_introl eq_refl)) | intros o' Ho'; exact (H3 o' (or_intror Ho'))].
    - split; [exact He|]. rewrite app_nil_r in H1. exact H1.
  Qed.

  (** ** What holds in every run: neighbours agree, and a stage that ran into an error has nobody behind it. *)
  Record dinv (n : nat) (p : pipe) : Prop := {
    d_link : forall k s s', get p k = Some s -> get p (S k) = Some s' -> rcvd s' = sent s;
    d_end : forall k s s', get p k = Some s -> get p (S k) = Some s' -> ended s' = true -> closed_out s = true;
    d_serr : forall k s o st m br, get p k = Some s -> pc s = Send o st m br true ->
               match get p (S k) with Some s' => pc s' = Done | None => drained p = true end;
    d_data : forall k s, get p k = Some s -> orderly (bs k) -> data_ok (bs k) s }.

  Lemma dinv_start n : dinv n (pipe_start n).
  Proof.
    assert (G : forall k s, get (pipe_start n) k = Some s -> s = @stage_start D).
    { intros k s H. unfold get in H. cbn [stages pipe_start] in H. apply nth_error_In in H. apply repeat_spec in H. exact H. }
    split.
    - intros k s s' H H'. apply G in H, H'. subst. reflexivity.
    - intros k s s' H H'. apply G in H, H'. subst. discriminate.
    - intros k s o st m br H. apply G in H. subst. discriminate.
    - intros k s H _. apply G in H. subst. unfold data_ok. cbn. auto.
  Qed.

  (** What the local moves do to the data. *)
  Lemma local_rcvd k (s s' : stage) : local k s s' -> (exists x, pc s = Recv /\ s' = receive (bs k) s x) \/ rcvd s' = rcvd s.
  Proof.
    intros [s0 x H|s0 i x H|s0 H|s0 i e t H|s0 t H|s0 e H].
    - left. exists x. auto.
    - right. apply (did_send_data _ _ _ _ H).
    - right. apply see_end_rcvd.
    - right. apply (hear_data _ _ _ _ _ H).
    - right. apply (go_data _ _ H).
    - right. reflexivity.
  Qed.

  Lemma dinv_step n p a p' : pinv n p -> dinv n p -> step p a = Some p' -> dinv n p'.
  Proof.
    intros HP [D1 D2 D3 D4] H. apply step_trans in H.
    assert (Hlink : forall k s s', get p' k = Some s -> get p' (S k) = Some s' -> rcvd s' = sent s).
    { intros j a' b' Ha Hb. unfold get in Ha, Hb. destruct H as [s H H0 H1|k i s s' x H H0 H1 H2|k i s x H H0 H1 H2|k s s' H H0 H1 H2|k i s s' e t H H0 H1 H2|k i s t H H0 H1 H2|k s t H H0|k s H H0 H1 H2|s e H H0 H1|e H H0]; cbn [stages with_stages] in Ha, Hb.
      - rewrite (get_set1 p 0 s _ H0) in Ha, Hb. change (S j =? 0) with false in Hb. at_idx j 0.
        + injection Ha as <-. rewrite receive_sent. exact (D1 0 s b' H0 Hb).
        + exact (D1 j a' b' Ha Hb).
      - rewrite (get_set2' p k s s' _ _ H H1) in Ha, Hb. destruct (did_send_data _ _ _ _ H0) as (E1 & E2 & _).
        at_idx j k.
        + at_idx (S k) k; [lia|]. rewrite Nat.eqb_refl in Hb. injection Ha as <-. injection Hb as <-. rewrite receive_rcvd, E2. f_equal. exact (D1 k s s' H H1).
        + at_idx j (S k).
          * at_idx (S (S k)) k; [lia|]. at_idx (S (S k)) (S k); [lia|]. injection Ha as <-. rewrite receive_sent. exact (D1 (S k) s' b' H1 Hb).
          * at_idx (S j) k.
            -- injection Hb as <-. rewrite E1. exact (D1 j a' s Ha H).
            -- at_idx (S j) (S k); [lia|]. exact (D1 j a' b' Ha Hb).
      - rewrite (get_set1 p k s _ H) in Ha, Hb. destruct (did_send_data _ _ _ _ H0) as (E1 & E2 & _). at_idx j k.
        + at_idx (S k) k; [lia|]. congruence.
        + at_idx (S j) k; [injection Hb as <-; rewrite E1; exact (D1 j a' s Ha H) | exact (D1 j a' b' Ha Hb)].
      - rewrite (get_set1 p (S k) s _ H0) in Ha, Hb. at_idx j (S k).
        + at_idx (S (S k)) (S k); [lia|]. injection Ha as <-. rewrite see_end_sent. exact (D1 (S k) s b' H0 Hb).
        + at_idx (S j) (S k); [|exact (D1 j a' b' Ha Hb)]. injection Hb as <-. assert (j = k) by lia. subst. rewrite see_end_rcvd. exact (D1 k a' s Ha H0).
      - rewrite (get_set2 p k s s' _ _ H H0) in Ha, Hb. destruct (hear_data _ _ _ _ _ H2) as (E1 & E2 & _). at_idx j k.
        + at_idx (S k) k; [lia|]. rewrite Nat.eqb_refl in Hb. injection Ha as <-. injection Hb as <-. rewrite E2. exact (D1 k s s' H H0).
        + at_idx j (S k).
          * at_idx (S (S k)) k; [lia|]. at_idx (S (S k)) (S k); [lia|]. injection Ha as <-. exact (D1 (S k) s' b' H0 Hb).
          * at_idx (S j) k.
            -- injection Hb as <-. rewrite E1. exact (D1 j a' s Ha H).
            -- at_idx (S j) (S k); [lia|]. exact (D1 j a' b' Ha Hb).
      - rewrite (get_set1 p k s _ H) in Ha, Hb. destruct (hear_data _ _ _ _ _ H2) as (E1 & E2 & _). at_idx j k.
        + at_idx (S k) k; [lia|]. congruence.
        + at_idx (S j) k; [injection Hb as <-; rewrite E1; exact (D1 j a' s Ha H) | exact (D1 j a' b' Ha Hb)].
      - rewrite (get_set1 p k s _ H) in Ha, Hb. destruct (go_data _ _ H0) as (E1 & E2 & _). at_idx j k.
        + at_idx (S k) k; [lia|]. injection Ha as <-. rewrite E2. exact (D1 k s b' H Hb).
        + at_idx (S j) k; [injection Hb as <-; rewrite E1; exact (D1 j a' s Ha H) | exact (D1 j a' b' Ha Hb)].
      - exact (D1 j a' b' Ha Hb).
      - rewrite (get_set1 p 0 s _ H0) in Ha, Hb. change (S j =? 0) with false in Hb. at_idx j 0.
        + injection Ha as <-. exact (D1 0 s b' H0 Hb).
        + exact (D1 j a' b' Ha Hb).
      - exact (D1 j a' b' Ha Hb). }
    split.
    - exact Hlink.
    - (* ended only when the stage before has closed, and that stays so *)
      intros j a' b' Ha Hb He.
      assert (Hc : forall s0, get p j = Some s0 -> closed_out s0 = true -> closed_out a' = true).
      { intros s0 Hs0 Hcl. destruct (trans_local tick bs p p' H j a' Ha) as [G|(s1 & G & L)]; [congruence|]. apply (local_closed bs _ _ _ L). congruence. }
      assert (exists s0, get p j = Some s0) as [s0 Hs0].
      { destruct (trans_local tick bs p p' H j a' Ha) as [G|(s1 & G & L)]; eauto. }
      destruct (trans_local tick bs p p' H (S j) b' Hb) as [G|(s1 & G & L)]; [exact (Hc s0 Hs0 (D2 j s0 b' Hs0 G He))|].
      destruct (ended s1) eqn:E1; [exact (Hc s0 Hs0 (D2 j s0 s1 Hs0 G E1))|].
      (* only seeing the end sets it *)
      unfold get in Hb. destruct H as [s H H0 H1|k i s s' x H H0 H1 H2|k i s x H H0 H1 H2|k s s' H H0 H1 H2|k i s s' e t H H0 H1 H2|k i s t H H0 H1 H2|k s t H H0|k s H H0 H1 H2|s e H H0 H1|e H H0]; cbn [stages with_stages] in Hb.
      + rewrite (get_set1 p 0 s _ H0) in Hb. cbn [Nat.eqb] in Hb. congruence.
      + rewrite (get_set2' p k s s' _ _ H H1) in Hb. destruct (did_send_data _ _ _ _ H0) as (_ & _ & E3 & _). at_idx (S j) k; [injection Hb as <-; congruence|].
        at_idx (S j) (S k); [|congruence]. injection Hb as <-. rewrite receive_ended in He. discriminate He.
      + rewrite (get_set1 p k s _ H) in Hb. destruct (did_send_data _ _ _ _ H0) as (_ & _ & E3 & _). at_idx (S j) k; [injection Hb as <-; congruence | congruence].
      + rewrite (get_set1 p (S k) s _ H0) in Hb. at_idx (S j) (S k); [|congruence]. assert (j = k) by lia. subst. apply (Hc s0 Hs0). congruence.
      + rewrite (get_set2 p k s s' _ _ H H0) in Hb. destruct (hear_data _ _ _ _ _ H2) as (_ & _ & E3). at_idx (S j) k; [injection Hb as <-; congruence|].
        at_idx (S j) (S k); [|congruence]. injection Hb as <-. cbn in He. congruence.
      + rewrite (get_set1 p k s _ H) in Hb. destruct (hear_data _ _ _ _ _ H2) as (_ & _ & E3). at_idx (S j) k; [injection Hb as <-; congruence | congruence].
      + rewrite (get_set1 p k s _ H) in Hb. destruct (go_data _ _ H0) as (_ & _ & E3). at_idx (S j) k; [injection Hb as <-; congruence | congruence].
      + unfold get in G. congruence.
      + rewrite (get_set1 p 0 s _ H0) in Hb. cbn [Nat.eqb] in Hb. congruence.
      + unfold get in G. congruence.
    - intros j a' o st m br Ha Hp.
      assert (Keep : forall s0, get p j = Some s0 -> (exists o st m br, pc s0 = Send o st m br true) ->
                match get p' (S j) with Some s' => pc s' = Done | None => drained p' = true end).
      { intros s0 Hs0 (o' & st' & m' & br' & Hp0). specialize (D3 j s0 o' st' m' br' Hs0 Hp0).
        destruct (get p' (S j)) as [s'|] eqn:E.
        - destruct (trans_local tick bs p p' H (S j) s' E) as [G|(s1 & G & L)]; rewrite G in D3; [exact D3|]. apply (local_over bs _ _ _ L). apply done_over. exact D3.
        - assert (get p (S j) = None).
          { apply nth_error_None in E. apply nth_error_None. rewrite <- (trans_length tick bs p p' H). exact E. }
          rewrite H0 in D3. exact (drained_mono tick bs p p' H D3). }
      destruct (trans_local tick bs p p' H j a' Ha) as [G|(s1 & G & L)]; [apply (Keep a' G); eauto|].
      destruct (pc s1) as [|o1 st1 m1 br1 [|]| | |] eqn:E1; try (apply (Keep s1 G); eauto; fail).
      all: unfold get in Ha; pose proof H as HT; destruct H as [s H H0 H1|k i s s' x H H0 H1 H2|k i s x H H0 H1 H2|k s s' H H0 H1 H2|k i s s' e9 t9 H H0 H1 H2|k i s t9 H H0 H1 H2|k s t9 H H0|k s H H0 H1 H2|s e9 H H0 H1|e9 H H0]; cbn [stages with_stages] in Ha.
      all: try (unfold get in G; congruence).
      all: try (rewrite (get_set1 p 0 s _ H0) in Ha; at_idx j 0; [|congruence]; injection Ha as <-; unfold finished, receive in Hp; cbn in Hp; destruct (proc (bs 0) (rcvd s ++ [tick])) as [? []]; cbn in Hp; discriminate Hp).
      all: try (rewrite (get_set2' p k s s' _ _ H H1) in Ha; at_idx j k;
          [injection Ha as <-; destruct (offer_send _ _ _ _ H0) as (o2 & st2 & m2 & b2 & se2 & F1 & _ & _ & F2); rewrite F2 in Hp; cbn in Hp; congruence|];
          at_idx j (S k); [|congruence]; injection Ha as <-; unfold receive in Hp; destruct (proc (bs (S k)) (rcvd s' ++ [x])) as [? []]; cbn in Hp; discriminate Hp).
      all: try (rewrite (get_set1 p k s _ H) in Ha; at_idx j k; [|congruence]; injection Ha as <-;
          destruct (offer_send _ _ _ _ H0) as (o2 & st2 & m2 & b2 & se2 & F1 & _ & _ & F2); rewrite F2 in Hp; cbn in Hp; congruence).
      all: try (rewrite (get_set1 p (S k) s _ H0) in Ha; at_idx j (S k); [|congruence]; injection Ha as <-; unfold see_end in Hp; destruct (nomore (bs (S k)) (rcvd s)) as [? []]; cbn in Hp; discriminate Hp).
      all: try (rewrite (get_set1 p k s _ H) in Ha; at_idx j k; [|congruence]; injection Ha as <-; exfalso; exact (go_no_serr _ _ _ _ _ _ H0 Hp)).
      all: try (rewrite (get_set2 p k s s' _ _ H H0) in Ha; at_idx j k;
          [unfold get; cbn [stages with_stages]; rewrite (get_set2 p k s s' _ _ H H0); at_idx (S k) k; [lia|]; rewrite Nat.eqb_refl; reflexivity
          |at_idx j (S k); [|congruence]; injection Ha as <-; discriminate Hp]).
      all: try (rewrite (get_set1 p k s _ H) in Ha; at_idx j k; [|congruence]; unfold get; cbn [stages with_stages drained]; rewrite (get_set1 p k s _ H); at_idx (S k) k; [lia|]; rewrite H0; exact H1).
    - intros j a' Ha Ho. destruct (trans_local tick bs p p' H j a' Ha) as [G|(s & G & L)]; [exact (D4 j a' G Ho)|]. specialize (D4 j s G Ho).
      destruct L as [s x E|s i x E|s E|s i e t E|s t E|s e E].
      + exact (data_receive _ _ _ Ho E D4).
      + apply (data_send _ _ _ _ E); [|exact D4]. intros o st m br Hs. specialize (D3 j s o st m br G Hs).
        (* the next stage must be receiving *)
        unfold get in Ha. pose proof (offer_send _ _ _ _ E) as (o1 & st1 & m1 & br1 & se1 & F1 & _ & _ & F2).
        destruct H as [s2 H H0 H1|k i2 s2 s' x2 H H0 H1 H2|k i2 s2 x2 H H0 H1 H2|k s2 s' H H0 H1 H2|k i2 s2 s' e t H H0 H1 H2|k i2 s2 t H H0 H1 H2|k s2 t H H0|k s2 H H0 H1 H2|s2 e H H0 H1|e H H0]; cbn [stages with_stages] in Ha.
        * rewrite (get_set1 p 0 s2 _ H0) in Ha. at_idx j 0; [congruence|]. rewrite G in Ha. injection Ha as Ha. pose proof (f_equal sent Ha) as X. rewrite F2 in X. cbn in X. apply (f_equal (@length D)) in X. rewrite app_length in X. cbn in X. lia.
        * rewrite (get_set2' p k s2 s' _ _ H H1) in Ha. at_idx j k; [rewrite H1 in D3; congruence|]. at_idx j (S k); [congruence|]. rewrite G in Ha. injection Ha as Ha. pose proof (f_equal sent Ha) as X. rewrite F2 in X. cbn in X. apply (f_equal (@length D)) in X. rewrite app_length in X. cbn in X. lia.
        * rewrite (get_set1 p k s2 _ H) in Ha. at_idx j k; [rewrite H1 in D3; congruence|]. rewrite G in Ha. injection Ha as Ha. pose proof (f_equal sent Ha) as X. rewrite F2 in X. cbn in X. apply (f_equal (@length D)) in X. rewrite app_length in X. cbn in X. lia.
        * rewrite (get_set1 p (S k) s2 _ H0) in Ha. at_idx j (S k); [congruence|]. rewrite G in Ha. injection Ha as Ha. pose proof (f_equal sent Ha) as X. rewrite F2 in X. cbn in X. apply (f_equal (@length D)) in X. rewrite app_length in X. cbn in X. lia.
        * rewrite (get_set2 p k s2 s' _ _ H H0) in Ha. at_idx j k; [|at_idx j (S k)].
          -- injection Ha as Ha. destruct (hear_data _ _ _ _ _ H2) as (_ & X & _). assert (s2 = s) by congruence. subst s2. rewrite Ha, F2 in X. cbn in X. apply (f_equal (@length D)) in X. rewrite app_length in X. cbn in X. lia.
          -- assert (s' = s) by congruence. subst. unfold err_of in H1. rewrite F1 in H1. discriminate.
          -- rewrite G in Ha. injection Ha as Ha. pose proof (f_equal sent Ha) as X. rewrite F2 in X. cbn in X. apply (f_equal (@length D)) in X. rewrite app_length in X. cbn in X. lia.
        * rewrite (get_set1 p k s2 _ H) in Ha. at_idx j k.
          -- injection Ha as Ha. destruct (hear_data _ _ _ _ _ H2) as (_ & X & _). assert (s2 = s) by congruence. subst s2. rewrite Ha, F2 in X. cbn in X. apply (f_equal (@length D)) in X. rewrite app_length in X. cbn in X. lia.
          -- rewrite G in Ha. injection Ha as Ha. pose proof (f_equal sent Ha) as X. rewrite F2 in X. cbn in X. apply (f_equal (@length D)) in X. rewrite app_length in X. cbn in X. lia.
        * rewrite (get_set1 p k s2 _ H) in Ha. at_idx j k.
          -- injection Ha as Ha. destruct (go_data _ _ H0) as (_ & X & _). assert (s2 = s) by congruence. subst s2. rewrite Ha, F2 in X. cbn in X. apply (f_equal (@length D)) in X. rewrite app_length in X. cbn in X. lia.
          -- rewrite G in Ha. injection Ha as Ha. pose proof (f_equal sent Ha) as X. rewrite F2 in X. cbn in X. apply (f_equal (@length D)) in X. rewrite app_length in X. cbn in X. lia.
        * unfold get in G. rewrite G in Ha. injection Ha as Ha. pose proof (f_equal sent Ha) as X. rewrite F2 in X. cbn in X. apply (f_equal (@length D)) in X. rewrite app_length in X. cbn in X. lia.
        * rewrite (get_set1 p 0 s2 _ H0) in Ha. at_idx j 0.
          -- assert (s2 = s) by congruence. subst. unfold err_of in H1. rewrite F1 in H1. discriminate.
          -- rewrite G in Ha. injection Ha as Ha. pose proof (f_equal sent Ha) as X. rewrite F2 in X. cbn in X. apply (f_equal (@length D)) in X. rewrite app_length in X. cbn in X. lia.
        * unfold get in G. rewrite G in Ha. injection Ha as Ha. pose proof (f_equal sent Ha) as X. rewrite F2 in X. cbn in X. apply (f_equal (@length D)) in X. rewrite app_length in X. cbn in X. lia.
      + exact (data_end _ _ Ho E D4).
      + exact (data_hear _ _ _ _ _ E D4).
      + exact (data_go _ _ _ E D4).
      + apply data_prefix in D4. exact D4.
  Qed.
End Data.
