(** Proofs about the linear pipeline: steps, invariant of its structure, termination, no deadlock. *)
From Verif Require Import Base BaseLemmas SysModel SysProofs UtilModel UtilMisc PipeModel LexProofs.
From Coq Require Import Wellfounded.

Lemma upd_nth {A} (l : list A) k x y : nth_error l k = Some x -> forall j, nth_error (set_nth k y l) j = if j =? k then Some y else nth_error l j.
Proof.
  revert k. induction l as [|a l IH]; intros k H j; [destruct k; discriminate|]. destruct k as [|k]; destruct j as [|j]; cbn; try reflexivity.
  apply IH. exact H.
Qed.
Lemma remove_length {A} i (l : list A) : i < length l -> S (length (remove i l)) = length l.
Proof. intros H. unfold remove. rewrite app_length, firstn_length, skipn_length. lia. Qed.

Section Pipe.
  Context {D : Type}.
  Variable tick : D.
  Variable bs : nat -> @behaviour D.
  Notation stage := (@stage D).
  Notation pipe := (@pipe D).
  Notation step := (pipe_step tick bs).

  Definition get (p : pipe) (k : nat) : option stage := nth_error (stages p) k.

  (** The steps, without the case analysis. *)
  Inductive trans (p : pipe) : pipe -> Prop :=
  | T_tick s : pump p = Pumping -> get p 0 = Some s -> pc s = Recv -> trans p (with_stages p (set_nth 0 (receive (bs 0) s tick) (stages p)))
  | T_out k i s s' x : get p k = Some s -> offer (bs k) s i = Some x -> get p (S k) = Some s' -> pc s' = Recv ->
      trans p (with_stages p (set_nth (S k) (receive (bs (S k)) s' x) (set_nth k (did_send s i x) (stages p))))
  | T_out_last k i s x : get p k = Some s -> offer (bs k) s i = Some x -> get p (S k) = None -> drained p = false ->
      trans p (with_stages p (set_nth k (did_send s i x) (stages p)))
  | T_end k s s' : get p k = Some s' -> get p (S k) = Some s -> pc s = Recv -> closed_out s' = true ->
      trans p (with_stages p (set_nth (S k) (see_end (bs (S k)) s) (stages p)))
  | T_hear k i s s' e t : get p k = Some s -> get p (S k) = Some s' -> err_of s' = Some e -> hear (bs k) s i e = Some t ->
      trans p (with_stages p (set_nth k t (set_nth (S k) (finished s') (stages p))))
  | T_hear_last k i s t : get p k = Some s -> get p (S k) = None -> drained p = true -> hear (bs k) s i [] = Some t ->
      trans p (with_stages p (set_nth k t (stages p)))
  | T_go k s t : get p k = Some s -> go_on s = Some t -> trans p (with_stages p (set_nth k t (stages p)))
  | T_drain k s : get p k = Some s -> S k = length (stages p) -> closed_out s = true -> drained p = false ->
      trans p {| stages := stages p; pump := pump p; drained := true; waited := waited p |}
  | T_top s e : pump p = Pumping -> get p 0 = Some s -> err_of s = Some e ->
      trans p {| stages := set_nth 0 (finished s) (stages p); pump := match e with [] => PumpDone | _ => Telling e end;
                 drained := drained p; waited := waited p |}
  | T_wait e : waited p = None -> (pump p = Telling e \/ pump p = PumpDone /\ e = []) ->
      trans p {| stages := stages p; pump := PumpDone; drained := drained p; waited := Some e |}.

  Lemma step_trans p a p' : step p a = Some p' -> trans p p'.
  Proof.
    intros H. destruct a as [|k i|k|k i|k| | |]; cbn [pipe_step] in H.
    - destruct (pump p) eqn:Ep; try discriminate H. destruct (nth_error (stages p) 0) as [s|] eqn:E0; [|discriminate H].
      destruct (pc s) eqn:Es; try discriminate H. injection H as <-. exact (T_tick p s Ep E0 Es).
    - destruct (nth_error (stages p) k) as [s|] eqn:Ek; [|discriminate H]. destruct (offer (bs k) s i) as [x|] eqn:Eo; [|discriminate H].
      cbv zeta in H. destruct (nth_error (stages p) (S k)) as [s'|] eqn:Ek'.
      + destruct (pc s') eqn:Es; try discriminate H. injection H as <-. exact (T_out p k i s s' x Ek Eo Ek' Es).
      + destruct (drained p) eqn:Ed; [discriminate H|]. injection H as <-. exact (T_out_last p k i s x Ek Eo Ek' Ed).
    - destruct k as [|j]; [discriminate H|]. destruct (nth_error (stages p) j) as [s'|] eqn:Ej; [|discriminate H].
      destruct (nth_error (stages p) (S j)) as [s|] eqn:Ek; [|discriminate H]. destruct (pc s) eqn:Es; try discriminate H.
      destruct (closed_out s') eqn:Ec; [|discriminate H]. injection H as <-. exact (T_end p j s s' Ej Ek Es Ec).
    - destruct (nth_error (stages p) k) as [s|] eqn:Ek; [|discriminate H]. destruct (nth_error (stages p) (S k)) as [s'|] eqn:Ek'.
      + destruct (err_of s') as [e|] eqn:Ee; [|discriminate H]. destruct (hear (bs k) s i e) as [t|] eqn:Eh; [|discriminate H].
        injection H as <-. exact (T_hear p k i s s' e t Ek Ek' Ee Eh).
      + destruct (drained p) eqn:Ed; [|discriminate H]. destruct (hear (bs k) s i []) as [t|] eqn:Eh; [|discriminate H].
        injection H as <-. exact (T_hear_last p k i s t Ek Ek' Ed Eh).
    - destruct (nth_error (stages p) k) as [s|] eqn:Ek; [|discriminate H]. destruct (go_on s) as [t|] eqn:Eg; [|discriminate H].
      injection H as <-. exact (T_go p k s t Ek Eg).
    - destruct (nth_error (stages p) (pred (length (stages p)))) as [s|] eqn:Ek; [|discriminate H].
      destruct (closed_out s) eqn:Ec; [|discriminate H]. destruct (drained p) eqn:Ed; [discriminate H|]. cbn in H. injection H as <-.
      apply (T_drain p (pred (length (stages p))) s Ek); try assumption.
      assert (pred (length (stages p)) < length (stages p)) by (apply nth_error_Some; rewrite Ek; discriminate). lia.
    - destruct (pump p) eqn:Ep; try discriminate H. destruct (nth_error (stages p) 0) as [s|] eqn:E0; [|discriminate H].
      destruct (err_of s) as [e|] eqn:Ee; [|discriminate H]. injection H as <-. exact (T_top p s e Ep E0 Ee).
    - destruct (waited p) eqn:Ew; [discriminate H|]. destruct (pump p) eqn:Ep; [discriminate H| |]; injection H as <-; apply T_wait; auto.
  Qed.

  Lemma trans_length p p' : trans p p' -> length (stages p') = length (stages p).
  Proof. intros H. destruct H; cbn [stages with_stages]; rewrite ?set_nth_length; reflexivity. Qed.

  (** What a state looks like after a step, stage by stage. *)
  Lemma get_set1 p k s t : get p k = Some s -> forall j, nth_error (set_nth k t (stages p)) j = if j =? k then Some t else get p j.
  Proof. intros H j. apply (upd_nth _ _ _ _ H). Qed.
  Lemma get_set2 p k s s' t t' : get p k = Some s -> get p (S k) = Some s' -> forall j,
    nth_error (set_nth k t (set_nth (S k) t' (stages p))) j = if j =? k then Some t else if j =? S k then Some t' else get p j.
  Proof.
    intros H H' j. rewrite (upd_nth _ k s). 2:{ rewrite (upd_nth _ (S k) s' _ H'). destruct (k =? S k) eqn:E; [apply Nat.eqb_eq in E; lia | exact H]. }
    rewrite (upd_nth _ (S k) s' _ H'). reflexivity.
  Qed.
  Lemma get_set2' p k s s' t t' : get p k = Some s -> get p (S k) = Some s' -> forall j,
    nth_error (set_nth (S k) t' (set_nth k t (stages p))) j = if j =? k then Some t else if j =? S k then Some t' else get p j.
  Proof.
    intros H H' j. rewrite (upd_nth _ (S k) s'). 2:{ rewrite (upd_nth _ k s _ H). destruct (S k =? k) eqn:E; [apply Nat.eqb_eq in E; lia | exact H']. }
    rewrite (upd_nth _ k s _ H). destruct (j =? S k) eqn:E; destruct (j =? k) eqn:E'; try reflexivity.
    apply Nat.eqb_eq in E, E'. lia.
  Qed.

  (** A step changes the stages one by one or two neighbours; what each of them may do. *)
  Definition over (s : stage) : bool := match pc s with SendErr _ | Done => true | _ => false end.

  Inductive local (k : nat) : stage -> stage -> Prop :=
  | L_recv s x : pc s = Recv -> local k s (receive (bs k) s x)
  | L_send s i x : offer (bs k) s i = Some x -> local k s (did_send s i x)
  | L_end s : pc s = Recv -> local k s (see_end (bs k) s)
  | L_hear s i e t : hear (bs k) s i e = Some t -> local k s t
  | L_go s t : go_on s = Some t -> local k s t
  | L_fin s e : err_of s = Some e -> local k s (finished s).

  Lemma trans_local p p' : trans p p' -> forall j s', get p' j = Some s' -> get p j = Some s' \/ exists s, get p j = Some s /\ local j s s'.
  Proof.
    intros H j s' Hj. unfold get in Hj. destruct H; cbn [stages with_stages] in Hj; try (left; exact Hj).
    - rewrite (get_set1 p 0 s _ H0) in Hj. destruct (j =? 0) eqn:E; [|left; exact Hj]. apply Nat.eqb_eq in E. subst. injection Hj as <-. right. exists s. split; [exact H0 | apply L_recv; exact H1].
    - rewrite (get_set2' p k s s'0 _ _ H H1) in Hj. destruct (j =? k) eqn:E; [apply Nat.eqb_eq in E; subst; injection Hj as <-; right; exists s; split; [exact H | apply L_send; exact H0]|].
      destruct (j =? S k) eqn:E'; [|left; exact Hj]. apply Nat.eqb_eq in E'. subst. injection Hj as <-. right. exists s'0. split; [exact H1 | apply L_recv; exact H2].
    - rewrite (get_set1 p k s _ H) in Hj. destruct (j =? k) eqn:E; [|left; exact Hj]. apply Nat.eqb_eq in E. subst. injection Hj as <-. right. exists s. split; [exact H | apply L_send; exact H0].
    - rewrite (get_set1 p (S k) s _ H0) in Hj. destruct (j =? S k) eqn:E; [|left; exact Hj]. apply Nat.eqb_eq in E. subst. injection Hj as <-. right. exists s. split; [exact H0 | apply L_end; exact H1].
    - rewrite (get_set2 p k s s'0 _ _ H H0) in Hj. destruct (j =? k) eqn:E; [apply Nat.eqb_eq in E; subst; injection Hj as <-; right; exists s; split; [exact H | exact (L_hear _ _ _ _ _ H2)]|].
      destruct (j =? S k) eqn:E'; [|left; exact Hj]. apply Nat.eqb_eq in E'. subst. injection Hj as <-. right. exists s'0. split; [exact H0 | exact (L_fin _ _ _ H1)].
    - rewrite (get_set1 p k s _ H) in Hj. destruct (j =? k) eqn:E; [|left; exact Hj]. apply Nat.eqb_eq in E. subst. injection Hj as <-. right. exists s. split; [exact H | exact (L_hear _ _ _ _ _ H2)].
    - rewrite (get_set1 p k s _ H) in Hj. destruct (j =? k) eqn:E; [|left; exact Hj]. apply Nat.eqb_eq in E. subst. injection Hj as <-. right. exists s. split; [exact H | exact (L_go _ _ _ H0)].
    - rewrite (get_set1 p 0 s _ H0) in Hj. destruct (j =? 0) eqn:E; [|left; exact Hj]. apply Nat.eqb_eq in E. subst. injection Hj as <-. right. exists s. split; [exact H0 | exact (L_fin _ _ _ H1)].
  Qed.

  (** Facts about the single stages. *)
  Lemma offer_send (b : @behaviour D) (s : stage) i x : offer b s i = Some x -> exists outs st more brk serr,
    pc s = Send outs st more brk serr /\ can_send (how b) i = true /\ nth_error outs i = Some x /\
    did_send s i x = {| pc := Send (remove i outs) st more brk serr; found := found s; rcvd := rcvd s; sent := sent s ++ [x]; ended := ended s |}.
  Proof.
    unfold offer, did_send. intros H. destruct (pc s) as [|outs st more brk serr| | |] eqn:E; try discriminate H.
    destruct (can_send (how b) i) eqn:Ec; [|discriminate H]. exists outs, st, more, brk, serr. auto.
  Qed.

  (** Once over, a stage can only be Done. *)
  Lemma local_over k s s' : local k s s' -> over s = true -> pc s' = Done.
  Proof.
    intros H Ho. unfold over in Ho. destruct H as [s x H|s i x H|s H|s i e t H|s t H|s e H].
    - rewrite H in Ho. discriminate Ho.
    - destruct (offer_send _ _ _ _ H) as (outs & st & more & brk & serr & E & _). rewrite E in Ho. discriminate Ho.
    - rewrite H in Ho. discriminate Ho.
    - unfold hear in H. destruct (pc s); discriminate.
    - unfold go_on in H. destruct (pc s); discriminate.
    - reflexivity.
  Qed.
  Lemma local_closed k s s' : local k s s' -> closed_out s = true -> closed_out s' = true.
  Proof.
    intros H Ho. unfold closed_out in *. destruct H as [s x H|s i x H|s H|s i e t H|s t H|s e H].
    - rewrite H in Ho. discriminate Ho.
    - destruct (offer_send _ _ _ _ H) as (outs & st & more & brk & serr & E & _). rewrite E in Ho. discriminate Ho.
    - rewrite H in Ho. discriminate Ho.
    - unfold hear in H. destruct (pc s); try discriminate. injection H as <-. cbn. destruct (coalesce (found s) e); reflexivity.
    - unfold go_on in H. destruct (pc s); discriminate.
    - reflexivity.
  Qed.
  Lemma processed_over (s : stage) h fin o more : over (processed s h fin o more) = false.
  Proof. destruct o as [outs []]; reflexivity. Qed.

  (** ** Structure: who is over has nobody running behind it. *)
  Record pinv (n : nat) (p : pipe) : Prop := {
    i_len : length (stages p) = n;
    i_next : forall k s s', get p k = Some s -> get p (S k) = Some s' -> over s = true -> pc s' = Done;
    i_last : forall k s, get p k = Some s -> S k = n -> over s = true -> drained p = true;
    i_drained : drained p = true -> forall k s, get p k = Some s -> S k = n -> closed_out s = true;
    i_pump : pump p <> Pumping -> forall s, get p 0 = Some s -> pc s = Done;
    i_wait : waited p <> None -> pump p = PumpDone }.

  Lemma pinv_start n : pinv n (pipe_start n).
  Proof.
    assert (G : forall k s, nth_error (repeat (@stage_start D) n) k = Some s -> s = stage_start).
    { intros k s H. apply nth_error_In in H. apply repeat_spec in H. exact H. }
    split; cbn.
    - apply repeat_length.
    - intros k s s' H _ Ho. apply G in H. subst. discriminate Ho.
    - intros k s H _ Ho. apply G in H. subst. discriminate Ho.
    - discriminate.
    - congruence.
    - congruence.
  Qed.

  Lemma done_over (s : stage) : pc s = Done -> over s = true.
  Proof. unfold over. intros ->. reflexivity. Qed.
  Lemma over_closed (s : stage) : over s = true -> closed_out s = true.
  Proof. unfold over, closed_out. destruct (pc s); auto; discriminate. Qed.

  (** How a stage can become over: only by hearing from the next one while it is in breakPipelineAndWait. *)
  Lemma hear_over (b : @behaviour D) (s : stage) i e t : hear b s i e = Some t -> over t = true -> pc s = Brk.
  Proof.
    unfold hear. intros H Ho. destruct (pc s) as [|outs st more brk serr| | |]; try discriminate H; [| |reflexivity].
    - injection H as <-. discriminate Ho.
    - destruct (can_send (how b) i && (i <? length outs)); [|discriminate H]. injection H as <-. discriminate Ho.
  Qed.
  Lemma go_over (s t : stage) : go_on s = Some t -> over t = false.
  Proof.
    unfold go_on. intros H. destruct (pc s) as [|[|x outs] st more brk serr| | |]; try discriminate H.
    destruct (brk || serr); [injection H as <-; reflexivity|]. destruct st; [|injection H as <-; reflexivity].
    destruct more as [|[outs r] more]; injection H as <-; reflexivity.
  Qed.
  Lemma finished_done (s : stage) : pc (finished s) = Done. Proof. reflexivity. Qed.

  Lemma get_trans_back p p' : trans p p' -> forall j s, get p j = Some s -> exists s', get p' j = Some s' /\ (s' = s \/ local j s s').
  Proof.
    intros H j s Hj. destruct (get p' j) as [s'|] eqn:E.
    - exists s'. split; [reflexivity|]. destruct (trans_local p p' H j s' E) as [G|(s0 & G & L)]; [left|right]; congruence.
    - exfalso. assert (HL : length (stages p') = length (stages p)) by (apply trans_length; exact H).
      assert (j < length (stages p)) by (apply nth_error_Some; unfold get in Hj; rewrite Hj; discriminate).
      apply nth_error_None in E. lia.
  Qed.

  (** The stages that become over in a step. *)
  Lemma trans_over p p' : trans p p' -> forall k s s', get p k = Some s -> get p' k = Some s' -> over s = false -> over s' = true ->
    pc s = Brk /\ match get p (S k) with
                  | Some t => err_of t <> None /\ exists t', get p' (S k) = Some t' /\ pc t' = Done
                  | None => drained p = true /\ drained p' = true
                  end.
  Proof.
    intros H k s s' Hk Hk' Ho Ho'. unfold get in Hk'. destruct H; cbn [stages with_stages drained] in Hk' |- *.
    - rewrite (get_set1 p 0 s0 _ H0) in Hk'. destruct (k =? 0) eqn:E; [|congruence]. injection Hk' as <-. unfold receive in Ho'. rewrite processed_over in Ho'. discriminate Ho'.
    - rewrite (get_set2' p k0 s0 s'0 _ _ H H1) in Hk'. destruct (k =? k0) eqn:E.
      + injection Hk' as <-. destruct (offer_send _ _ _ _ H0) as (o & st & m & b & e & _ & _ & _ & Eq). rewrite Eq in Ho'. discriminate Ho'.
      + destruct (k =? S k0) eqn:E'; [|congruence]. injection Hk' as <-. unfold receive in Ho'. rewrite processed_over in Ho'. discriminate Ho'.
    - rewrite (get_set1 p k0 s0 _ H) in Hk'. destruct (k =? k0) eqn:E; [|congruence]. injection Hk' as <-.
      destruct (offer_send _ _ _ _ H0) as (o & st & m & b & e & _ & _ & _ & Eq). rewrite Eq in Ho'. discriminate Ho'.
    - rewrite (get_set1 p (S k0) s0 _ H0) in Hk'. destruct (k =? S k0) eqn:E; [|congruence]. injection Hk' as <-. unfold see_end in Ho'. rewrite processed_over in Ho'. discriminate Ho'.
    - rewrite (get_set2 p k0 s0 s'0 _ _ H H0) in Hk'. destruct (k =? k0) eqn:E.
      + injection Hk' as <-. apply Nat.eqb_eq in E. subst. split; [assert (s = s0) by congruence; subst; exact (hear_over _ _ _ _ _ H2 Ho')|].
        rewrite H0. split; [rewrite H1; discriminate|]. exists (finished s'0). split; [|reflexivity]. unfold get. cbn [stages with_stages]. rewrite (get_set2 p k0 s0 s'0 _ _ H H0).
        destruct (S k0 =? k0) eqn:E; [apply Nat.eqb_eq in E; lia|]. rewrite Nat.eqb_refl. reflexivity.
      + destruct (k =? S k0) eqn:E'; [|congruence]. apply Nat.eqb_eq in E'. subst. assert (s = s'0) by congruence. subst. exfalso.
        unfold err_of in H1. unfold over in Ho. destruct (pc s'0); discriminate.
    - rewrite (get_set1 p k0 s0 _ H) in Hk'. destruct (k =? k0) eqn:E; [|congruence]. injection Hk' as <-. apply Nat.eqb_eq in E. subst.
      assert (s = s0) by congruence. subst. split; [exact (hear_over _ _ _ _ _ H2 Ho')|]. rewrite H0. auto.
    - rewrite (get_set1 p k0 s0 _ H) in Hk'. destruct (k =? k0) eqn:E; [|congruence]. injection Hk' as <-. rewrite (go_over _ _ H0) in Ho'. discriminate Ho'.
    - unfold get in Hk. congruence.
    - rewrite (get_set1 p 0 s0 _ H0) in Hk'. destruct (k =? 0) eqn:E; [|congruence]. injection Hk' as <-. apply Nat.eqb_eq in E. subst.
      assert (s = s0) by congruence. subst. exfalso. unfold err_of in H1. unfold over in Ho. destruct (pc s0); discriminate.
    - unfold get in Hk. congruence.
  Qed.

  Lemma drained_mono p p' : trans p p' -> drained p = true -> drained p' = true.
  Proof. intros H Hd. destruct H; cbn; auto. Qed.

  Lemma pinv_step n p a p' : pinv n p -> step p a = Some p' -> pinv n p'.
  Proof.
    intros HI H. apply step_trans in H. destruct HI as [I1 I2 I3 I4 I5 I6].
    assert (Hlen := trans_length p p' H).
    split.
    - congruence.
    - intros k s s' Hk Hk' Ho. destruct (trans_local p p' H k s Hk) as [G|(s0 & G & L)].
      + destruct (trans_local p p' H (S k) s' Hk') as [G'|(s0' & G' & L')]; [exact (I2 k s s' G G' Ho)|].
        apply (local_over _ _ _ L'). apply done_over. exact (I2 k s s0' G G' Ho).
      + destruct (over s0) eqn:Eo.
        * destruct (trans_local p p' H (S k) s' Hk') as [G'|(s0' & G' & L')]; [exact (I2 k s0 s' G G' Eo)|].
          apply (local_over _ _ _ L'). apply done_over. exact (I2 k s0 s0' G G' Eo).
        * destruct (trans_over p p' H k s0 s G Hk Eo Ho) as [_ K].
          destruct (trans_local p p' H (S k) s' Hk') as [G'|(s0' & G' & L')]; rewrite G' in K; destruct K as (_ & t' & E & Et); congruence.
    - intros k s Hk Hn Ho. destruct (trans_local p p' H k s Hk) as [G|(s0 & G & L)].
      + exact (drained_mono p p' H (I3 k s G Hn Ho)).
      + destruct (over s0) eqn:Eo; [exact (drained_mono p p' H (I3 k s0 G Hn Eo))|].
        destruct (trans_over p p' H k s0 s G Hk Eo Ho) as [_ K]. destruct (get p (S k)) as [t|] eqn:Et; [|exact (proj2 K)].
        exfalso. assert (S k < length (stages p)) by (apply nth_error_Some; unfold get in Et; rewrite Et; discriminate). lia.
    - intros Hd k s Hk Hn. destruct (drained p) eqn:Ed.
      + destruct (trans_local p p' H k s Hk) as [G|(s0 & G & L)]; [exact (I4 eq_refl k s G Hn)|].
        exact (local_closed _ _ _ L (I4 eq_refl k s0 G Hn)).
      + destruct H; cbn [drained with_stages] in Hd; try congruence. unfold get in Hk. cbn [stages with_stages] in Hk. unfold get in H. assert (k0 = k) by lia. subst. congruence.
    - intros Hp s Hk. destruct (trans_local p p' H 0 s Hk) as [G|(s0 & G & L)].
      + destruct (pump p) eqn:Ep; [|apply I5; [discriminate|exact G]|apply I5; [discriminate|exact G]].
        destruct H; cbn [pump with_stages] in Hp; try congruence.
        * unfold get in Hk. cbn [stages with_stages] in Hk. rewrite (get_set1 p 0 s0 _ H0) in Hk. cbn in Hk. injection Hk as <-. reflexivity.
        * destruct H0 as [H0|[H0 _]]; congruence.
      + destruct (pump p) eqn:Ep.
        * destruct H; cbn [pump with_stages] in Hp; try congruence.
          -- unfold get in Hk. cbn [stages with_stages] in Hk. rewrite (get_set1 p 0 s1 _ H0) in Hk. cbn in Hk. injection Hk as <-. reflexivity.
          -- destruct H0 as [H0|[H0 _]]; congruence.
        * apply (local_over _ _ _ L). apply done_over. apply I5; [discriminate | exact G].
        * apply (local_over _ _ _ L). apply done_over. apply I5; [discriminate | exact G].
    - intros Hw. destruct H; cbn in Hw |- *; auto. specialize (I6 Hw). congruence.
  Qed.

  (** ** No deadlock: as long as Wait has not returned, somebody can go on. *)
  Lemma blocked_next p : forall m k s, k + S m = length (stages p) -> get p k = Some s -> pc s = Brk \/ (exists x l st more brk serr, pc s = Send (x :: l) st more brk serr) ->
    exists a, step p a <> None.
  Proof.
    assert (Hc : forall b, can_send (how b) 0 = true) by (intros b; destruct (@how D b); reflexivity).
    assert (Hhear : forall b (s : stage) e, pc s = Brk \/ (exists x l st more brk serr, pc s = Send (x :: l) st more brk serr) -> hear b s 0 e <> None).
    { intros b s e [E|(x & l & st & more & brk & serr & E)]; unfold hear; rewrite E; [discriminate|]. rewrite Hc. cbn. discriminate. }
    induction m as [|m IH]; intros k s Hm Hk Hs.
    - assert (Hl : nth_error (stages p) (S k) = None) by (apply nth_error_None; lia).
      destruct (drained p) eqn:Ed.
      + exists (AHear k 0). cbn [pipe_step]. unfold get in Hk. rewrite Hk, Hl, Ed. destruct (hear (bs k) s 0 []) eqn:E; [discriminate|]. exfalso. exact (Hhear _ _ _ Hs E).
      + destruct Hs as [E|(x & l & st & more & brk & serr & E)].
        * exists ADrain. cbn [pipe_step]. replace (pred (length (stages p))) with k by lia. unfold get in Hk. rewrite Hk. unfold closed_out. rewrite E, Ed. discriminate.
        * exists (AOut k 0). cbn [pipe_step]. unfold get in Hk. rewrite Hk, Hl, Ed. unfold offer. rewrite E, Hc. cbn. discriminate.
    - assert (exists s', nth_error (stages p) (S k) = Some s') as [s' Hk'].
      { destruct (nth_error (stages p) (S k)) as [s'|] eqn:E; [exists s'; reflexivity|]. apply nth_error_None in E. lia. }
      unfold get in Hk.
      destruct (pc s') as [|outs st more brk serr| |e|] eqn:E'.
      + destruct Hs as [E|(x & l & st & more & brk & serr & E)].
        * exists (AEnd (S k)). cbn [pipe_step]. rewrite Hk, Hk', E'. unfold closed_out. rewrite E. discriminate.
        * exists (AOut k 0). cbn [pipe_step]. rewrite Hk. unfold offer. rewrite E, Hc. change (nth_error (x :: l) 0) with (Some x). cbv zeta. rewrite Hk', E'. discriminate.
      + destruct outs as [|x outs].
        * exists (AGo (S k)). cbn [pipe_step]. rewrite Hk'. unfold go_on. rewrite E'. destruct (brk || serr); [discriminate|]. destruct st; [|discriminate]. destruct more as [|[o r] more]; discriminate.
        * apply (IH (S k) s'); [lia | exact Hk' | right; eauto 10].
      + apply (IH (S k) s'); [lia | exact Hk' | left; exact E'].
      + exists (AHear k 0). cbn [pipe_step]. rewrite Hk, Hk'. unfold err_of. rewrite E'. destruct (hear (bs k) s 0 e) eqn:E; [discriminate|]. exfalso. exact (Hhear _ _ _ Hs E).
      + exists (AHear k 0). cbn [pipe_step]. rewrite Hk, Hk'. unfold err_of. rewrite E'. destruct (hear (bs k) s 0 []) eqn:E; [discriminate|]. exfalso. exact (Hhear _ _ _ Hs E).
  Qed.

  Lemma progress n p : 0 < n -> pinv n p -> waited p = None -> exists a, step p a <> None.
  Proof.
    intros Hn HI Hw. destruct (pump p) as [|e|] eqn:Ep.
    2:{ exists AWait. cbn [pipe_step]. rewrite Hw, Ep. discriminate. }
    2:{ exists AWait. cbn [pipe_step]. rewrite Hw, Ep. discriminate. }
    assert (exists s, nth_error (stages p) 0 = Some s) as [s H0].
    { destruct (nth_error (stages p) 0) as [s|] eqn:E; [exists s; reflexivity|]. apply nth_error_None in E. rewrite (i_len _ _ HI) in E. lia. }
    destruct (pc s) as [|outs st more brk serr| |e|] eqn:E.
    - exists ATick. cbn [pipe_step]. rewrite Ep, H0, E. discriminate.
    - destruct outs as [|x outs].
      + exists (AGo 0). cbn [pipe_step]. rewrite H0. unfold go_on. rewrite E. destruct (brk || serr); [discriminate|]. destruct st; [|discriminate]. destruct more as [|[o r] more]; discriminate.
      + apply (blocked_next p (pred n) 0 s); [rewrite (i_len _ _ HI); lia | exact H0 | right; eauto 10].
    - apply (blocked_next p (pred n) 0 s); [rewrite (i_len _ _ HI); lia | exact H0 | left; exact E].
    - exists ATop. cbn [pipe_step]. rewrite Ep, H0. unfold err_of. rewrite E. discriminate.
    - exists ATop. cbn [pipe_step]. rewrite Ep, H0. unfold err_of. rewrite E. discriminate.
  Qed.

  (** When Wait has returned, everything has stopped. *)
  Definition all_over (p : pipe) : Prop := pump p = PumpDone /\ drained p = true /\ forall k s, get p k = Some s -> pc s = Done.
  Lemma waited_over n p : 0 < n -> pinv n p -> waited p <> None -> all_over p.
  Proof.
    intros Hn HI Hw. pose proof (i_wait _ _ HI Hw) as Hp.
    assert (HD : forall k s, get p k = Some s -> pc s = Done).
    { induction k as [|k IH]; intros s Hs.
      - apply (i_pump _ _ HI); [congruence | exact Hs].
      - destruct (get p k) as [s'|] eqn:E.
        + exact (i_next _ _ HI k s' s E Hs (done_over _ (IH s' eq_refl))).
        + exfalso. apply nth_error_None in E. assert (S k < length (stages p)) by (apply nth_error_Some; unfold get in Hs; rewrite Hs; discriminate). lia. }
    split; [exact Hp|]. split; [|exact HD].
    destruct (get p (pred n)) as [s|] eqn:E.
    - apply (i_last _ _ HI (pred n) s E); [lia | apply done_over, (HD _ _ E)].
    - exfalso. apply nth_error_None in E. rewrite (i_len _ _ HI) in E. lia.
  Qed.
  Lemma over_stuck p : all_over p -> waited p <> None -> stuck step p.
  Proof.
    intros (Hp & Hd & HD) Hw a. destruct (step p a) as [p'|] eqn:E; [|reflexivity]. exfalso. apply step_trans in E.
    destruct E as [s H H0 H1|k i s s' x H H0 H1 H2|k i s x H H0 H1 H2|k s s' H H0 H1 H2|k i s s' e t H H0 H1 H2|k i s t H H0 H1 H2|k s t H H0|k s H H0 H1 H2|s e H H0 H1|e H H0].
    - congruence.
    - specialize (HD _ _ H1). congruence.
    - congruence.
    - specialize (HD _ _ H0). congruence.
    - specialize (HD _ _ H). unfold hear in H2. rewrite HD in H2. discriminate.
    - specialize (HD _ _ H). unfold hear in H2. rewrite HD in H2. discriminate.
    - specialize (HD _ _ H). unfold go_on in H0. rewrite HD in H0. discriminate.
    - congruence.
    - congruence.
    - congruence.
  Qed.

  (** ** Termination *)
  Section Term.
    Variable N : nat.
    Hypothesis source_ends : match snd (proc (bs 0) (repeat tick (S N))) with RNoMore | RErr _ => True | _ => False end.

    Definition reading (s : stage) : bool := match pc s with Recv => true | Send _ _ _ brk serr => negb (brk || serr) | _ => false end.
    Definition rank (k : nat) (s : stage) : nat :=
      match pc s with
      | Recv | Send _ _ _ _ _ => if reading s then 4 + (if k =? 0 then S N - length (rcvd s) else 0) else 3
      | Brk => 2 | SendErr _ => 1 | Done => 0
      end.
    Definition amount (s : stage) : nat :=
      match pc s with
      | Send outs st more _ _ => 1 + length outs + list_sum (map (fun o => 2 + length (fst o)) more) + (if st then 1 else 0)
      | _ => 0
      end.
    Fixpoint meas (k : nat) (l : list stage) : list nat :=
      match l with [] => [] | s :: l' => rank k s :: amount s :: meas (S k) l' end.
    Definition pmeas (p : pipe) : list nat :=
      meas 0 (stages p) ++ [if drained p then 0 else 1; match pump p with Pumping => 2 | Telling _ => 1 | PumpDone => 0 end; match waited p with None => 1 | Some _ => 0 end].

    Record sinv (p : pipe) : Prop := {
      j_ticks : forall s, get p 0 = Some s -> rcvd s = repeat tick (length (rcvd s));
      j_left : forall s, get p 0 = Some s -> reading s = true -> length (rcvd s) <= N;
      j_ended : forall s, get p 0 = Some s -> ended s = false }.

    Lemma meas_length k l : length (meas k l) = 2 * length l.
    Proof. revert k. induction l as [|s l IH]; intros k; cbn [meas length]; [reflexivity|]. rewrite IH. lia. Qed.

    (** Smaller at the first stage that changed. *)
    Lemma meas_lex o k : forall (l l' : list stage) s t, nth_error l k = Some s -> nth_error l' k = Some t -> length l' = length l ->
      (forall j, j < k -> nth_error l' j = nth_error l j) ->
      rank (o + k) t < rank (o + k) s \/ rank (o + k) t = rank (o + k) s /\ amount t < amount s -> lex (meas o l') (meas o l).
    Proof.
      revert o. induction k as [|k IH]; intros o l l' s t Hs Ht Hlen Hj Hlt.
      - destruct l as [|a l]; [discriminate|]. destruct l' as [|a' l']; [discriminate|]. cbn in Hs, Ht. injection Hs as ->. injection Ht as ->.
        rewrite Nat.add_0_r in Hlt. cbn [meas]. destruct Hlt as [H|[H1 H2]].
        + apply lex_here; [exact H|]. cbn. rewrite !meas_length. cbn in Hlen. lia.
        + rewrite H1. apply lex_next, lex_here; [exact H2|]. rewrite !meas_length. cbn in Hlen. lia.
      - destruct l as [|a l]; [discriminate|]. destruct l' as [|a' l']; [discriminate|].
        pose proof (Hj 0 ltac:(lia)) as E. cbn in E. injection E as ->. cbn [meas]. apply lex_next, lex_next.
        apply (IH (S o) l l' s t); [exact Hs | exact Ht | cbn in Hlen; lia | intros j Hjk; exact (Hj (S j) ltac:(lia)) |].
        replace (S o + k) with (o + S k) by lia. exact Hlt.
    Qed.
    Lemma pmeas_lex p p' k s t : get p k = Some s -> get p' k = Some t -> length (stages p') = length (stages p) ->
      (forall j, j < k -> get p' j = get p j) ->
      rank k t < rank k s \/ rank k t = rank k s /\ amount t < amount s -> lex (pmeas p') (pmeas p).
    Proof.
      intros Hs Ht Hlen Hj Hlt. unfold pmeas. apply lex_app_r; [|reflexivity]. exact (meas_lex 0 k _ _ s t Hs Ht Hlen Hj Hlt).
    Qed.

    (** What single stages lose. *)
    Lemma hear_less k (s : stage) i e t : hear (bs k) s i e = Some t -> rank k t < rank k s \/ rank k t = rank k s /\ amount t < amount s.
    Proof.
      unfold hear. intros H. destruct (pc s) as [|outs st more brk serr| |e'|] eqn:E; try discriminate H.
      - injection H as <-. left. unfold rank, reading. cbn. rewrite E. lia.
      - destruct (can_send (how (bs k)) i) eqn:Ec; [|discriminate H]. destruct (i <? length outs) eqn:El; [|discriminate H]. cbn in H. injection H as <-.
        apply Nat.ltb_lt in El. unfold rank, reading, amount. cbn. rewrite E. rewrite orb_true_r. cbn. destruct (brk || serr); cbn.
        + right. split; [reflexivity|]. pose proof (remove_length i outs El). destruct (how (bs k)); cbn [length]; lia.
        + left. lia.
      - injection H as <-. left. unfold rank. cbn. rewrite E. destruct (coalesce (found s) e); lia.
    Qed.
    Lemma go_less k (s t : stage) : go_on s = Some t -> rank k t < rank k s \/ rank k t = rank k s /\ amount t < amount s.
    Proof.
      unfold go_on. intros H. destruct (pc s) as [|[|x outs] st more brk serr| | |] eqn:E; try discriminate H.
      destruct (brk || serr) eqn:Eb; [injection H as <-; left; unfold rank, reading; cbn; rewrite E, Eb; cbn; lia|].
      right. destruct st.
      - destruct more as [|[outs r] more]; injection H as <-; unfold rank, reading, amount; cbn; rewrite E, Eb; cbn; (split; [reflexivity|]); [lia|].
        fold (list_sum (map (fun o : list D * ret => S (S (length (fst o)))) more)). destruct (is_stream r); lia.
      - injection H as <-. unfold rank, reading, amount. cbn. rewrite E, Eb. cbn. split; [reflexivity | lia].
    Qed.
    Lemma send_less k (s : stage) i x : offer (bs k) s i = Some x -> rank k (did_send s i x) = rank k s /\ amount (did_send s i x) < amount s.
    Proof.
      intros H. destruct (offer_send _ _ _ _ H) as (outs & st & more & brk & serr & E & _ & En & Eq). rewrite Eq. unfold rank, reading, amount. cbn. rewrite E.
      split; [reflexivity|]. assert (i < length outs) by (apply nth_error_Some; rewrite En; discriminate). pose proof (remove_length i outs H0). lia.
    Qed.
    Lemma end_less k (s : stage) : pc s = Recv -> rank k (see_end (bs k) s) < rank k s.
    Proof.
      intros E. assert (4 <= rank k s) by (unfold rank, reading; rewrite E; cbn [negb]; lia).
      assert (rank k (see_end (bs k) s) <= 3); [|lia]. unfold see_end. destruct (nomore (bs k) (rcvd s)) as [outs []]; unfold rank, reading; cbn; lia.
    Qed.
    Lemma finished_eq (s : stage) : pc s = Done -> finished s = s.
    Proof. intros E. destruct s as [p f r se en]. cbn in E. subst. reflexivity. Qed.
    Lemma set_nth_same {A} (l : list A) k x : nth_error l k = Some x -> set_nth k x l = l.
    Proof. revert k. induction l as [|a l IH]; intros [|k] H; cbn in *; try discriminate; [congruence|]. rewrite IH; [reflexivity | exact H]. Qed.

    Lemma rcvd_repeat h : h = repeat tick (length h) -> h ++ [tick] = repeat tick (length (h ++ [tick])).
    Proof. intros H. rewrite app_length. cbn [length]. rewrite repeat_app. cbn [repeat]. rewrite <- H. reflexivity. Qed.

    Lemma tick_less (s : stage) : pc s = Recv -> rcvd s = repeat tick (length (rcvd s)) -> length (rcvd s) <= N ->
      rank 0 (receive (bs 0) s tick) < rank 0 s /\ (reading (receive (bs 0) s tick) = true -> length (rcvd s ++ [tick]) <= N).
    Proof.
      intros E Hr Hl. assert (Hlt : reading (receive (bs 0) s tick) = true -> length (rcvd s ++ [tick]) <= N).
      { intros H. rewrite app_length. cbn [length]. destruct (Nat.eq_dec (length (rcvd s)) N) as [En|]; [|lia]. exfalso.
        unfold receive in H. rewrite (rcvd_repeat _ Hr), app_length in H. cbn [length] in H. rewrite En in H. replace (N + 1) with (S N) in H by lia.
        destruct (proc (bs 0) (repeat tick (S N))) as [outs r]. cbn [snd] in source_ends. unfold processed in H. destruct r; try contradiction; cbn in H; discriminate H. }
      split; [|exact Hlt]. unfold rank at 2. rewrite E. unfold reading. rewrite E. cbn [Nat.eqb].
      unfold rank. assert (Er : rcvd (receive (bs 0) s tick) = rcvd s ++ [tick]).
      { unfold receive. destruct (proc (bs 0) (rcvd s ++ [tick])) as [outs []]; reflexivity. }
      rewrite Er. destruct (pc (receive (bs 0) s tick)); cbn [Nat.eqb]; try (destruct (reading (receive (bs 0) s tick)); [specialize (Hlt eq_refl)|]); rewrite app_length in *; cbn [length] in *; lia.
    Qed.

    Lemma sinv_start n : sinv (pipe_start n).
    Proof.
      split; intros s H; unfold get in H; cbn [stages pipe_start] in H; apply nth_error_In, repeat_spec in H; subst; cbn; [reflexivity|lia|reflexivity].
    Qed.

    Lemma sinv_step p a p' : sinv p -> step p a = Some p' -> sinv p' /\ lex (pmeas p') (pmeas p).
    Proof.
      intros [J1 J2 J3] H. apply step_trans in H. pose proof (trans_length p p' H) as Hlen.
      (* local changes of stage 0 keep the invariant *)
      assert (HS : forall s s', get p 0 = Some s -> local 0 s s' -> (forall x, s' = receive (bs 0) s x -> pc s = Recv -> x = tick) -> (s' <> see_end (bs 0) s \/ pc s <> Recv) ->
        (rcvd s' = repeat tick (length (rcvd s'))) /\ (reading s' = true -> length (rcvd s') <= N) /\ ended s' = false).
      { intros s s' Hs L Hx He. specialize (J1 s Hs). specialize (J2 s Hs). specialize (J3 s Hs). destruct L as [s x E|s i x E|s E|s i e t E|s t E|s e E].
        - rewrite (Hx x eq_refl E). assert (Er : rcvd (receive (bs 0) s tick) = rcvd s ++ [tick]).
          { unfold receive. destruct (proc (bs 0) (rcvd s ++ [tick])) as [outs []]; reflexivity. }
          rewrite Er. split; [exact (rcvd_repeat _ J1)|]. split.
          + apply (tick_less s E J1). apply J2. unfold reading. rewrite E. reflexivity.
          + unfold receive. destruct (proc (bs 0) (rcvd s ++ [tick])) as [outs []]; cbn; congruence.
        - destruct (offer_send _ _ _ _ E) as (outs & st & more & brk & serr & E1 & _ & _ & Eq). rewrite Eq. cbn. split; [exact J1|]. split; [|exact J3].
          unfold reading in *. cbn. rewrite E1 in J2. exact J2.
        - destruct He as [He|He]; [contradiction He; reflexivity | contradiction He].
        - unfold hear in E. destruct (pc s) as [|outs st more brk serr| | |] eqn:Ep; try discriminate E.
          + injection E as <-. cbn. split; [exact J1|]. split; [discriminate | exact J3].
          + destruct (can_send (how (bs 0)) i && (i <? length outs)); [|discriminate E]. injection E as <-. cbn. split; [exact J1|]. split; [|exact J3].
            unfold reading. cbn. rewrite orb_true_r. discriminate.
          + injection E as <-. cbn. split; [exact J1|]. split; [|exact J3]. unfold reading. cbn. destruct (coalesce (found s) e); discriminate.
        - unfold go_on in E. destruct (pc s) as [|[|x outs] st more brk serr| | |] eqn:Ep; try discriminate E. unfold reading in *. rewrite Ep in J2.
          destruct (brk || serr) eqn:Eb; [injection E as <-; cbn; split; [exact J1|]; split; [discriminate | exact J3]|].
          destruct st; [destruct more as [|[o r] more]|]; injection E as <-; cbn; rewrite ?Eb; (split; [exact J1|]); (split; [exact J2 | exact J3]).
        - cbn. split; [exact J1|]. split; [discriminate | exact J3]. }
      assert (HX : (forall s', get p' 0 = Some s' -> get p 0 = Some s' \/ exists s, get p 0 = Some s /\ local 0 s s' /\ (forall x, s' = receive (bs 0) s x -> pc s = Recv -> x = tick) /\ (s' <> see_end (bs 0) s \/ pc s <> Recv))
                   -> sinv p').
      { intros HX. split; intros s' Hs'; destruct (HX s' Hs') as [G|(s & G & L & Hx & He)]; auto; destruct (HS s s' G L Hx He) as (A1 & A2 & A3); auto. }
      assert (Hcl : forall s x, closed_out (receive (bs 0) s x) = true \/ exists o st m b e, pc (receive (bs 0) s x) = Send o st m b e).
      { intros s x. unfold receive. destruct (proc (bs 0) (rcvd s ++ [x])) as [o []]; cbn; eauto 10. }
      destruct H as [s H H0 H1|k i s s' x H H0 H1 H2|k i s x H H0 H1 H2|k s s' H H0 H1 H2|k i s s' e t H H0 H1 H2|k i s t H H0 H1 H2|k s t H H0|k s H H0 H1 H2|s e H H0 H1|e H H0].
      - split.
        + apply HX. intros s' Hs'. unfold get in Hs'. cbn [stages with_stages] in Hs'. rewrite (get_set1 p 0 s _ H0) in Hs'. cbn in Hs'. injection Hs' as <-. right. exists s.
          split; [exact H0|]. split; [apply L_recv; exact H1|]. split.
          * intros x E _. assert (Er : forall y, rcvd (receive (bs 0) s y) = rcvd s ++ [y]). { intros y. unfold receive. destruct (proc (bs 0) (rcvd s ++ [y])) as [outs []]; reflexivity. }
            pose proof (f_equal rcvd E) as E'. rewrite !Er in E'. apply app_inv_head in E'. congruence.
          * left. intros E. pose proof (f_equal rcvd E) as E'. assert (rcvd (receive (bs 0) s tick) = rcvd s ++ [tick]). { unfold receive. destruct (proc (bs 0) (rcvd s ++ [tick])) as [outs []]; reflexivity. }
            assert (rcvd (see_end (bs 0) s) = rcvd s). { unfold see_end. destruct (nomore (bs 0) (rcvd s)) as [outs []]; reflexivity. }
            rewrite H2, H3 in E'. apply (f_equal (@length D)) in E'. rewrite app_length in E'. cbn in E'. lia.
        + apply (pmeas_lex p _ 0 s (receive (bs 0) s tick) H0); [unfold get; cbn [stages with_stages]; rewrite (get_set1 p 0 s _ H0); reflexivity | exact Hlen | lia |].
          left. apply tick_less; [exact H1 | exact (J1 s H0) | apply (J2 s H0); unfold reading; rewrite H1; reflexivity].
      - split.
        + apply HX. intros s0 Hs'. unfold get in Hs'. cbn [stages with_stages] in Hs'. rewrite (get_set2' p k s s' _ _ H H1) in Hs'. destruct k as [|k]; cbn in Hs'; [|left; exact Hs'].
          injection Hs' as <-. right. exists s. split; [exact H|]. split; [exact (L_send 0 s i x H0)|]. destruct (offer_send _ _ _ _ H0) as (outs & st & more & brk & serr & E1 & _). rewrite E1. split; [discriminate | right; discriminate].
        + apply (pmeas_lex p _ k s (did_send s i x) H); [unfold get; cbn [stages with_stages]; rewrite (get_set2' p k s s' _ _ H H1), Nat.eqb_refl; reflexivity | exact Hlen | |].
          * intros j Hj. unfold get. cbn [stages with_stages]. rewrite (get_set2' p k s s' _ _ H H1). destruct (j =? k) eqn:E; [apply Nat.eqb_eq in E; lia|]. destruct (j =? S k) eqn:E'; [apply Nat.eqb_eq in E'; lia | reflexivity].
          * right. exact (send_less k s i x H0).
      - split.
        + apply HX. intros s0 Hs'. unfold get in Hs'. cbn [stages with_stages] in Hs'. rewrite (get_set1 p k s _ H) in Hs'. destruct k as [|k]; cbn in Hs'; [|left; exact Hs'].
          injection Hs' as <-. right. exists s. split; [exact H|]. split; [exact (L_send 0 s i x H0)|]. destruct (offer_send _ _ _ _ H0) as (outs & st & more & brk & serr & E1 & _). rewrite E1. split; [discriminate | right; discriminate].
        + apply (pmeas_lex p _ k s (did_send s i x) H); [unfold get; cbn [stages with_stages]; rewrite (get_set1 p k s _ H), Nat.eqb_refl; reflexivity | exact Hlen | |].
          * intros j Hj. unfold get. cbn [stages with_stages]. rewrite (get_set1 p k s _ H). destruct (j =? k) eqn:E; [apply Nat.eqb_eq in E; lia | reflexivity].
          * right. exact (send_less k s i x H0).
      - split.
        + apply HX. intros s0 Hs'. unfold get in Hs'. cbn [stages with_stages] in Hs'. rewrite (get_set1 p (S k) s _ H0) in Hs'. left. exact Hs'.
        + apply (pmeas_lex p _ (S k) s (see_end (bs (S k)) s) H0); [unfold get; cbn [stages with_stages]; rewrite (get_set1 p (S k) s _ H0), Nat.eqb_refl; reflexivity | exact Hlen | |].
          * intros j Hj. unfold get. cbn [stages with_stages]. rewrite (get_set1 p (S k) s _ H0). destruct (j =? S k) eqn:E; [apply Nat.eqb_eq in E; lia | reflexivity].
          * left. apply end_less. exact H1.
      - split.
        + apply HX. intros s0 Hs'. unfold get in Hs'. cbn [stages with_stages] in Hs'. rewrite (get_set2 p k s s' _ _ H H0) in Hs'. destruct k as [|k]; cbn in Hs'; [|left; exact Hs'].
          injection Hs' as <-. right. exists s. split; [exact H|]. split; [exact (L_hear 0 s i e t H2)|]. split.
          * intros x E Er. exfalso. unfold hear in H2. rewrite Er in H2. injection H2 as H2. pose proof (f_equal rcvd (eq_trans H2 E)) as E'. cbn in E'.
            assert (rcvd (receive (bs 0) s x) = rcvd s ++ [x]). { unfold receive. destruct (proc (bs 0) (rcvd s ++ [x])) as [outs []]; reflexivity. }
            rewrite H3 in E'. apply (f_equal (@length D)) in E'. rewrite app_length in E'. cbn in E'. lia.
          * unfold hear in H2. destruct (pc s) eqn:Er; try (right; discriminate). left. injection H2 as <-. intros E. pose proof (f_equal ended E) as E'. cbn in E'.
            rewrite (J3 s H) in E'. unfold see_end in E'. destruct (nomore (bs 0) (rcvd s)) as [outs []]; discriminate E'.
        + apply (pmeas_lex p _ k s t H); [unfold get; cbn [stages with_stages]; rewrite (get_set2 p k s s' _ _ H H0), Nat.eqb_refl; reflexivity | exact Hlen | | exact (hear_less k s i e t H2)].
          intros j Hj. unfold get. cbn [stages with_stages]. rewrite (get_set2 p k s s' _ _ H H0). destruct (j =? k) eqn:E; [apply Nat.eqb_eq in E; lia|]. destruct (j =? S k) eqn:E'; [apply Nat.eqb_eq in E'; lia | reflexivity].
      - split.
        + apply HX. intros s0 Hs'. unfold get in Hs'. cbn [stages with_stages] in Hs'. rewrite (get_set1 p k s _ H) in Hs'. destruct k as [|k]; cbn in Hs'; [|left; exact Hs'].
          injection Hs' as <-. right. exists s. split; [exact H|]. split; [exact (L_hear 0 s i [] t H2)|]. split.
          * intros x E Er. exfalso. unfold hear in H2. rewrite Er in H2. injection H2 as H2. pose proof (f_equal rcvd (eq_trans H2 E)) as E'. cbn in E'.
            assert (rcvd (receive (bs 0) s x) = rcvd s ++ [x]). { unfold receive. destruct (proc (bs 0) (rcvd s ++ [x])) as [outs []]; reflexivity. }
            rewrite H3 in E'. apply (f_equal (@length D)) in E'. rewrite app_length in E'. cbn in E'. lia.
          * unfold hear in H2. destruct (pc s) eqn:Er; try (right; discriminate). left. injection H2 as <-. intros E. pose proof (f_equal ended E) as E'. cbn in E'.
            rewrite (J3 s H) in E'. unfold see_end in E'. destruct (nomore (bs 0) (rcvd s)) as [outs []]; discriminate E'.
        + apply (pmeas_lex p _ k s t H); [unfold get; cbn [stages with_stages]; rewrite (get_set1 p k s _ H), Nat.eqb_refl; reflexivity | exact Hlen | | exact (hear_less k s i [] t H2)].
          intros j Hj. unfold get. cbn [stages with_stages]. rewrite (get_set1 p k s _ H). destruct (j =? k) eqn:E; [apply Nat.eqb_eq in E; lia | reflexivity].
      - split.
        + apply HX. intros s0 Hs'. unfold get in Hs'. cbn [stages with_stages] in Hs'. rewrite (get_set1 p k s _ H) in Hs'. destruct k as [|k]; cbn in Hs'; [|left; exact Hs'].
          injection Hs' as <-. right. exists s. split; [exact H|]. split; [exact (L_go 0 s t H0)|]. unfold go_on in H0. destruct (pc s); try discriminate H0. split; [discriminate | right; discriminate].
        + apply (pmeas_lex p _ k s t H); [unfold get; cbn [stages with_stages]; rewrite (get_set1 p k s _ H), Nat.eqb_refl; reflexivity | exact Hlen | | exact (go_less k s t H0)].
          intros j Hj. unfold get. cbn [stages with_stages]. rewrite (get_set1 p k s _ H). destruct (j =? k) eqn:E; [apply Nat.eqb_eq in E; lia | reflexivity].
      - split; [apply HX; intros s0 Hs'; left; exact Hs'|]. unfold pmeas. cbn [stages drained pump waited]. rewrite H2. apply lex_app, lex_here; [lia | reflexivity].
      - split.
        + apply HX. intros s0 Hs'. unfold get in Hs'. cbn [stages with_stages] in Hs'. rewrite (get_set1 p 0 s _ H0) in Hs'. cbn in Hs'. injection Hs' as <-. right. exists s.
          split; [exact H0|]. split; [exact (L_fin 0 s e H1)|]. unfold err_of in H1. destruct (pc s); try discriminate H1; (split; [discriminate | right; discriminate]).
        + unfold err_of in H1. destruct (pc s) eqn:Ep; try discriminate H1.
          * apply (pmeas_lex p _ 0 s (finished s) H0); [unfold get; cbn [stages]; rewrite (get_set1 p 0 s _ H0); reflexivity | exact Hlen | lia |]. left. unfold rank. cbn. rewrite Ep. lia.
          * injection H1 as <-. unfold pmeas. cbn [stages drained pump waited]. rewrite (finished_eq s Ep), (set_nth_same _ _ _ H0), H. apply lex_app, lex_next, lex_here; [lia | reflexivity].
      - split; [apply HX; intros s0 Hs'; left; exact Hs'|]. unfold pmeas. cbn [stages drained pump waited]. rewrite H. destruct H0 as [-> | [-> _]]; apply lex_app, lex_next; [apply lex_here; [lia|reflexivity] | apply lex_next, lex_here; [lia | reflexivity]].
    Qed.

    Definition pinvs (n : nat) (p : pipe) : Prop := pinv n p /\ sinv p.
    Lemma pinvs_step n p a p' : pinvs n p -> step p a = Some p' -> pinvs n p'.
    Proof. intros [H1 H2] H. split; [exact (pinv_step n p a p' H1 H) | exact (proj1 (sinv_step p a p' H2 H))]. Qed.
    Lemma pinvs_run n l : pinvs n (run step (pipe_start n) l).
    Proof. apply (run_inv step (pinvs n) (pinvs_step n)). split; [apply pinv_start | apply sinv_start]. Qed.

    (** Every fair schedule lets Wait return, and then everything has stopped. *)
    Lemma pipe_terminates n f : 0 < n -> fair f -> exists m, let p := run step (pipe_start n) (prefix f m) in waited p <> None /\ all_over p.
    Proof.
      intros Hn Hf.
      destruct (fair_finishes step (pinvs n) (pinvs_step n) (fun p' p => lex (pmeas p') (pmeas p)) (wf_inverse_image _ _ lex pmeas lex_wf)
                  (fun p a p' HI H => proj2 (sinv_step p a p' (proj2 HI) H))) with (f := f) (s := @pipe_start D n) as [m Hm].
      - intros p HI. destruct (waited p) eqn:Ew.
        + left. apply over_stuck; [apply (waited_over n p Hn (proj1 HI))|]; congruence.
        + right. exact (progress n p Hn (proj1 HI) Ew).
      - split; [apply pinv_start | apply sinv_start].
      - exact Hf.
      - exists m. cbv zeta. pose proof (pinvs_run n (prefix f m)) as HI. set (p := run step (pipe_start n) (prefix f m)) in *.
        assert (Hw : waited p <> None).
        { intros Hw. destruct (progress n p Hn (proj1 HI) Hw) as [a Ha]. apply Ha, Hm. }
        split; [exact Hw | exact (waited_over n p Hn (proj1 HI) Hw)].
    Qed.

    (** No schedule does infinitely many steps. *)
    Lemma pipe_no_infinite_run n f : ~ forall m, step (run step (pipe_start n) (prefix f m)) (f m) <> None.
    Proof.
      intros Hf.
      assert (G : forall x m, x = pmeas (run step (pipe_start n) (prefix f m)) -> False).
      2:{ exact (G _ 0 eq_refl). }
      induction x as [x IH] using (well_founded_ind lex_wf). intros m ->. specialize (Hf m).
      destruct (step (run step (pipe_start n) (prefix f m)) (f m)) as [p'|] eqn:E; [|congruence].
      apply (IH (pmeas p') (proj2 (sinv_step _ _ _ (proj2 (pinvs_run n (prefix f m))) E)) (S m)). cbn [prefix]. rewrite run_app. cbn [run fold_left]. unfold do. rewrite E. reflexivity.
    Qed.
  End Term.

  Lemma pipe_no_deadlock n l : 0 < n -> let p := run step (pipe_start n) l in waited p = None -> exists a, step p a <> None.
  Proof. intros Hn p Hw. apply (progress n p Hn); [|exact Hw]. apply (run_inv step (pinv n) (pinv_step n)). apply pinv_start. Qed.
  Lemma pipe_stops n l : 0 < n -> let p := run step (pipe_start n) l in waited p <> None -> all_over p.
  Proof. intros Hn p Hw. apply (waited_over n p Hn); [|exact Hw]. apply (run_inv step (pinv n) (pinv_step n)). apply pinv_start. Qed.
End Pipe.
