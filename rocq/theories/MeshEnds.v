(** The mesh ends if no batcher fails before its inputs are closed, and hangs otherwise. *)
From Verif Require Import Base BaseLemmas SysModel SysProofs PipeModel PipeProofs PipeErrors JoinModel JoinProofs MeshModel MeshProofs.

Section Ends.
  Context {D : Type}.
  Variable N : nat.
  Variable fails fails_end : nat -> list D -> option bytes.
  Variable work : nat -> list (list (D * nat)).
  Notation mesh := (@mesh D).
  Notation step := (mesh_step N fails fails_end).
  Notation mtrans := (mtrans N fails fails_end).

  (** ** In all runs *)
  Definition safe (c : mesh) : Prop := delivered N c /\ accounted work c /\ pending c /\ honest N fails fails_end c.
  Lemma safe_start : safe (mesh_start work).
  Proof.
    split; [|split; [|split]].
    - intros p j Hj. cbn [mesh_start bats carries exts brcvd held xsent]. rewrite cnt_nil. cbn [towards]. rewrite (sumb_ext N (fun i => towards p j []) (fun _ => 0)) by reflexivity. reflexivity.
    - intros q i. cbn [mesh_start exts]. unfold rest_of. cbn [xsent xpend xleft]. rewrite !cnt_nil. lia.
    - intros i _. reflexivity.
    - split; [intros j e H; discriminate H|]. split; [intros i j e _ H; discriminate H|]. split; [intros i e [] | intros j _; reflexivity].
  Qed.
  Lemma safe_step c c' : safe c -> mtrans c c' -> safe c'.
  Proof.
    intros (I1 & I2 & I3 & I4) H. split; [exact (delivered_step N fails fails_end c c' I1 H)|]. split.
    - refine (accounted_step N fails fails_end work c c' _ I2 H). intros i E. apply I3. congruence.
    - split; [exact (pending_step N fails fails_end c c' I3 H) | exact (honest_step N fails fails_end c c' I4 H)].
  Qed.
  Lemma safe_run l : safe (run step (mesh_start work) l).
  Proof. apply (run_inv step safe); [|exact safe_start]. intros s a s' I E. apply (safe_step s s' I). exact (step_trans N fails fails_end s a s' E). Qed.

  (** ** If no batcher fails before its inputs are closed *)
  Hypothesis routed : forall i d j, i < N -> In (d, j) (concat (work i)) -> j < N.
  Hypothesis no_early : forall j h, j < N -> fails j h = None.
  Definition shut (x : @ext D) : Prop := xpc x = XBrk \/ xpc x = XDone.
  Definition live (c : mesh) : Prop :=
    (forall i, i < N -> xtold (exts c i) = false /\ (xpc (exts c i) = XSend -> xpend (exts c i) <> []) /\ (shut (exts c i) -> xleft (exts c i) = []) /\
      (forall q, cnt q (concat (work i)) <= rest_of q (exts c i))) /\
    (forall i j, i < N -> j < N -> carries c j i = FEnd -> shut (exts c i)) /\
    (forall j, j < N -> bpc (bats c j) <> BWork -> bend (bats c j) = true /\ (forall i, i < N -> carries c j i = FEnd)) /\
    (forall i j, i < N -> j < N -> tells c i j <> TIdle -> bpc (bats c j) = BDone).

  Lemma live_start : live (mesh_start work).
  Proof.
    split; [|split; [|split]].
    - intros i Hi. cbn [mesh_start exts xtold xpc]. split; [reflexivity|]. split; [discriminate|]. split; [intros [H|H]; discriminate H|]. intros q. unfold rest_of. cbn [mesh_start exts xsent xpend xleft]. lia.
    - intros i j _ _ H. discriminate H.
    - intros j _ H. contradiction H. reflexivity.
    - intros i j _ _ H. contradiction H. reflexivity.
  Qed.
  (** an extractor that could hear something has closed its outputs *)
  Lemma told_shut c i j : live c -> i < N -> j < N -> tells c i j <> TIdle -> shut (exts c i).
  Proof.
    intros (L1 & L2 & L3 & L4) Hi Hj Ht. specialize (L4 i j Hi Hj Ht). apply (L2 i j Hi Hj). apply (L3 j Hj); [congruence | exact Hi].
  Qed.
  Lemma listen_shut (x x' : @ext D) e : shut x -> listen x e = Some x' -> xpc x = XBrk /\ x' = mk_ext XDone (coalesce (xfound x) e) (xtold x) (xleft x) (xpend x) (xsent x).
  Proof. intros S H. apply listen_cases in H as [[E ->]|[E ->]]; [destruct S; congruence | auto]. Qed.
  Lemma listen_send_shut (x x' : @ext D) k e : shut x -> listen_send x k e = Some x' -> False.
  Proof. intros S H. apply listen_send_cases in H as (y & E & _). destruct S; congruence. Qed.
  Lemma sent_all_false (p : list (D * nat)) : (sent_all false p = XSend -> p <> []) /\ ~ (sent_all false p = XBrk \/ sent_all false p = XDone).
  Proof. unfold sent_all. destruct p; split; try discriminate; intros [H|H]; discriminate. Qed.

  Lemma live_step c c' : safe c -> live c -> mtrans c c' -> live c'.
  Proof.
    intros Sf Lv H. pose proof Sf as (_ & _ & Pe & _). pose proof Lv as (L1 & L2 & L3 & L4). destruct H.
    - split; [|split; [|split]]; cbn [with_ext exts carries bats tells]; [| |exact L3|exact L4].
      + intros a Ha. match goal with |- context [upd (exts c) i ?x a] => destruct (upd_cases (exts c) i x a) as [[-> E]|[_ E]]; rewrite E; clear E end; [|exact (L1 a Ha)].
        destruct (L1 i Ha) as (T & _ & _ & Q). rewrite T. cbn [xtold xpc xpend xleft]. destruct (sent_all_false r) as [S1 S2]. split; [reflexivity|]. split; [exact S1|].
        split; [intros X; contradiction (S2 X)|]. intros q. specialize (Q q). unfold rest_of in *. cbn [xsent xpend xleft]. rewrite H1 in Q. cbn [concat] in Q.
        rewrite (Pe i) in Q by congruence. rewrite cnt_app, cnt_nil in Q. lia.
      + intros a j Ha Hj Hc. specialize (L2 a j Ha Hj Hc). match goal with |- context [upd (exts c) i ?x a] => destruct (upd_cases (exts c) i x a) as [[-> E]|[_ E]]; rewrite E; clear E end; [|exact L2].
        destruct L2; congruence.
    - split; [|split; [|split]]; cbn [with_ext exts carries bats tells]; [| |exact L3|exact L4].
      + intros a Ha. match goal with |- context [upd (exts c) i ?x a] => destruct (upd_cases (exts c) i x a) as [[-> E]|[_ E]]; rewrite E; clear E end; [|exact (L1 a Ha)].
        destruct (L1 i Ha) as (T & _ & _ & Q). cbn [xtold xpc xpend xleft]. split; [exact T|]. split; [discriminate|]. split; [reflexivity|].
        intros q. specialize (Q q). unfold rest_of in *. cbn [xsent xpend xleft]. rewrite H1 in Q. exact Q.
      + intros a j Ha Hj Hc. match goal with |- context [upd (exts c) i ?x a] => destruct (upd_cases (exts c) i x a) as [[-> E]|[_ E]]; rewrite E; clear E end; [left; reflexivity | exact (L2 a j Ha Hj Hc)].
    - split; [|split; [|split]]; cbn [with_carry with_ext exts carries bats tells]; [| | |exact L4].
      + intros a Ha. match goal with |- context [upd (exts c) i ?x a] => destruct (upd_cases (exts c) i x a) as [[-> E]|[_ E]]; rewrite E; clear E end; [|exact (L1 a Ha)].
        destruct (L1 i Ha) as (T & _ & _ & Q). rewrite T. cbn [xtold xpc xpend xleft]. destruct (sent_all_false (remove_at k (xpend (exts c i)))) as [S1 S2]. split; [reflexivity|]. split; [exact S1|].
        split; [intros X; contradiction (S2 X)|]. intros q. specialize (Q q). unfold rest_of in *. cbn [xsent xpend xleft]. rewrite cnt_app, cnt_cons, cnt_nil.
        rewrite (cnt_remove q k _ _ H2) in Q. lia.
      + intros a b Ha Hb Hc. destruct (upd2_cases (carries c) j i (FHold d) b a) as [(-> & -> & E)|[_ E]]; rewrite E in Hc; [discriminate|]. specialize (L2 a b Ha Hb Hc).
        match goal with |- context [upd (exts c) i ?x a] => destruct (upd_cases (exts c) i x a) as [[-> E2]|[_ E2]]; rewrite E2; clear E2 end; [|exact L2]. destruct L2; congruence.
      + intros b Hb Hw. specialize (L3 b Hb Hw). split; [apply L3|]. intros a Ha. destruct (upd2_cases (carries c) j i (FHold d) b a) as [(-> & -> & E)|[_ E]]; [|rewrite E; apply L3; exact Ha].
        destruct L3 as [_ L3]. specialize (L3 i Ha). congruence.
    - assert (Sh : shut (exts c i)) by (apply (told_shut c i j Lv H H0); congruence). destruct (listen_shut _ _ _ Sh H2) as [Ex ->].
      assert (Bd : bpc (bats c j) = BDone) by (apply (L4 i j H H0); congruence).
      split; [|split; [|split]]; cbn [with_tell with_ext exts carries bats tells]; [| |exact L3|].
      + intros a Ha. match goal with |- context [upd (exts c) i ?x a] => destruct (upd_cases (exts c) i x a) as [[-> E]|[_ E]]; rewrite E; clear E end; [|exact (L1 a Ha)].
        destruct (L1 i Ha) as (T & _ & Q1 & Q). cbn [xtold xpc xpend xleft]. split; [exact T|]. split; [discriminate|]. split; [intros _; exact (Q1 Sh) | exact Q].
      + intros a b Ha Hb Hc. match goal with |- context [upd (exts c) i ?x a] => destruct (upd_cases (exts c) i x a) as [[-> E]|[_ E]]; rewrite E; clear E end; [right; reflexivity | exact (L2 a b Ha Hb Hc)].
      + intros a b Ha Hb Ht. destruct (upd2_cases (tells c) i j TIdle a b) as [(-> & -> & E)|[_ E]]; [exact Bd | rewrite E in Ht; exact (L4 a b Ha Hb Ht)].
    - assert (Sh : shut (exts c i)) by (apply (told_shut c i j Lv H H0); congruence). contradiction (listen_send_shut _ _ _ _ Sh H2).
    - assert (Sh : shut (exts c i)) by (apply (told_shut c i i Lv H H); rewrite (H0 i H); discriminate). destruct (listen_shut _ _ _ Sh H1) as [Ex ->].
      split; [|split; [|split]]; cbn [with_tell with_ext exts carries bats tells]; [| |exact L3|exact L4].
      + intros a Ha. match goal with |- context [upd (exts c) i ?x a] => destruct (upd_cases (exts c) i x a) as [[-> E]|[_ E]]; rewrite E; clear E end; [|exact (L1 a Ha)].
        destruct (L1 i Ha) as (T & _ & Q1 & Q). cbn [xtold xpc xpend xleft]. split; [exact T|]. split; [discriminate|]. split; [intros _; exact (Q1 Sh) | exact Q].
      + intros a b Ha Hb Hc. match goal with |- context [upd (exts c) i ?x a] => destruct (upd_cases (exts c) i x a) as [[-> E]|[_ E]]; rewrite E; clear E end; [right; reflexivity | exact (L2 a b Ha Hb Hc)].
    - assert (Sh : shut (exts c i)) by (apply (told_shut c i i Lv H H); rewrite (H0 i H); discriminate). contradiction (listen_send_shut _ _ _ _ Sh H1).
    - split; [|split; [|split]]; cbn [with_carry with_bat exts carries bats tells]; [exact L1| | |].
      + intros a b Ha Hb Hc. destruct (upd2_cases (carries c) j i FIdle b a) as [(-> & -> & E)|[_ E]]; rewrite E in Hc; [discriminate | exact (L2 a b Ha Hb Hc)].
      + intros b Hb Hw. destruct (upd_cases (bats c) j (got fails j (bats c j) d) b) as [[-> E]|[Hn E]]; rewrite E in *.
        * unfold got in Hw. cbn [bpc] in Hw. rewrite no_early in Hw by exact Hb. contradiction Hw. reflexivity.
        * specialize (L3 b Hb Hw). split; [apply L3|]. intros a Ha. destruct (upd2_cases (carries c) j i FIdle b a) as [(-> & -> & E2)|[_ E2]]; [contradiction Hn; reflexivity | rewrite E2; apply L3; exact Ha].
      + intros a b Ha Hb Ht. specialize (L4 a b Ha Hb Ht). destruct (upd_cases (bats c) j (got fails j (bats c j) d) b) as [[-> E]|[Hn E]]; [congruence | rewrite E; exact L4].
    - split; [|split; [|split]]; cbn [with_carry with_bat exts carries bats tells]; [exact L1| | |exact L4].
      + intros a b Ha Hb Hc. destruct (upd2_cases (carries c) j i FEnd b a) as [(-> & -> & E)|[_ E]]; [exact H2 | rewrite E in Hc; exact (L2 a b Ha Hb Hc)].
      + intros b Hb Hw. specialize (L3 b Hb Hw). split; [apply L3|]. intros a Ha. destruct (upd2_cases (carries c) j i FEnd b a) as [(_ & _ & E)|[_ E]]; rewrite E; [reflexivity | apply L3; exact Ha].
    - split; [|split; [|split]]; cbn [with_carry with_bat exts carries bats tells]; [exact L1|exact L2| |].
      + intros b Hb Hw. destruct (upd_cases (bats c) j (got_end fails_end j (bats c j)) b) as [[-> E]|[_ E]]; rewrite E in *; [split; [reflexivity | exact H1] | exact (L3 b Hb Hw)].
      + intros a b Ha Hb Ht. specialize (L4 a b Ha Hb Ht). destruct (upd_cases (bats c) j (got_end fails_end j (bats c j)) b) as [[-> E]|[_ E]]; [congruence | rewrite E; exact L4].
    - set (x := mk_bat _ _ _). split; [|split; [|split]]; cbn [with_tell with_bat exts carries bats tells]; [exact L1|exact L2| |].
      + intros b Hb Hw. destruct (upd_cases (bats c) j x b) as [[-> E]|[_ E]]; rewrite E in *; [apply (L3 j Hb); congruence | exact (L3 b Hb Hw)].
      + intros a b Ha Hb Ht. destruct (upd_cases (bats c) j x b) as [[-> E]|[Hn E]]; rewrite E; [reflexivity|].
        destruct (upd2_cases (tells c) i j (THold e) a b) as [(_ & -> & E2)|[_ E2]]; [contradiction Hn; reflexivity | rewrite E2 in Ht; exact (L4 a b Ha Hb Ht)].
    - split; [|split; [|split]]; cbn [with_tell with_bat exts carries bats tells]; [exact L1|exact L2|exact L3|].
      intros a b Ha Hb Ht. destruct (upd2_cases (tells c) i j TDone a b) as [(_ & -> & _)|[_ E2]]; [exact H1 | rewrite E2 in Ht; exact (L4 a b Ha Hb Ht)].
  Qed.

  (** ** The end *)
  Definition over (c : mesh) : Prop := (forall i, i < N -> xpc (exts c i) = XDone) /\ (forall j, j < N -> bpc (bats c j) = BDone).

  Lemma pend_routed c i d j : safe c -> i < N -> In (d, j) (xpend (exts c i)) -> j < N.
  Proof.
    intros (_ & Ac & _) Hi Hin. destruct (j <? N) eqn:Ej; [apply Nat.ltb_lt; exact Ej|]. exfalso.
    specialize (Ac (fun q => negb (snd q <? N)) i). unfold rest_of in Ac.
    assert (Z : cnt (fun q : D * nat => negb (snd q <? N)) (concat (work i)) = 0).
    { unfold cnt. destruct (filter _ _) as [|y l] eqn:Ef; [reflexivity|]. exfalso. assert (Hy : In y (y :: l)) by (left; reflexivity). rewrite <- Ef in Hy.
      apply filter_In in Hy as [Hy Hb]. destruct y as [dy jy]. apply (routed i dy jy Hi) in Hy. apply Nat.ltb_lt in Hy. cbn [snd] in Hb. rewrite Hy in Hb. discriminate. }
    assert (P : 1 <= cnt (fun q : D * nat => negb (snd q <? N)) (xpend (exts c i))).
    { unfold cnt. destruct (filter _ _) as [|y l] eqn:Ef; [|cbn; lia]. exfalso.
      assert (Hy : In (d, j) (filter (fun q : D * nat => negb (snd q <? N)) (xpend (exts c i)))) by (apply filter_In; cbn [snd]; rewrite Ej; auto). rewrite Ef in Hy. destruct Hy. }
    lia.
  Qed.

  Lemma ltb_true i : i < N -> (i <? N) = true. Proof. apply Nat.ltb_lt. Qed.

  Lemma progress c : safe c -> live c -> over c \/ exists a, step c a <> None.
  Proof.
    intros Sf Lv. pose proof Lv as (L1 & L2 & L3 & L4).
    (* extractors that work *)
    destruct (below_dec N (fun i => match xpc (exts c i) with XRead => false | XSend => false | _ => true end)) as [A1|(i & Hi & A1)].
    2:{ right. destruct (xpc (exts c i)) eqn:Ex; try discriminate.
        - destruct (xleft (exts c i)) as [|r rest] eqn:El; [exists (AEnd i) | exists (ARead i)]; cbn [mesh_step]; rewrite Ex, El, (ltb_true i Hi); discriminate.
        - destruct (L1 i Hi) as (_ & P & _). specialize (P Ex). destruct (xpend (exts c i)) as [|[d j] rest] eqn:Ep; [contradiction P; reflexivity|].
          assert (Hj : j < N) by (apply (pend_routed c i d j Sf Hi); rewrite Ep; left; reflexivity).
          destruct (carries c j i) as [|d'|] eqn:Ec.
          + exists (ASend i 0). cbn [mesh_step]. rewrite Ex, Ep. cbn [nth_error]. rewrite Ec, (ltb_true i Hi), (ltb_true j Hj). discriminate.
          + destruct (bpc (bats c j)) eqn:Eb.
            * exists (ACarry j i). cbn [mesh_step]. rewrite Ec, Eb, (ltb_true i Hi), (ltb_true j Hj). discriminate.
            * exfalso. assert (W : bpc (bats c j) <> BWork) by congruence. destruct (L3 j Hj W) as [_ W2]. specialize (W2 i Hi). congruence.
            * exfalso. assert (W : bpc (bats c j) <> BWork) by congruence. destruct (L3 j Hj W) as [_ W2]. specialize (W2 i Hi). congruence.
          + destruct (L2 i j Hi Hj Ec); congruence. }
    assert (B1 : forall i, i < N -> shut (exts c i)) by (intros i Hi; specialize (A1 i Hi); unfold shut; destruct (xpc (exts c i)); auto; discriminate).
    (* goroutines that carry *)
    destruct (below_dec N (fun j => all_below N (fun i => match carries c j i with FEnd => true | _ => false end))) as [A2|(j & Hj & A2)].
    2:{ right. apply not_all_below in A2 as (i & Hi & A2). destruct (carries c j i) as [|d|] eqn:Ec; [| |discriminate].
        - exists (ACarryEnd j i). cbn [mesh_step]. rewrite Ec. destruct (B1 i Hi) as [E|E]; rewrite E, (ltb_true i Hi), (ltb_true j Hj); discriminate.
        - destruct (bpc (bats c j)) eqn:Eb.
          + exists (ACarry j i). cbn [mesh_step]. rewrite Ec, Eb, (ltb_true i Hi), (ltb_true j Hj). discriminate.
          + exfalso. assert (W : bpc (bats c j) <> BWork) by congruence. destruct (L3 j Hj W) as [_ W2]. specialize (W2 i Hi). congruence.
          + exfalso. assert (W : bpc (bats c j) <> BWork) by congruence. destruct (L3 j Hj W) as [_ W2]. specialize (W2 i Hi). congruence. }
    (* batchers *)
    destruct (below_dec N (fun j => match bpc (bats c j) with BDone => true | _ => false end)) as [A3|(j & Hj & A3)].
    2:{ right. destruct (bpc (bats c j)) as [|e|] eqn:Eb; [| |discriminate].
        - exists (ABatEnd j). cbn [mesh_step]. rewrite Eb, (A2 j Hj), (ltb_true j Hj). discriminate.
        - exists (ATake j j). cbn [mesh_step]. destruct (tells c j j) eqn:Et.
          + rewrite Eb, (ltb_true j Hj). discriminate.
          + exfalso. assert (W : tells c j j <> TIdle) by congruence. specialize (L4 j j Hj Hj W). congruence.
          + exfalso. assert (W : tells c j j <> TIdle) by congruence. specialize (L4 j j Hj Hj W). congruence. }
    assert (B3 : forall j, j < N -> bpc (bats c j) = BDone) by (intros j Hj; specialize (A3 j Hj); destruct (bpc (bats c j)); congruence).
    (* extractors that wait for errors *)
    destruct (below_dec N (fun i => match xpc (exts c i) with XDone => true | _ => false end)) as [A4|(i & Hi & A4)].
    - left. split; [|exact B3]. intros i Hi. specialize (A4 i Hi). destruct (xpc (exts c i)); congruence.
    - right. assert (Ex : xpc (exts c i) = XBrk) by (destruct (B1 i Hi) as [E|E]; rewrite E in A4; [exact E | discriminate]).
      destruct (all_told N c i) eqn:At.
      + exists (AClosed i). cbn [mesh_step]. rewrite At, (ltb_true i Hi). unfold listen. rewrite Ex. discriminate.
      + unfold all_told in At. apply not_all_below in At as (j & Hj & At). destruct (tells c i j) as [|e|] eqn:Et; [| |discriminate].
        * exists (ATellEnd i j). cbn [mesh_step]. rewrite (B3 j Hj), Et, (ltb_true i Hi), (ltb_true j Hj). discriminate.
        * exists (AHear i j). cbn [mesh_step]. rewrite Et. unfold listen. rewrite Ex, (ltb_true i Hi), (ltb_true j Hj). discriminate.
  Qed.

  Lemma live_run l : live (run step (mesh_start work) l).
  Proof.
    assert (X : safe (run step (mesh_start work) l) /\ live (run step (mesh_start work) l)); [|apply X].
    apply (run_inv step (fun c => safe c /\ live c)); [|split; [exact safe_start | exact live_start]].
    intros s a s' [I1 I2] E. apply step_trans in E. split; [exact (safe_step s s' I1 E) | exact (live_step s s' I1 I2 E)].
  Qed.

  Lemma ends f : fair f -> exists n, over (run step (mesh_start work) (prefix f n)).
  Proof.
    intros Hf. apply (fair_reaches step (fun c => safe c /\ live c) over (rank N)); [| | |split; [exact safe_start | exact live_start] | exact Hf].
    - intros s a s' [I1 I2] E. apply step_trans in E. split; [exact (safe_step s s' I1 E) | exact (live_step s s' I1 I2 E)].
    - intros s a s' _ E. apply step_trans in E. exact (rank_step N fails fails_end s s' E).
    - intros s [I1 I2]. exact (progress s I1 I2).
  Qed.

  (** At the end everything has arrived *)
  Lemma all_arrived l c : c = run step (mesh_start work) l -> over c -> forall p j, j < N ->
    cnt p (brcvd (bats c j)) = sumb N (fun i => towards p j (concat (work i))).
  Proof.
    intros Ec [O1 O2] p j Hj. assert (Sf : safe c) by (subst c; apply safe_run). assert (Lv : live c) by (subst c; apply live_run). clear Ec.
    destruct Sf as (De & Ac & Pe & _). destruct Lv as (L1 & L2 & L3 & L4). specialize (De p j Hj).
    assert (W : bpc (bats c j) <> BWork) by (rewrite (O2 j Hj); discriminate). destruct (L3 j Hj W) as [_ F].
    rewrite (sumb_ext N (fun i => held p (carries c j i)) (fun _ => 0)) in De by (intros i Hi; rewrite (F i Hi); reflexivity).
    assert (Z : sumb N (fun _ => 0) = 0) by (clear; induction N as [|n IH]; cbn; lia). rewrite Z in De.
    rewrite (sumb_ext N _ (fun i => towards p j (concat (work i)))) in De; [lia|]. intros i Hi. destruct (L1 i Hi) as (_ & _ & Q1 & Q). unfold towards.
    specialize (Q (fun q => p (fst q) && (snd q =? j))). specialize (Ac (fun q => p (fst q) && (snd q =? j)) i). unfold rest_of in *.
    rewrite (Pe i), Q1 in Q, Ac by (try (right; apply O1; exact Hi); rewrite (O1 i Hi); discriminate). cbn [concat] in Q, Ac. rewrite cnt_nil in Q, Ac. lia.
  Qed.

  (** ** A failure at the end is reported by an extractor *)
  Definition reported (c : mesh) : Prop := exists i e, i < N /\ In e (xfound (exts c i)).
  Definition tracked (c : mesh) : Prop :=
    (forall j e, j < N -> bpc (bats c j) = BDone -> fails_end j (brcvd (bats c j)) = Some e -> reported c \/ exists i, i < N /\ tells c i j = THold e /\ xpc (exts c i) <> XDone) /\
    (forall i, i < N -> xpc (exts c i) = XDone -> reported c \/ forall j, j < N -> tells c i j = TDone).
  Lemma reported_step c c' : live c -> mtrans c c' -> reported c -> reported c'.
  Proof.
    intros Lv H (i & e & Hi & He). exists i, e. split; [exact Hi|].
    destruct H; cbn [with_ext with_carry with_bat with_tell exts carries bats tells]; try exact He;
      (match goal with |- context [upd (exts c) ?a ?x i] => destruct (upd_cases (exts c) a x i) as [[-> E]|[_ E]]; rewrite E; clear E end; [|exact He]).
    - exact He.
    - exact He.
    - exact He.
    - assert (Sh : shut (exts c i0)) by (apply (told_shut c i0 j Lv H H0); congruence). destruct (listen_shut _ _ _ Sh H2) as [Ex ->]. cbn [xfound]. apply coalesce_in. left. exact He.
    - assert (Sh : shut (exts c i0)) by (apply (told_shut c i0 j Lv H H0); congruence). contradiction (listen_send_shut _ _ _ _ Sh H2).
    - assert (Sh : shut (exts c i0)) by (apply (told_shut c i0 i0 Lv H H); rewrite (H0 i0 H); discriminate). destruct (listen_shut _ _ _ Sh H1) as [Ex ->]. cbn [xfound]. apply coalesce_in. left. exact He.
    - assert (Sh : shut (exts c i0)) by (apply (told_shut c i0 i0 Lv H H); rewrite (H0 i0 H); discriminate). contradiction (listen_send_shut _ _ _ _ Sh H1).
  Qed.
  Lemma tracked_start : tracked (mesh_start work).
  Proof. split; [intros j e _ H; discriminate H | intros i _ H; discriminate H]. Qed.
  Lemma told_done_step c c' i j : mtrans c c' -> tells c i j = TDone -> tells c' i j = TDone.
  Proof.
    intros H Ht. destruct H; cbn [with_ext with_carry with_bat with_tell exts carries bats tells]; try exact Ht;
      (match goal with |- context [upd2 (tells c) ?a ?b ?x i j] => destruct (upd2_cases (tells c) a b x i j) as [(-> & -> & E)|[_ E]]; rewrite E end; [congruence | exact Ht]).
  Qed.
  Lemma tracked_done c c' : live c -> tracked c -> mtrans c c' -> forall i, i < N -> xpc (exts c' i) = XDone -> reported c' \/ forall j, j < N -> tells c' i j = TDone.
  Proof.
    intros Lv [_ Tr] H i Hi Hx. pose proof H as Hstep.
    assert (K : xpc (exts c i) = XDone -> reported c' \/ forall j, j < N -> tells c' i j = TDone).
    { intros E. destruct (Tr i Hi E) as [R|R]; [left; exact (reported_step c c' Lv Hstep R) | right; intros j Hj; exact (told_done_step c c' i j Hstep (R j Hj))]. }
    destruct H; cbn [with_ext with_carry with_bat with_tell exts carries bats tells] in *; try (apply K; exact Hx);
      (match type of Hx with context [upd (exts c) ?a ?x i] => destruct (upd_cases (exts c) a x i) as [[-> E]|[_ E]]; rewrite E in Hx; clear E end; [|apply K; exact Hx]).
    - cbn [xpc] in Hx. unfold sent_all in Hx. destruct r; [destruct (xtold (exts c i0))|]; discriminate.
    - discriminate.
    - cbn [xpc] in Hx. unfold sent_all in Hx. destruct (remove_at k _); [destruct (xtold (exts c i0))|]; discriminate.
    - left. assert (Sh : shut (exts c i0)) by (apply (told_shut c i0 j Lv H H0); congruence). destruct (listen_shut _ _ _ Sh H2) as [Ex Exx].
      exists i0, e. split; [exact H|]. cbn [with_tell with_ext exts]. rewrite upd_same, Exx. cbn [xfound]. apply coalesce_in. right. left. reflexivity.
    - assert (Sh : shut (exts c i0)) by (apply (told_shut c i0 j Lv H H0); congruence). contradiction (listen_send_shut _ _ _ _ Sh H2).
    - right. exact H0.
    - assert (Sh : shut (exts c i0)) by (apply (told_shut c i0 i0 Lv H H); rewrite (H0 i0 H); discriminate). contradiction (listen_send_shut _ _ _ _ Sh H1).
  Qed.
  Lemma tracked_step c c' : safe c -> live c -> tracked c -> mtrans c c' -> tracked c'.
  Proof.
    intros Sf Lv Tr0 H. split; [|exact (tracked_done c c' Lv Tr0 H)]. destruct Tr0 as [Tr Td]. intros j e Hj Hb He. pose proof H as Hstep. pose proof (reported_step c c' Lv Hstep) as Rs. pose proof Sf as (_ & _ & _ & Ho).
    pose proof Lv as (L1 & L2 & L3 & L4).
    (* what remains if the batcher was done before *)
    assert (K : bpc (bats c j) = BDone -> fails_end j (brcvd (bats c j)) = Some e ->
      (forall i, i < N -> tells c i j = THold e -> xpc (exts c i) <> XDone -> (tells c' i j = THold e /\ xpc (exts c' i) <> XDone) \/ reported c') ->
      reported c' \/ (exists i, i < N /\ tells c' i j = THold e /\ xpc (exts c' i) <> XDone)).
    { intros Eb Ee Kp. destruct (Tr j e Hj Eb Ee) as [R|(i & Hi & Ht & Hx)]; [left; exact (Rs R)|]. destruct (Kp i Hi Ht Hx) as [X|X]; [right; exists i; tauto | left; exact X]. }
    destruct H; cbn [with_ext with_carry with_bat with_tell exts carries bats tells] in *.
    - apply K; [assumption | assumption|]. intros a Ha Ht Hx. left. split; [exact Ht|].
      match goal with |- context [upd (exts c) i ?x a] => destruct (upd_cases (exts c) i x a) as [[-> E]|[_ E]]; rewrite E; clear E end; [|exact Hx].
      cbn [xpc]. unfold sent_all. destruct r; [destruct (xtold (exts c i))|]; discriminate.
    - apply K; [assumption | assumption|]. intros a Ha Ht Hx. left. split; [exact Ht|].
      match goal with |- context [upd (exts c) i ?x a] => destruct (upd_cases (exts c) i x a) as [[-> E]|[_ E]]; rewrite E; clear E end; [discriminate | exact Hx].
    - apply K; [assumption | assumption|]. intros a Ha Ht Hx. left. split; [exact Ht|].
      match goal with |- context [upd (exts c) i ?x a] => destruct (upd_cases (exts c) i x a) as [[-> E]|[_ E]]; rewrite E; clear E end; [|exact Hx].
      cbn [xpc]. unfold sent_all. destruct (remove_at k _); [destruct (xtold (exts c i))|]; discriminate.
    - assert (Sh : shut (exts c i)) by (apply (told_shut c i j0 Lv H H0); congruence). destruct (listen_shut _ _ _ Sh H2) as [Ex Exx].
      apply K; [assumption | assumption|]. intros a Ha Ht Hx. right. exists i, e0. split; [exact H|]. cbn [with_tell with_ext exts]. rewrite upd_same, Exx. cbn [xfound]. apply coalesce_in. right. left. reflexivity.
    - assert (Sh : shut (exts c i)) by (apply (told_shut c i j0 Lv H H0); congruence). contradiction (listen_send_shut _ _ _ _ Sh H2).
    - apply K; [assumption | assumption|]. intros a Ha Ht Hx. left. split; [exact Ht|].
      match goal with |- context [upd (exts c) i ?x a] => destruct (upd_cases (exts c) i x a) as [[-> E]|[_ E]]; rewrite E; clear E end; [|exact Hx].
      specialize (H0 j Hj). congruence.
    - assert (Sh : shut (exts c i)) by (apply (told_shut c i i Lv H H); rewrite (H0 i H); discriminate). contradiction (listen_send_shut _ _ _ _ Sh H1).
    - destruct (upd_cases (bats c) j0 (got fails j0 (bats c j0) d) j) as [[-> E]|[_ E]]; rewrite E in Hb, He.
      + unfold got in Hb. cbn [bpc] in Hb. rewrite no_early in Hb by exact H0. discriminate.
      + apply K; [assumption | assumption|]. intros a Ha Ht Hx. left. split; assumption.
    - apply K; [assumption | assumption|]. intros a Ha Ht Hx. left. split; assumption.
    - destruct (upd_cases (bats c) j0 (got_end fails_end j0 (bats c j0)) j) as [[-> E]|[_ E]]; rewrite E in Hb, He.
      + unfold got_end in Hb, He. cbn [bpc brcvd] in Hb, He. rewrite He in Hb. discriminate.
      + apply K; [assumption | assumption|]. intros a Ha Ht Hx. left. split; assumption.
    - match type of Hb with context [upd (bats c) j0 ?x j] => destruct (upd_cases (bats c) j0 x j) as [[-> E]|[Hn E]]; rewrite E in Hb, He; clear E end.
      + cbn [brcvd] in He. destruct Ho as (Ho1 & _). destruct (Ho1 j0 e0 H1) as [Hw Hf]. destruct (L3 j0 Hj Hw) as [Be _]. rewrite Be in Hf. assert (e0 = e) as -> by congruence.
        destruct (xpc (exts c i)) eqn:Ex.
        1-3: right; exists i; split; [exact H|]; split; [apply upd2_same | congruence].
        (* an extractor that is done has read an error or has seen all channels closed *)
        left. destruct (Td i H Ex) as [R|R]; [exact (Rs R) | specialize (R j0 Hj); congruence].
      + apply K; [assumption | assumption|]. intros a Ha Ht Hx. left. split; [|exact Hx].
        destruct (upd2_cases (tells c) i j0 (THold e0) a j) as [(_ & -> & E2)|[_ E2]]; [contradiction Hn; reflexivity | rewrite E2; exact Ht].
    - apply K; [assumption | assumption|]. intros a Ha Ht Hx. left. split; [|exact Hx].
      destruct (upd2_cases (tells c) i j0 TDone a j) as [(-> & -> & E2)|[_ E2]]; [congruence | rewrite E2; exact Ht].
  Qed.

  Lemma late_reported l c : c = run step (mesh_start work) l -> over c -> forall j e, j < N -> fails_end j (brcvd (bats c j)) = Some e -> reported c.
  Proof.
    intros Ec [O1 O2] j e Hj He. assert (X : (safe c /\ live c) /\ tracked c).
    { subst c. apply (run_inv step (fun c => (safe c /\ live c) /\ tracked c)); [|split; [split; [exact safe_start | exact live_start] | exact tracked_start]].
      intros s a s' [[I1 I2] I3] E. apply step_trans in E. split; [split; [exact (safe_step s s' I1 E) | exact (live_step s s' I1 I2 E)] | exact (tracked_step s s' I1 I2 I3 E)]. }
    destruct X as [_ [Tr _]]. destruct (Tr j e Hj (O2 j Hj) He) as [R|(i & Hi & _ & Hx)]; [exact R | contradiction Hx; exact (O1 i Hi)].
  Qed.
End Ends.

(** ** A batcher that fails while an extractor has two more domains for it *)
Section Jam.
  Context {D : Type}.
  Variable N : nat.
  Variable fails fails_end : nat -> list D -> option bytes.
  Variable i j : nat.
  Hypothesis others_work : forall b h, b < N -> b <> j -> fails b h = None /\ fails_end b h = None.
  Hypothesis two : exists b, b < N /\ b <> j.
  Notation step := (mesh_step N fails fails_end).
  Definition jam (c : @mesh D) : Prop :=
    xpc (exts c i) = XSend /\ (exists d, In (d, j) (xpend (exts c i))) /\ (exists d, carries c j i = FHold d) /\ bpc (bats c j) = BDone /\ (tells c i j = TIdle \/ tells c i j = TDone) /\
    (forall b, b < N -> b <> j -> bpc (bats c b) = BWork /\ tells c i b = TIdle /\ carries c b i <> FEnd).

  Hypothesis Hi : i < N.
  Lemma jam_step c c' : jam c -> mtrans N fails fails_end c c' -> jam c'.
  Proof.
    intros (J1 & (d0 & J2) & (d1 & J3) & J4 & J5 & J6) H.
    assert (NoHold : forall b e, b < N -> tells c i b = THold e -> False).
    { intros b e Hb Ht. destruct (Nat.eq_dec b j) as [->|Hn]; [destruct J5; congruence | destruct (J6 b Hb Hn) as (_ & X & _); congruence]. }
    assert (NoAll : (forall b, b < N -> tells c i b = TDone) -> False).
    { intros A. destruct two as (b & Hb & Hn). destruct (J6 b Hb Hn) as (_ & X & _). specialize (A b Hb). congruence. }
    assert (Ext : forall a x, a <> i -> jam (with_ext c a x)).
    { intros a x Ha. unfold jam. cbn [with_ext exts carries bats tells]. rewrite upd_other by auto. split; [exact J1|]. split; [exists d0; exact J2|]. split; [exists d1; exact J3|]. auto. }
    destruct H.
    - apply Ext. congruence.
    - apply Ext. congruence.
    - destruct (Nat.eq_dec i0 i) as [->|Hn].
      + assert (j0 <> j) as Hj by congruence.
        assert (In (d0, j) (remove_at k (xpend (exts c i)))) as Hin by (apply (in_remove_other k _ (d, j0)); [assumption | assumption | congruence]).
        unfold jam. cbn [with_carry with_ext exts carries bats tells]. rewrite upd_same. cbn [xpc xpend]. split.
        { unfold sent_all. destruct (remove_at k _); [destruct Hin | reflexivity]. }
        split; [exists d0; exact Hin|]. split; [exists d1; destruct (upd2_cases (carries c) j0 i (FHold d) j i) as [(E & _ & _)|[_ E]]; [congruence | rewrite E; exact J3]|].
        split; [exact J4|]. split; [exact J5|]. intros b Hb Hbn. destruct (J6 b Hb Hbn) as (X1 & X2 & X3). split; [exact X1|]. split; [exact X2|].
        destruct (upd2_cases (carries c) j0 i (FHold d) b i) as [(_ & _ & E)|[_ E]]; rewrite E; [discriminate | exact X3].
      + unfold jam. cbn [with_carry with_ext exts carries bats tells]. rewrite upd_other by auto. split; [exact J1|]. split; [exists d0; exact J2|].
        assert (C : forall b, upd2 (carries c) j0 i0 (FHold d) b i = carries c b i) by (intros b; destruct (upd2_cases (carries c) j0 i0 (FHold d) b i) as [(_ & E & _)|[_ E]]; [congruence | exact E]).
        split; [exists d1; rewrite C; exact J3|]. split; [exact J4|]. split; [exact J5|]. intros b Hb Hbn. rewrite C. apply J6; assumption.
    - destruct (Nat.eq_dec i0 i) as [->|Hn]; [contradiction (NoHold j0 e H0 H1)|].
      unfold jam. cbn [with_tell with_ext exts carries bats tells]. rewrite upd_other by auto.
      assert (C : forall b, upd2 (tells c) i0 j0 TIdle i b = tells c i b) by (intros b; destruct (upd2_cases (tells c) i0 j0 TIdle i b) as [(E & _ & _)|[_ E]]; [congruence | exact E]).
      split; [exact J1|]. split; [exists d0; exact J2|]. split; [exists d1; exact J3|]. split; [exact J4|]. rewrite C. split; [exact J5|]. intros b Hb Hbn. rewrite C. apply J6; assumption.
    - destruct (Nat.eq_dec i0 i) as [->|Hn]; [contradiction (NoHold j0 e H0 H1)|].
      unfold jam. cbn [with_tell with_ext exts carries bats tells]. rewrite upd_other by auto.
      assert (C : forall b, upd2 (tells c) i0 j0 TIdle i b = tells c i b) by (intros b; destruct (upd2_cases (tells c) i0 j0 TIdle i b) as [(E & _ & _)|[_ E]]; [congruence | exact E]).
      split; [exact J1|]. split; [exists d0; exact J2|]. split; [exists d1; exact J3|]. split; [exact J4|]. rewrite C. split; [exact J5|]. intros b Hb Hbn. rewrite C. apply J6; assumption.
    - destruct (Nat.eq_dec i0 i) as [->|Hn]; [contradiction (NoAll H0) | apply Ext; exact Hn].
    - destruct (Nat.eq_dec i0 i) as [->|Hn]; [contradiction (NoAll H0) | apply Ext; exact Hn].
    - assert (Hj : j0 <> j) by congruence. unfold jam. cbn [with_carry with_bat exts carries bats tells].
      split; [exact J1|]. split; [exists d0; exact J2|]. split; [exists d1; destruct (upd2_cases (carries c) j0 i0 FIdle j i) as [(E & _ & _)|[_ E]]; [congruence | rewrite E; exact J3]|].
      rewrite upd_other by auto. split; [exact J4|]. split; [exact J5|]. intros b Hb Hbn. destruct (J6 b Hb Hbn) as (X1 & X2 & X3). split; [|split; [exact X2|]].
      + destruct (upd_cases (bats c) j0 (got fails j0 (bats c j0) d) b) as [[-> E]|[_ E]]; rewrite E; [|exact X1]. unfold got. cbn [bpc].
        destruct (others_work j0 (brcvd (bats c j0) ++ [d]) H0 Hj) as [-> _]. reflexivity.
      + destruct (upd2_cases (carries c) j0 i0 FIdle b i) as [(_ & _ & E)|[_ E]]; rewrite E; [discriminate | exact X3].
    - assert (Hn : i0 <> i) by (intros ->; destruct H2; congruence). unfold jam. cbn [with_carry with_bat exts carries bats tells].
      assert (C : forall b, upd2 (carries c) j0 i0 FEnd b i = carries c b i) by (intros b; destruct (upd2_cases (carries c) j0 i0 FEnd b i) as [(_ & E & _)|[_ E]]; [congruence | exact E]).
      split; [exact J1|]. split; [exists d0; exact J2|]. split; [exists d1; rewrite C; exact J3|]. split; [exact J4|]. split; [exact J5|]. intros b Hb Hbn. rewrite C. apply J6; assumption.
    - exfalso. assert (Hj : j0 <> j) by congruence. destruct (J6 j0 H Hj) as (_ & _ & X). apply X. exact (H1 i Hi).
    - exfalso. destruct (Nat.eq_dec j0 j) as [->|Hn]; [congruence|]. destruct (J6 j0 H0 Hn) as (X & _). congruence.
    - unfold jam. cbn [with_tell exts carries bats tells]. split; [exact J1|]. split; [exists d0; exact J2|]. split; [exists d1; exact J3|]. split; [exact J4|].
      assert (j0 = j) as -> by (destruct (Nat.eq_dec j0 j) as [E|Hn]; [exact E | destruct (J6 j0 H0 Hn) as (X & _); congruence]).
      split; [destruct (upd2_cases (tells c) i0 j TDone i j) as [(_ & _ & E)|[_ E]]; rewrite E; [right; reflexivity | exact J5]|].
      intros b Hb Hbn. destruct (upd2_cases (tells c) i0 j TDone i b) as [(_ & E & _)|[_ E]]; [contradiction | rewrite E; apply J6; assumption].
  Qed.

  Lemma jam_forever c l : jam c -> xpc (exts (run step c l) i) = XSend.
  Proof.
    intros J. assert (X : jam (run step c l)); [|apply X]. apply (run_inv step jam); [|exact J]. intros s a s' I E. apply (jam_step s s' I). exact (step_trans N fails fails_end s a s' E).
  Qed.
End Jam.

(** ** The statements with sums over lists *)
Lemma sumb_list n f : sumb n f = list_sum (map f (seq 0 n)).
Proof.
  induction n as [|n IH]; [reflexivity|]. rewrite seq_S, map_app. cbn [sumb plus map]. rewrite IH. unfold list_sum. rewrite fold_right_app. cbn [fold_right].
  generalize (f n). intros k. clear. induction (map f (seq 0 n)) as [|x l IH]; cbn; [lia|]. rewrite <- Nat.add_assoc, IH. reflexivity.
Qed.
Lemma sumb_le n f g : (forall i, i < n -> f i <= g i) -> sumb n f <= sumb n g.
Proof. intros H. induction n as [|n IH]; cbn; [lia|]. specialize (IH ltac:(intros i Hi; apply H; lia)). specialize (H n ltac:(lia)). lia. Qed.
Definition extracted {D} (N : nat) (work : nat -> list (list (D * nat))) (p : D -> bool) (j : nat) : nat :=
  list_sum (map (fun i => length (filter (fun q => p (fst q) && (snd q =? j)) (concat (work i)))) (seq 0 N)).
Lemma received_le {D} N fails fails_end (work : nat -> list (list (D * nat))) l p j : j < N ->
  length (filter p (brcvd (bats (run (mesh_step N fails fails_end) (mesh_start work) l) j))) <= extracted N work p j.
Proof.
  intros Hj. destruct (safe_run N fails fails_end work l) as (De & Ac & _). set (c := run _ _ _) in *. specialize (De p j Hj). unfold extracted. rewrite <- sumb_list.
  fold (cnt p (brcvd (bats c j))). enough (sumb N (fun i => towards p j (xsent (exts c i))) <= sumb N (fun i => cnt (fun q => p (fst q) && (snd q =? j)) (concat (work i)))) by (unfold cnt in *; lia).
  apply sumb_le. intros i Hi. specialize (Ac (fun q => p (fst q) && (snd q =? j)) i). unfold rest_of, towards in *. lia.
Qed.

(** ** After an error an extractor takes no more certificates *)
Section Stop.
  Context {D : Type}.
  Variable N : nat.
  Variable fails fails_end : nat -> list D -> option bytes.
  Notation mesh := (@mesh D).
  Notation ext := (@ext D).
  Notation step := (mesh_step N fails fails_end).
  Definition stopping (x : ext) : Prop := xpc x = XBrk \/ xpc x = XDone \/ (xpc x = XSend /\ xtold x = true).
  Definition knows (x : ext) : Prop := xfound x <> [] \/ xtold x = true -> stopping x.
  Lemma sent_all_told told (p : list (D * nat)) (x : ext) : told = true -> xpc x = sent_all told p -> xtold x = true -> stopping x.
  Proof. intros -> E T. unfold stopping. rewrite E. unfold sent_all. destruct p; auto. Qed.
  Lemma stop_step c a c' i : step c a = Some c' -> knows (exts c i) ->
    knows (exts c' i) /\ (stopping (exts c i) -> stopping (exts c' i) /\ xleft (exts c' i) = xleft (exts c i)).
  Proof.
    intros E Kn. apply step_trans in E.
    assert (U : forall i0 x, (knows x /\ (stopping (exts c i0) -> stopping x /\ xleft x = xleft (exts c i0)) \/ i0 <> i) ->
      knows (upd (exts c) i0 x i) /\ (stopping (exts c i) -> stopping (upd (exts c) i0 x i) /\ xleft (upd (exts c) i0 x i) = xleft (exts c i))).
    { intros i0 x H. destruct (upd_cases (exts c) i0 x i) as [(<- & Eu)|(Nu & Eu)]; rewrite Eu; [|auto]. destruct H as [H|H]; [exact H | contradiction]. }
    destruct E; cbn [with_ext with_carry with_bat with_tell exts]; try (split; [exact Kn | auto]); apply U; destruct (Nat.eq_dec i0 i) as [->|Ne]; auto; left.
    - assert (Ns : ~ stopping (exts c i)) by (unfold stopping; rewrite H0; intuition congruence). split; [|contradiction].
      intros [X|X]; cbn [xfound xtold] in X; exfalso; apply Ns, Kn; auto.
    - split; [intros _; left; reflexivity|]. intros _. split; [left; reflexivity | cbn [xleft]; auto].
    - split.
      + intros X. cbn [xfound xtold] in X. destruct (Kn X) as [Y|[Y|[_ Y]]]; try congruence. apply (sent_all_told (xtold (exts c i)) (remove_at k (xpend (exts c i)))); auto.
      + intros [Y|[Y|[_ Y]]]; try congruence. split; [|reflexivity]. apply (sent_all_told (xtold (exts c i)) (remove_at k (xpend (exts c i)))); auto.
    - destruct (listen_cases _ _ _ H2) as [[L1 ->]|[L1 ->]].
      + split; [intros _; left; reflexivity|]. intros _. split; [left; reflexivity | reflexivity].
      + split; [intros _; right; left; reflexivity|]. intros _. split; [right; left; reflexivity | reflexivity].
    - destruct (listen_send_cases _ _ _ _ H2) as (y & _ & _ & ->). split; [intros _|intros _; split; [|reflexivity]];
        apply (sent_all_told true (remove_at k (xpend (exts c i)))); auto.
    - destruct (listen_cases _ _ _ H1) as [[L1 ->]|[L1 ->]].
      + split; [intros _; left; reflexivity|]. intros _. split; [left; reflexivity | reflexivity].
      + split; [intros _; right; left; reflexivity|]. intros _. split; [right; left; reflexivity | reflexivity].
    - destruct (listen_send_cases _ _ _ _ H1) as (y & _ & _ & ->). split; [intros _|intros _; split; [|reflexivity]];
        apply (sent_all_told true (remove_at k (xpend (exts c i)))); auto.
  Qed.
  Lemma stops_run work l l' i : let c := run step (mesh_start work) l in xfound (exts c i) <> [] -> xleft (exts (run step c l') i) = xleft (exts c i).
  Proof.
    intros c F. assert (K : knows (exts c i)).
    { apply (run_inv step (fun c => knows (exts c i))); [intros s a s' H E; exact (proj1 (stop_step s a s' i E H))|]. intros [X|X]; cbn in X; [contradiction | discriminate X]. }
    assert (S : stopping (exts c i)) by (apply K; left; exact F). clear F.
    revert K S. generalize c. clear c. induction l' as [|a l' IH]; intros c K S; [reflexivity|]. rewrite run_cons. unfold do. destruct (step c a) as [c'|] eqn:E; [|apply IH; assumption].
    destruct (stop_step c a c' i E K) as [K' S']. destruct (S' S) as [S1 S2]. rewrite <- S2. apply IH; assumption.
  Qed.
End Stop.
