(** The crisscross connection: the shared channel is closed once and in time, everything ends, nothing is lost. *)
From Coq Require Import Permutation.
From Verif Require Import Base BaseLemmas SysModel SysProofs UtilModel PipeModel PipeProofs PipeErrors StallProofs CrissModel.

Local Arguments cnt : simpl never.
Local Arguments list_sum : simpl never.

Lemma cnt_le {A} (f : A -> bool) l : cnt f l <= length l.
Proof. unfold cnt. induction l as [|x l IH]; cbn; [lia|]. destruct (f x); cbn; lia. Qed.
Lemma cnt_pos {A} (f : A -> bool) l i x : nth_error l i = Some x -> f x = true -> 0 < cnt f l.
Proof. intros H Hf. unfold cnt. apply nth_error_In in H. destruct (filter f l) eqn:E; [|cbn; lia]. assert (In x (filter f l)) by (apply filter_In; auto). rewrite E in *. contradiction. Qed.
Lemma cnt_lt {A} (f : A -> bool) l i x : nth_error l i = Some x -> f x = false -> cnt f l < length l.
Proof.
  revert i. induction l as [|y l IH]; intros [|i] H Hf; try discriminate H; rewrite cnt_cons; cbn in *.
  - injection H as ->. rewrite Hf. cbn. pose proof (cnt_le f l). lia.
  - specialize (IH i H Hf). destruct (f y); cbn; lia.
Qed.
Lemma cnt_all {A} (f : A -> bool) l : (forall i x, nth_error l i = Some x -> f x = true) -> cnt f l = length l.
Proof.
  induction l as [|y l IH]; intros H; [reflexivity|]. rewrite cnt_cons, (H 0 y eq_refl), IH; [reflexivity|]. intros i x Hi. exact (H (S i) x Hi).
Qed.
Lemma cnt_none {A} (f : A -> bool) l : cnt f l = 0 -> forall i x, nth_error l i = Some x -> f x = false.
Proof. intros H i x Hi. destruct (f x) eqn:E; [|reflexivity]. pose proof (cnt_pos f l i x Hi E). lia. Qed.

Lemma list_eq_nth {A} (l l' : list A) : (forall i, nth_error l i = nth_error l' i) -> l = l'.
Proof.
  revert l'. induction l as [|x l IH]; intros [|y l'] H; [reflexivity | discriminate (H 0) | discriminate (H 0)|].
  f_equal; [pose proof (H 0) as X; injection X as ->; reflexivity|]. apply IH. intros i. exact (H (S i)).
Qed.

Section Criss.
  Context {D : Type}.
  Variable own : nat -> err.
  Variable fails fails_end : nat -> list D -> option bytes.
  Variable work : list (list D).
  Variable M : nat.
  Hypothesis some_sender : 0 < length work.
  Notation N := (length work).
  Notation sender := (@sender D).
  Notation receiver := (@receiver D).
  Notation criss := (@criss D).
  Notation step := (criss_step own fails fails_end).
  Notation got := (got fails).
  Notation got_end := (got_end fails_end).

  Inductive ctrans (c : criss) : criss -> Prop :=
  | X_panic1 i s x rest : nth_error (snds c) i = Some s -> spc s = SWork -> sleft s = x :: rest -> 0 < closes c -> ctrans c (with_panic c)
  | X_send i j s r x rest : nth_error (snds c) i = Some s -> nth_error (rcvs c) j = Some r -> spc s = SWork -> sleft s = x :: rest -> closes c = 0 -> rpc r = RWork ->
      ctrans c (with_rcv (with_snd c i {| spc := SWork; sfound := sfound s; sleft := rest; ssent := ssent s ++ [x] |}) j (got j r x))
  | X_stop i s : nth_error (snds c) i = Some s -> spc s = SWork -> sleft s = [] -> ctrans c (with_snd c i (at_pc s SReq (own i)))
  | X_req i s : nth_error (snds c) i = Some s -> spc s = SReq ->
      ctrans c (with_requests (with_snd c i (at_pc s (if S (requests c) =? length (snds c) then SClose else SBrk) (sfound s))) (S (requests c)))
  | X_panic2 i s : nth_error (snds c) i = Some s -> spc s = SClose -> 0 < closes c -> ctrans c (with_panic c)
  | X_close i s : nth_error (snds c) i = Some s -> spc s = SClose -> closes c = 0 -> ctrans c (with_close (with_snd c i (at_pc s SBrk (sfound s))))
  | X_hear i s s' : nth_error (snds c) i = Some s -> dist c = DClosed -> listen s [] = Some s' -> ctrans c (with_snd c i s')
  | X_end j r : nth_error (rcvs c) j = Some r -> rpc r = RWork -> 0 < closes c -> ctrans c (with_rcv c j (got_end j r))
  | X_fail j r e : nth_error (rcvs c) j = Some r -> nth_error (cols c) j = Some CWait -> rpc r = RFail e ->
      ctrans c (with_col (with_rcv c j {| rpc := RDone; rrcvd := rrcvd r; rend := rend r |}) j (CFwd e))
  | X_col j r : nth_error (rcvs c) j = Some r -> nth_error (cols c) j = Some CWait -> rpc r = RDone -> ctrans c (with_col c j CDone)
  | X_take j e : nth_error (cols c) j = Some (CFwd e) -> dist c = DRead -> ctrans c (with_dist (with_col c j CWait) (DSend e (repeat true (length (snds c)))) (rounds c))
  | X_give i s s' e pending : nth_error (snds c) i = Some s -> dist c = DSend e pending -> nth_error pending i = Some true -> listen s [e] = Some s' ->
      ctrans c (with_dist (with_snd c i s') (DSend e (set_nth i false pending)) (rounds c))
  | X_next e pending : dist c = DSend e pending -> forallb negb pending = true -> ctrans c (with_dist c DRead (S (rounds c)))
  | X_over : dist c = DRead -> forallb is_cdone (cols c) = true -> ctrans c (with_dist c DClosed (rounds c)).

  Lemma step_ctrans c a c' : step c a = Some c' -> panicked c = false /\ ctrans c c'.
  Proof.
    intros H. unfold criss_step in H. destruct (panicked c) eqn:Ep; [discriminate H|]. split; [reflexivity|].
    destruct a as [i j|i|i|i|i|j|j|j|j|i| |].
    - destruct (nth_error (snds c) i) as [s|] eqn:E1; [|discriminate H]. destruct (nth_error (rcvs c) j) as [r|] eqn:E2; [|discriminate H].
      destruct (spc s) eqn:E3; try discriminate H. destruct (sleft s) as [|x rest] eqn:E4; [discriminate H|].
      destruct (0 <? closes c) eqn:E5; [apply Nat.ltb_lt in E5; injection H as <-; eapply X_panic1; eauto|]. apply Nat.ltb_ge in E5.
      destruct (rpc r) eqn:E6; try discriminate H. injection H as <-. eapply X_send; eauto. lia.
    - destruct (nth_error (snds c) i) as [s|] eqn:E1; [|discriminate H]. destruct (spc s) eqn:E3; try discriminate H. destruct (sleft s) eqn:E4; [|discriminate H].
      injection H as <-. apply X_stop; auto.
    - destruct (nth_error (snds c) i) as [s|] eqn:E1; [|discriminate H]. destruct (spc s) eqn:E3; try discriminate H. injection H as <-. apply X_req; auto.
    - destruct (nth_error (snds c) i) as [s|] eqn:E1; [|discriminate H]. destruct (spc s) eqn:E3; try discriminate H.
      destruct (0 <? closes c) eqn:E5; injection H as <-; [apply Nat.ltb_lt in E5; eapply X_panic2; eauto|]. apply Nat.ltb_ge in E5. apply X_close; auto. lia.
    - destruct (nth_error (snds c) i) as [s|] eqn:E1; [|discriminate H]. destruct (dist c) eqn:E2; try discriminate H. destruct (listen s []) as [s'|] eqn:E3; [|discriminate H].
      injection H as <-. eapply X_hear; eauto.
    - destruct (nth_error (rcvs c) j) as [r|] eqn:E1; [|discriminate H]. destruct (rpc r) eqn:E2; try discriminate H. destruct (0 <? closes c) eqn:E5; [|discriminate H].
      apply Nat.ltb_lt in E5. injection H as <-. apply X_end; auto.
    - destruct (nth_error (rcvs c) j) as [r|] eqn:E1; [|discriminate H]. destruct (nth_error (cols c) j) as [[]|] eqn:E2; try discriminate H. destruct (rpc r) eqn:E3; try discriminate H.
      injection H as <-. apply X_fail; auto.
    - destruct (nth_error (rcvs c) j) as [r|] eqn:E1; [|discriminate H]. destruct (nth_error (cols c) j) as [[]|] eqn:E2; try discriminate H. destruct (rpc r) eqn:E3; try discriminate H.
      injection H as <-. eapply X_col; eauto.
    - destruct (nth_error (cols c) j) as [[]|] eqn:E2; try discriminate H. destruct (dist c) eqn:E3; try discriminate H. injection H as <-. apply X_take; auto.
    - destruct (nth_error (snds c) i) as [s|] eqn:E1; [|discriminate H]. destruct (dist c) as [|e pending|] eqn:E2; try discriminate H.
      destruct (nth_error pending i) as [[]|] eqn:E3; try discriminate H. destruct (listen s [e]) as [s'|] eqn:E4; [|discriminate H]. injection H as <-. eapply X_give; eauto.
    - destruct (dist c) as [|e pending|] eqn:E2; try discriminate H. destruct (forallb negb pending) eqn:E3; [|discriminate H]. injection H as <-. eapply X_next; eauto.
    - destruct (dist c) as [|e pending|] eqn:E2; try discriminate H. destruct (forallb is_cdone (cols c)) eqn:E3; [|discriminate H]. injection H as <-. apply X_over; auto.
  Qed.

  Definition requested (s : sender) : bool := match spc s with SClose | SBrk | SDone => true | _ => false end.
  Definition closing (s : sender) : bool := match spc s with SClose => true | _ => false end.
  (** Receiver [j] failed with [e]. *)
  Definition gave (j : nat) (r : receiver) (e : bytes) : Prop :=
    (rrcvd r <> [] /\ fails j (rrcvd r) = Some e) \/ (rend r = true /\ fails_end j (rrcvd r) = Some e).
  Definition blame (c : criss) (e : bytes) : Prop := exists j r, nth_error (rcvs c) j = Some r /\ gave j r e.

  Record cinv (c : criss) : Prop := {
    k_n : length (snds c) = N; k_m : length (rcvs c) = M; k_m' : length (cols c) = M;
    k_req : requests c = cnt requested (snds c);
    k_close : closes c + cnt closing (snds c) = if requests c =? N then 1 else 0;
    k_panic : panicked c = false;
    k_pend : forall e p, dist c = DSend e p -> length p = N;
    k_col : forall j r, nth_error (rcvs c) j = Some r -> rpc r <> RDone -> nth_error (cols c) j = Some CWait;
    k_fail : forall j r, nth_error (rcvs c) j = Some r ->
      match rpc r with RWork => rend r = false /\ forall e, ~ gave j r e | RFail e => gave j r e | RDone => rend r = true \/ exists e, gave j r e end;
    k_end : forall j r, nth_error (rcvs c) j = Some r -> rend r = true -> 0 < closes c;
    k_fresh : rounds c = 0 -> match dist c with
                | DRead => forall i s, nth_error (snds c) i = Some s -> spc s <> SDone
                | DSend e p => forall i s, nth_error (snds c) i = Some s -> (nth_error p i = Some true -> spc s <> SDone) /\ (nth_error p i = Some false -> spc s <> SWork)
                | DClosed => True end;
    k_later : 0 < rounds c -> (forall i s, nth_error (snds c) i = Some s -> spc s <> SWork) /\
                forall e p, dist c = DSend e p -> forall i s, nth_error (snds c) i = Some s -> nth_error p i = Some false -> spc s = SDone;
    k_dclosed : dist c = DClosed -> forallb is_cdone (cols c) = true }.

  Lemma cinv_start : cinv (criss_start work M).
  Proof.
    assert (Hs : forall i s, nth_error (snds (criss_start work M)) i = Some s -> spc s = SWork).
    { intros i s H. cbn in H. apply nth_error_In, in_map_iff in H as (x & <- & _). reflexivity. }
    assert (Hr : forall j r, nth_error (rcvs (criss_start work M)) j = Some r -> r = @rcv_start D).
    { intros j r H. cbn in H. apply nth_error_In, repeat_spec in H. exact H. }
    assert (H0 : forall f : sender -> bool, (forall s, spc s = SWork -> f s = false) -> cnt f (snds (criss_start work M)) = 0).
    { intros f Hf. cbn [criss_start snds]. generalize work. intros l. induction l as [|w l IH]; [reflexivity|]. cbn [map]. rewrite cnt_cons, IH, (Hf (snd_start w) eq_refl). reflexivity. }
    split; cbn -[cnt]; try rewrite map_length; try rewrite repeat_length; try reflexivity; try discriminate; try lia.
    - symmetry. apply (H0 requested). intros s Es. unfold requested. rewrite Es. reflexivity.
    - pose proof (H0 closing) as X. cbn [criss_start snds] in X. rewrite X; [destruct N; [lia | reflexivity]|]. intros s Es. unfold closing. rewrite Es. reflexivity.
    - intros j r H _. pose proof (Hr j r H). assert (j < M) by (assert (j < length (repeat (@rcv_start D) M)) as X by (apply nth_error_Some; cbn in H; congruence); rewrite repeat_length in X; exact X).
      rewrite nth_error_repeat by assumption. reflexivity.
    - intros j r H. rewrite (Hr j r H). cbn. split; [reflexivity|]. intros e [[X _]|[X _]]; [apply X; reflexivity | discriminate X].
    - intros j r H. rewrite (Hr j r H). discriminate.
    - intros _ i s H. rewrite (Hs i s H). discriminate.
  Qed.

  Lemma listen_cases (s s' : sender) e : listen s e = Some s' ->
    (spc s = SWork /\ s' = at_pc s SReq e) \/ (spc s = SBrk /\ s' = at_pc s SDone (coalesce (sfound s) e)).
  Proof. unfold listen. destruct (spc s); intros H; try discriminate H; injection H as <-; auto. Qed.
  Lemma not_done_work c i s : cinv c -> nth_error (snds c) i = Some s -> requested s = false -> requests c < N.
  Proof. intros I H Hr. rewrite (k_req _ I), <- (k_n _ I). exact (cnt_lt _ _ _ _ H Hr). Qed.
  Lemma open_work c i s : cinv c -> nth_error (snds c) i = Some s -> requested s = false -> closes c = 0.
  Proof. intros I H Hr. pose proof (not_done_work c i s I H Hr). pose proof (k_close _ I) as K. replace (requests c =? N) with false in K by (symmetry; apply Nat.eqb_neq; lia). lia. Qed.
  Lemma closing_open c i s : cinv c -> nth_error (snds c) i = Some s -> spc s = SClose -> closes c = 0 /\ requests c = N.
  Proof.
    intros I H Hp. pose proof (k_close _ I) as K. assert (0 < cnt closing (snds c)) by (apply (cnt_pos _ _ i s H); unfold closing; rewrite Hp; reflexivity).
    destruct (Nat.eqb_spec (requests c) N); lia.
  Qed.
  Lemma forallb_nth {A} (f : A -> bool) l i x : forallb f l = true -> nth_error l i = Some x -> f x = true.
  Proof. intros H Hi. apply nth_error_In in Hi. rewrite forallb_forall in H. exact (H x Hi). Qed.
  Lemma gave_got j (r : receiver) x : rend r = false -> match rpc (got j r x) with RWork => rend (got j r x) = false /\ forall e, ~ gave j (got j r x) e | RFail e => gave j (got j r x) e | RDone => False end.
  Proof.
    intros Hr. unfold got, gave. cbn. destruct (fails j (rrcvd r ++ [x])) as [e|] eqn:E; cbn.
    - left. split; [destruct (rrcvd r); discriminate | reflexivity].
    - split; [reflexivity|]. intros e [[_ X]|[X _]]; discriminate X.
  Qed.
  Lemma gave_end j (r : receiver) : (forall e, ~ gave j r e) -> match rpc (got_end j r) with RWork => False | RFail e => gave j (got_end j r) e | RDone => rend (got_end j r) = true end.
  Proof.
    intros Hn. unfold got_end, gave. cbn. destruct (fails_end j (rrcvd r)) as [e|] eqn:E; cbn; [|reflexivity]. right. auto.
  Qed.

  Ltac upd E H := rewrite (upd_nth _ _ _ _ E) in H.
  Ltac flds := cbn [with_panic with_rcv with_snd with_col with_dist with_requests with_close snds rcvs cols dist rounds requests closes panicked] in *.

  Lemma cinv_step c a c' : cinv c -> step c a = Some c' -> cinv c'.
  Proof.
    intros I H. apply step_ctrans in H as [_ H].
    assert (Hnp : forall i s, nth_error (snds c) i = Some s -> spc s = SWork -> closes c = 0).
    { intros i s Hi Hs. apply (open_work c i s I Hi). unfold requested. rewrite Hs. reflexivity. }
    split.
    - destruct H; flds; rewrite ?set_nth_length; apply (k_n _ I).
    - destruct H; flds; rewrite ?set_nth_length; apply (k_m _ I).
    - destruct H; flds; rewrite ?set_nth_length; apply (k_m' _ I).
    - pose proof (k_req _ I) as K. destruct H; flds; try exact K.
      + pose proof (cnt_set requested _ _ _ {| spc := SWork; sfound := sfound s; sleft := rest; ssent := ssent s ++ [x] |} H) as C. unfold requested in C at 2 4. rewrite H1 in C. cbn in C. lia.
      + pose proof (cnt_set requested _ _ _ (at_pc s SReq (own i)) H) as C. unfold requested in C at 2 4. rewrite H0 in C. cbn in C. lia.
      + pose proof (cnt_set requested _ _ _ (at_pc s (if S (requests c) =? length (snds c) then SClose else SBrk) (sfound s)) H) as C. unfold requested in C at 2 4. rewrite H0 in C. cbn [at_pc spc bn] in C. destruct (S (requests c) =? length (snds c)); cbn in C; lia.
      + pose proof (cnt_set requested _ _ _ (at_pc s SBrk (sfound s)) H) as C. unfold requested in C at 2 4. rewrite H0 in C. cbn in C. lia.
      + destruct (listen_cases _ _ _ H1) as [[E ->]|[E ->]].
        * pose proof (cnt_set requested _ _ _ (at_pc s SReq []) H) as C. unfold requested in C at 2 4. rewrite E in C. cbn in C. lia.
        * pose proof (cnt_set requested _ _ _ (at_pc s SDone (coalesce (sfound s) [])) H) as C. unfold requested in C at 2 4. rewrite E in C. cbn in C. lia.
      + destruct (listen_cases _ _ _ H2) as [[E ->]|[E ->]].
        * pose proof (cnt_set requested _ _ _ (at_pc s SReq [e]) H) as C. unfold requested in C at 2 4. rewrite E in C. cbn in C. lia.
        * pose proof (cnt_set requested _ _ _ (at_pc s SDone (coalesce (sfound s) [e])) H) as C. unfold requested in C at 2 4. rewrite E in C. cbn in C. lia.
    - pose proof (k_close _ I) as K. destruct H; flds; try exact K.
      + pose proof (cnt_set closing _ _ _ {| spc := SWork; sfound := sfound s; sleft := rest; ssent := ssent s ++ [x] |} H) as C. unfold closing in C at 2 4. rewrite H1 in C. cbn in C. lia.
      + pose proof (cnt_set closing _ _ _ (at_pc s SReq (own i)) H) as C. unfold closing in C at 2 4. rewrite H0 in C. cbn in C. lia.
      + pose proof (cnt_set closing _ _ _ (at_pc s (if S (requests c) =? length (snds c) then SClose else SBrk) (sfound s)) H) as C. unfold closing in C at 2 4. rewrite H0 in C. cbn [at_pc spc bn] in C.
        assert (Hlt : requests c < N) by (apply (not_done_work c i s I H); unfold requested; rewrite H0; reflexivity).
        replace (requests c =? N) with false in K by (symmetry; apply Nat.eqb_neq; lia). rewrite (k_n _ I) in *. destruct (S (requests c) =? N); cbn in C; lia.
      + destruct (closing_open c i s I H H0) as [_ E]. rewrite E, Nat.eqb_refl in *.
        pose proof (cnt_set closing _ _ _ (at_pc s SBrk (sfound s)) H) as C. unfold closing in C at 2 4. rewrite H0 in C. cbn in C. lia.
      + destruct (listen_cases _ _ _ H1) as [[E ->]|[E ->]].
        * pose proof (cnt_set closing _ _ _ (at_pc s SReq []) H) as C. unfold closing in C at 2 4. rewrite E in C. cbn in C. lia.
        * pose proof (cnt_set closing _ _ _ (at_pc s SDone (coalesce (sfound s) [])) H) as C. unfold closing in C at 2 4. rewrite E in C. cbn in C. lia.
      + destruct (listen_cases _ _ _ H2) as [[E ->]|[E ->]].
        * pose proof (cnt_set closing _ _ _ (at_pc s SReq [e]) H) as C. unfold closing in C at 2 4. rewrite E in C. cbn in C. lia.
        * pose proof (cnt_set closing _ _ _ (at_pc s SDone (coalesce (sfound s) [e])) H) as C. unfold closing in C at 2 4. rewrite E in C. cbn in C. lia.
    - destruct H; flds; try apply (k_panic _ I).
      + exfalso. pose proof (Hnp _ _ H H0). lia.
      + exfalso. destruct (closing_open c i s I H H0). lia.
    - destruct H; flds; try apply (k_pend _ I); try (intros e' p' X; discriminate X).
      + intros e' p' X. injection X as <- <-. rewrite repeat_length. apply (k_n _ I).
      + intros e' p' X. injection X as <- <-. rewrite set_nth_length. exact (k_pend _ I _ _ H0).
    - destruct H; flds; try apply (k_col _ I).
      + intros j' r' Hj Hd. upd H0 Hj. destruct (Nat.eqb_spec j' j) as [->|]; [|exact (k_col _ I j' r' Hj Hd)]. apply (k_col _ I j r H0). rewrite H4. discriminate.
      + intros j' r' Hj Hd. upd H Hj. destruct (Nat.eqb_spec j' j) as [->|]; [|exact (k_col _ I j' r' Hj Hd)]. apply (k_col _ I j r H). rewrite H0. discriminate.
      + intros j' r' Hj Hd. rewrite (upd_nth _ _ _ _ H0). upd H Hj. destruct (Nat.eqb_spec j' j) as [->|]; [|exact (k_col _ I j' r' Hj Hd)]. injection Hj as <-. exfalso. apply Hd. reflexivity.
      + intros j' r' Hj Hd. rewrite (upd_nth _ _ _ _ H0). destruct (Nat.eqb_spec j' j) as [->|]; [|exact (k_col _ I j' r' Hj Hd)]. exfalso. assert (r' = r) by congruence. subst. contradiction.
      + intros j' r' Hj Hd. rewrite (upd_nth _ _ _ _ H). destruct (Nat.eqb_spec j' j) as [->|]; [reflexivity | exact (k_col _ I j' r' Hj Hd)].
    - destruct H; flds; try apply (k_fail _ I).
      + intros j' r' Hj. upd H0 Hj. destruct (Nat.eqb_spec j' j) as [->|]; [|exact (k_fail _ I j' r' Hj)]. injection Hj as <-.
        pose proof (k_fail _ I j r H0) as K. rewrite H4 in K. pose proof (gave_got j r x (proj1 K)) as G. destruct (rpc (got j r x)); try contradiction; auto.
      + intros j' r' Hj. upd H Hj. destruct (Nat.eqb_spec j' j) as [->|]; [|exact (k_fail _ I j' r' Hj)]. injection Hj as <-.
        pose proof (k_fail _ I j r H) as K. rewrite H0 in K. pose proof (gave_end j r (proj2 K)) as G. destruct (rpc (got_end j r)); try contradiction; auto.
      + intros j' r' Hj. upd H Hj. destruct (Nat.eqb_spec j' j) as [->|]; [|exact (k_fail _ I j' r' Hj)]. injection Hj as <-. cbn.
        pose proof (k_fail _ I j r H) as K. rewrite H1 in K. right. exists e. exact K.
    - destruct H; flds; try apply (k_end _ I).
      + intros j' r' Hj Hr. upd H0 Hj. destruct (Nat.eqb_spec j' j) as [->|]; [|exact (k_end _ I j' r' Hj Hr)]. injection Hj as <-. discriminate Hr.
      + intros; lia.
      + intros j' r' Hj Hr. upd H Hj. destruct (Nat.eqb_spec j' j) as [->|]; [|exact (k_end _ I j' r' Hj Hr)]. assumption.
      + intros j' r' Hj Hr. upd H Hj. destruct (Nat.eqb_spec j' j) as [->|]; [|exact (k_end _ I j' r' Hj Hr)]. injection Hj as <-. exact (k_end _ I j r H Hr).
    - (* k_fresh *)
      pose proof (k_fresh _ I) as K.
      assert (GU : forall i s s', nth_error (snds c) i = Some s -> spc s' <> SDone -> (spc s' = SWork -> spc s = SWork) -> rounds c = 0 ->
                 match dist c with
                 | DRead => forall i1 s1, nth_error (set_nth i s' (snds c)) i1 = Some s1 -> spc s1 <> SDone
                 | DSend e p => forall i1 s1, nth_error (set_nth i s' (snds c)) i1 = Some s1 -> (nth_error p i1 = Some true -> spc s1 <> SDone) /\ (nth_error p i1 = Some false -> spc s1 <> SWork)
                 | DClosed => True end).
      { intros i s s' Hi Hd Hw H0. specialize (K H0). destruct (dist c) as [|e p|]; [| |exact Logic.I].
        - intros i1 s1 Hi1. upd Hi Hi1. destruct (Nat.eqb_spec i1 i) as [->|]; [injection Hi1 as <-; exact Hd | exact (K i1 s1 Hi1)].
        - intros i1 s1 Hi1. upd Hi Hi1. destruct (Nat.eqb_spec i1 i) as [->|]; [|exact (K i1 s1 Hi1)]. injection Hi1 as <-. split; [auto|]. intros Hp Hw'. exact (proj2 (K i s Hi) Hp (Hw Hw')). }
      destruct H; flds; try exact K.
      + apply (GU i s); cbn; auto; discriminate.
      + apply (GU i s); cbn; auto; discriminate.
      + apply (GU i s); [exact H | |]; cbn [at_pc spc]; destruct (S (requests c) =? length (snds c)); intros X; discriminate X.
      + apply (GU i s); cbn; auto; discriminate.
      + rewrite H0. auto.
      + intros H3. specialize (K H3). rewrite H0 in K. intros i s Hi. split; [intros _; exact (K i s Hi)|]. intros Hp. apply nth_error_In, repeat_spec in Hp. discriminate Hp.
      + intros H3. specialize (K H3). rewrite H0 in K. intros i1 s1 Hi1. upd H Hi1. rewrite (upd_nth _ _ _ _ H1). destruct (Nat.eqb_spec i1 i) as [->|].
        * injection Hi1 as <-. split; [discriminate|]. intros _. destruct (listen_cases _ _ _ H2) as [[E ->]|[E ->]]; discriminate.
        * exact (K i1 s1 Hi1).
      + discriminate.
      + intros; exact Logic.I.
    - (* k_later *)
      pose proof (k_later _ I) as K.
      assert (GU : forall i s s', nth_error (snds c) i = Some s -> (0 < rounds c -> spc s' <> SWork) -> (spc s = SDone -> spc s' = SDone) -> 0 < rounds c ->
                 (forall i1 s1, nth_error (set_nth i s' (snds c)) i1 = Some s1 -> spc s1 <> SWork) /\
                 forall e p, dist c = DSend e p -> forall i1 s1, nth_error (set_nth i s' (snds c)) i1 = Some s1 -> nth_error p i1 = Some false -> spc s1 = SDone).
      { intros i s s' Hi Hw Hd H0. specialize (K H0) as [K1 K2]. split.
        - intros i1 s1 Hi1. upd Hi Hi1. destruct (Nat.eqb_spec i1 i) as [->|]; [injection Hi1 as <-; exact (Hw H0) | exact (K1 i1 s1 Hi1)].
        - intros e p He i1 s1 Hi1 Hp. upd Hi Hi1. destruct (Nat.eqb_spec i1 i) as [->|]; [injection Hi1 as <-; exact (Hd (K2 e p He i s Hi Hp)) | exact (K2 e p He i1 s1 Hi1 Hp)]. }
      destruct H; flds; try exact K.
      + apply (GU i s); auto; [|congruence]. intros H5. exfalso. exact (proj1 (K H5) i s H H1).
      + apply (GU i s); auto; [discriminate | congruence].
      + apply (GU i s); auto; [|congruence]. intros _. cbn [at_pc spc]. destruct (S (requests c) =? length (snds c)); discriminate.
      + apply (GU i s); auto; [discriminate | congruence].
      + apply (GU i s); auto; [|destruct (listen_cases _ _ _ H1) as [[E ->]|[E ->]]; congruence]. intros _. destruct (listen_cases _ _ _ H1) as [[E ->]|[E ->]]; discriminate.
      + intros H3. specialize (K H3) as [K1 _]. split; [exact K1|]. intros e' p' X. injection X as <- <-. intros i s Hi Hp. apply nth_error_In, repeat_spec in Hp. discriminate Hp.
      + intros H3. specialize (K H3) as [K1 K2]. destruct (listen_cases _ _ _ H2) as [[E _]|[E ->]]; [exfalso; exact (K1 i s H E)|]. split.
        * intros i1 s1 Hi1. upd H Hi1. destruct (Nat.eqb_spec i1 i) as [->|]; [injection Hi1 as <-; discriminate | exact (K1 i1 s1 Hi1)].
        * intros e' p' X. injection X as <- <-. intros i1 s1 Hi1 Hp. upd H Hi1. rewrite (upd_nth _ _ _ _ H1) in Hp. destruct (Nat.eqb_spec i1 i) as [->|]; [injection Hi1 as <-; reflexivity | exact (K2 e pending H0 i1 s1 Hi1 Hp)].
      + intros _. split; [|discriminate]. intros i s Hi. assert (Hp : nth_error pending i = Some false).
        { destruct (nth_error pending i) as [b|] eqn:E.
          - pose proof (forallb_nth _ _ _ _ H0 E) as X. destruct b; [discriminate X | reflexivity].
          - exfalso. apply nth_error_None in E. rewrite (k_pend _ I _ _ H), <- (k_n _ I) in E. assert (i < length (snds c)) by (apply nth_error_Some; congruence). lia. }
        destruct (rounds c) as [|k] eqn:Er.
        * pose proof (k_fresh _ I Er) as F. rewrite H in F. exact (proj2 (F i s Hi) Hp).
        * assert (0 < S k) as H3 by lia. exact (proj1 (K H3) i s Hi).
      + intros H3. split; [exact (proj1 (K H3)) | discriminate].
    - destruct H; flds; try apply (k_dclosed _ I); try discriminate.
      + intros X. pose proof (forallb_nth _ _ _ _ (k_dclosed _ I X) H0) as Y. discriminate Y.
      + intros X. pose proof (forallb_nth _ _ _ _ (k_dclosed _ I X) H0) as Y. discriminate Y.
      + auto.
  Qed.
  Lemma cinv_run l : cinv (run step (criss_start work M) l).
  Proof. apply (run_inv step cinv cinv_step). exact cinv_start. Qed.

  (** ** Everything ends. *)
  Definition criss_over (c : criss) : Prop := (forall i s, nth_error (snds c) i = Some s -> spc s = SDone) /\ (forall j r, nth_error (rcvs c) j = Some r -> rpc r = RDone).
  Definition enabled (c : criss) : Prop := exists a, step c a <> None.

  Lemma find_not {A} (f : A -> bool) l : (forall i x, nth_error l i = Some x -> f x = true) \/ exists i x, nth_error l i = Some x /\ f x = false.
  Proof.
    induction l as [|y l IH]; [left; intros [|i] x H; discriminate H|]. destruct (f y) eqn:E; [|right; exists 0, y; auto].
    destruct IH as [IH|(i & x & H1 & H2)]; [|right; exists (S i), x; auto]. left. intros [|i] x H; [injection H as <-; exact E | exact (IH i x H)].
  Qed.
  Definition is_sdone (s : sender) : bool := match spc s with SDone => true | _ => false end.
  Definition is_rdone (r : receiver) : bool := match rpc r with RDone => true | _ => false end.
  Definition is_resting (s : sender) : bool := match spc s with SBrk | SDone => true | _ => false end.

  (** A sender that listens can be told. *)
  Lemma listens (s : sender) e : spc s = SWork \/ spc s = SBrk -> exists s', listen s e = Some s'.
  Proof. unfold listen. intros [->| ->]; eexists; reflexivity. Qed.

  Lemma criss_progress c : cinv c -> criss_over c \/ enabled c.
  Proof.
    intros I. pose proof (k_panic _ I) as Hp.
    assert (Hstop : forall i s, nth_error (snds c) i = Some s -> spc s = SReq -> enabled c).
    { intros i s Hi Hs. exists (AReq i). unfold criss_step. rewrite Hp, Hi, Hs. discriminate. }
    assert (Hclose : forall i s, nth_error (snds c) i = Some s -> spc s = SClose -> enabled c).
    { intros i s Hi Hs. exists (AClose i). unfold criss_step. rewrite Hp, Hi, Hs. destruct (0 <? closes c); discriminate. }
    (* receivers *)
    assert (HR : (forall j r, nth_error (rcvs c) j = Some r -> rpc r = RDone) \/ enabled c).
    { destruct (find_not is_rdone (rcvs c)) as [Hd|(j & r & Hj & Hr)].
      { left. intros j r Hj. specialize (Hd j r Hj). unfold is_rdone in Hd. destruct (rpc r); try discriminate Hd; reflexivity. }
      right. assert (Hc : nth_error (cols c) j = Some CWait) by (apply (k_col _ I j r Hj); intros X; unfold is_rdone in Hr; rewrite X in Hr; discriminate).
      unfold is_rdone in Hr. destruct (rpc r) as [|e|] eqn:Er; [| |discriminate Hr].
      - destruct (find_not is_resting (snds c)) as [Hall|(i & s & Hi & Hs)].
        + (* the channel is closed *)
          assert (Hq : requests c = N) by (rewrite (k_req _ I), <- (k_n _ I); apply cnt_all; intros i s Hi; specialize (Hall i s Hi); unfold is_resting, requested in *; destruct (spc s); auto).
          assert (Hz : cnt closing (snds c) = 0).
          { assert (X : forall i s, nth_error (snds c) i = Some s -> closing s = false) by (intros i s Hi; specialize (Hall i s Hi); unfold is_resting, closing in *; destruct (spc s); auto; discriminate).
            unfold cnt. destruct (filter closing (snds c)) as [|y l] eqn:E; [reflexivity|]. exfalso. assert (In y (filter closing (snds c))) as Y by (rewrite E; left; reflexivity).
            apply filter_In in Y as [Y1 Y2]. apply In_nth_error in Y1 as [i Y1]. rewrite (X i y Y1) in Y2. discriminate. }
          pose proof (k_close _ I) as K. rewrite Hq, Nat.eqb_refl, Hz in K.
          exists (AEnd j). unfold criss_step. rewrite Hp, Hj, Er. replace (0 <? closes c) with true by (symmetry; apply Nat.ltb_lt; lia). discriminate.
        + unfold is_resting in Hs. destruct (spc s) eqn:Es; try discriminate Hs; [|exact (Hstop i s Hi Es) | exact (Hclose i s Hi Es)].
          destruct (sleft s) as [|x rest] eqn:El.
          * exists (AStop i). unfold criss_step. rewrite Hp, Hi, Es, El. discriminate.
          * exists (ASend i j). unfold criss_step. rewrite Hp, Hi, Hj, Es, El, Er. destruct (0 <? closes c); discriminate.
      - exists (AFail j). unfold criss_step. rewrite Hp, Hj, Hc, Er. discriminate. }
    destruct HR as [HR|HR]; [|right; exact HR].
    destruct (find_not is_sdone (snds c)) as [Hd|(i & s & Hi & Hs)].
    { left. split; [|exact HR]. intros i s Hi. specialize (Hd i s Hi). unfold is_sdone in Hd. destruct (spc s); try discriminate Hd; reflexivity. }
    right. unfold is_sdone in Hs.
    assert (Hl : spc s = SWork \/ spc s = SBrk \/ enabled c) by (destruct (spc s) eqn:Es; auto; [right; right; exact (Hstop i s Hi Es) | right; right; exact (Hclose i s Hi Es) | discriminate Hs]).
    assert (Hl' : (spc s = SWork \/ spc s = SBrk) \/ enabled c) by tauto. clear Hl. destruct Hl' as [Hl|He]; [|exact He].
    destruct (dist c) as [|e pending|] eqn:Ed.
    - destruct (find_not is_cdone (cols c)) as [Hc|(j & x & Hj & Hx)].
      + exists AErrClosed. unfold criss_step. rewrite Hp, Ed. replace (forallb is_cdone (cols c)) with true; [discriminate|]. symmetry. apply forallb_forall.
        intros x Hx. apply In_nth_error in Hx as [j Hj]. exact (Hc j x Hj).
      + destruct x as [|e|]; [| |discriminate Hx].
        * destruct (nth_error (rcvs c) j) as [r|] eqn:Er.
          -- exists (ACol j). unfold criss_step. rewrite Hp, Er, Hj, (HR j r Er). discriminate.
          -- exfalso. apply nth_error_None in Er. assert (j < length (cols c)) by (apply nth_error_Some; congruence). rewrite (k_m _ I) in Er. rewrite (k_m' _ I) in *. lia.
        * exists (ATake j). unfold criss_step. rewrite Hp, Hj, Ed. discriminate.
    - assert (Hgive : forall i s, nth_error (snds c) i = Some s -> nth_error pending i = Some true -> spc s <> SDone -> enabled c).
      { intros i1 s1 Hi1 Hp1 Hn. destruct (spc s1) eqn:E1; try (exact (Hstop i1 s1 Hi1 E1)); try (exact (Hclose i1 s1 Hi1 E1)); [| |contradiction].
        - destruct (listens s1 [e] (or_introl E1)) as [s' Hs']. exists (AGive i1). unfold criss_step. rewrite Hp, Hi1, Ed, Hp1, Hs'. discriminate.
        - destruct (listens s1 [e] (or_intror E1)) as [s' Hs']. exists (AGive i1). unfold criss_step. rewrite Hp, Hi1, Ed, Hp1, Hs'. discriminate. }
      destruct (find_not negb pending) as [Hn|(i1 & b & Hi1 & Hb)].
      + exists ANext. unfold criss_step. rewrite Hp, Ed. replace (forallb negb pending) with true; [discriminate|]. symmetry. apply forallb_forall.
        intros x Hx. apply In_nth_error in Hx as [j Hj]. exact (Hn j x Hj).
      + destruct b; [|discriminate Hb]. destruct (rounds c) as [|k] eqn:Er.
        * destruct (nth_error (snds c) i1) as [s1|] eqn:E1.
          -- pose proof (k_fresh _ I Er) as F. rewrite Ed in F. exact (Hgive i1 s1 E1 Hi1 (proj1 (F i1 s1 E1) Hi1)).
          -- exfalso. apply nth_error_None in E1. assert (i1 < length pending) by (apply nth_error_Some; congruence). rewrite (k_pend _ I _ _ Ed) in *. rewrite (k_n _ I) in E1. lia.
        * assert (H0 : 0 < rounds c) by lia. destruct (k_later _ I H0) as [L1 L2].
          destruct (nth_error pending i) as [[|]|] eqn:E2.
          -- apply (Hgive i s Hi E2). intros X. rewrite X in Hs. discriminate.
          -- exfalso. rewrite (L2 e pending Ed i s Hi E2) in Hs. discriminate.
          -- exfalso. apply nth_error_None in E2. rewrite (k_pend _ I _ _ Ed) in E2. assert (i < length (snds c)) by (apply nth_error_Some; congruence). rewrite (k_n _ I) in *. lia.
    - destruct (listens s [] Hl) as [s' Hs']. exists (AHearEnd i). unfold criss_step. rewrite Hp, Hi, Ed, Hs'. discriminate.
  Qed.

  Definition smeas (s : sender) : nat := match spc s with SWork => 4 + length (sleft s) | SReq => 3 | SClose => 2 | SBrk => 1 | SDone => 0 end.
  Definition rmeas (r : receiver) : nat := match rpc r with RWork => N + 7 | RFail _ => N + 6 | RDone => 0 end.
  Definition cmeas (x : col_pc) : nat := match x with CWait => 1 | CFwd _ => N + 6 | CDone => 0 end.
  Definition dmeas (d : dist_pc) : nat := match d with DRead => 1 | DSend _ p => 2 + cnt (fun b => b) p | DClosed => 0 end.
  Definition meas (c : criss) : nat := list_sum (map smeas (snds c)) + list_sum (map rmeas (rcvs c)) + list_sum (map cmeas (cols c)) + dmeas (dist c).

  Lemma rmeas_got j r x : rmeas (got j r x) <= N + 7.
  Proof. unfold rmeas, got. cbn. destruct (fails j (rrcvd r ++ [x])); lia. Qed.
  Lemma rmeas_end j r : rmeas (got_end j r) < N + 7.
  Proof. unfold rmeas, got_end. cbn. destruct (fails_end j (rrcvd r)); lia. Qed.
  Lemma cnt_repeat n : cnt (fun b : bool => b) (repeat true n) = n.
  Proof. induction n as [|n IH]; [reflexivity|]. cbn [repeat]. rewrite cnt_cons, IH. reflexivity. Qed.
  Lemma smeas_listen (s s' : sender) e : listen s e = Some s' -> smeas s' < smeas s.
  Proof. intros H. destruct (listen_cases _ _ _ H) as [[E ->]|[E ->]]; unfold smeas; rewrite E; cbn; lia. Qed.

  Lemma meas_step c a c' : cinv c -> step c a = Some c' -> meas c' < meas c.
  Proof.
    intros I H. pose proof (cinv_step c a c' I H) as I'. apply step_ctrans in H as [_ H]. unfold meas. destruct H; flds.
    - exfalso. pose proof (k_panic _ I'). discriminate.
    - pose proof (lsum_set smeas _ _ _ {| spc := SWork; sfound := sfound s; sleft := rest; ssent := ssent s ++ [x] |} H) as A.
      pose proof (lsum_set rmeas _ _ _ (got j r x) H0) as B. pose proof (rmeas_got j r x) as C. unfold smeas in A at 2 4. unfold rmeas in B at 2. rewrite H1, H2 in A. rewrite H4 in B. cbn [spc sleft length] in A. lia.
    - pose proof (lsum_set smeas _ _ _ (at_pc s SReq (own i)) H) as A. unfold smeas in A at 2 4. rewrite H0, H1 in A. cbn in A. lia.
    - pose proof (lsum_set smeas _ _ _ (at_pc s (if S (requests c) =? length (snds c) then SClose else SBrk) (sfound s)) H) as A. unfold smeas in A at 2 4. rewrite H0 in A. cbn [at_pc spc] in A. destruct (S (requests c) =? length (snds c)); lia.
    - exfalso. pose proof (k_panic _ I'). discriminate.
    - pose proof (lsum_set smeas _ _ _ (at_pc s SBrk (sfound s)) H) as A. unfold smeas in A at 2 4. rewrite H0 in A. cbn in A. lia.
    - pose proof (lsum_set smeas _ _ _ s' H) as A. pose proof (smeas_listen _ _ _ H1). lia.
    - pose proof (lsum_set rmeas _ _ _ (got_end j r) H) as A. pose proof (rmeas_end j r). unfold rmeas in A at 2. rewrite H0 in A. lia.
    - pose proof (lsum_set rmeas _ _ _ {| rpc := RDone; rrcvd := rrcvd r; rend := rend r |} H) as A. pose proof (lsum_set cmeas _ _ _ (CFwd e) H0) as B. unfold rmeas in A at 2 4. rewrite H1 in A. cbn [cmeas rpc] in *. lia.
    - pose proof (lsum_set cmeas _ _ _ CDone H0) as B. cbn [cmeas] in B. lia.
    - pose proof (lsum_set cmeas _ _ _ CWait H) as B. cbn [cmeas] in B. rewrite H0. cbn [dmeas]. rewrite cnt_repeat, (k_n _ I). lia.
    - pose proof (lsum_set smeas _ _ _ s' H) as A. pose proof (smeas_listen _ _ _ H2). rewrite H0. cbn [dmeas]. pose proof (cnt_set (fun b : bool => b) _ _ _ false H1) as B. cbn in B. lia.
    - rewrite H. cbn [dmeas]. lia.
    - rewrite H. cbn [dmeas]. lia.
  Qed.

  Lemma criss_terminates f : fair f -> exists n, criss_over (run step (criss_start work M) (prefix f n)).
  Proof.
    intros Hf. destruct (fair_finishes step cinv cinv_step (fun c' c => meas c' < meas c) (Wf_nat.well_founded_ltof _ meas) meas_step) with (f := f) (s := @criss_start D work M) as [n Hn].
    - intros c Hc. destruct (criss_progress c Hc) as [Ho|He]; [|right; exact He].
      (* a finished system may still have steps of the forwarding goroutines *)
      destruct (find_not is_cdone (cols c)) as [H1|H1].
      + destruct (dist c) as [|e p|] eqn:Ed.
        * right. exists AErrClosed. unfold criss_step. rewrite (k_panic _ Hc), Ed. replace (forallb is_cdone (cols c)) with true; [discriminate|]. symmetry. apply forallb_forall.
          intros x Hx. apply In_nth_error in Hx as [j Hj]. exact (H1 j x Hj).
        * destruct (forallb negb p) eqn:Ep.
          -- right. exists ANext. unfold criss_step. rewrite (k_panic _ Hc), Ed, Ep. discriminate.
          -- left. intros a. destruct (step c a) as [c'|] eqn:E; [|reflexivity]. exfalso. apply step_ctrans in E as [_ E]. destruct Ho as [O1 O2].
             destruct E; try (rewrite (O1 _ _ H) in *; discriminate); try (rewrite (O2 _ _ H) in *; discriminate); try congruence.
             ++ pose proof (H1 _ _ H0) as X. discriminate X.
             ++ destruct (listen_cases _ _ _ H3) as [[X _]|[X _]]; rewrite (O1 _ _ H) in X; discriminate X.
        * left. intros a. destruct (step c a) as [c'|] eqn:E; [|reflexivity]. exfalso. apply step_ctrans in E as [_ E]. destruct Ho as [O1 O2].
          destruct E; try (rewrite (O1 _ _ H) in *; discriminate); try (rewrite (O2 _ _ H) in *; discriminate); try congruence.
          -- destruct (listen_cases _ _ _ H2) as [[X _]|[X _]]; rewrite (O1 _ _ H) in X; discriminate X.
          -- pose proof (H1 _ _ H0) as X. discriminate X.
      + destruct H1 as (j & x & Hj & Hx). destruct Ho as [O1 O2]. destruct x as [|e|]; [| |discriminate Hx].
        * right. destruct (nth_error (rcvs c) j) as [r|] eqn:Er.
          -- exists (ACol j). unfold criss_step. rewrite (k_panic _ Hc), Er, Hj, (O2 j r Er). discriminate.
          -- exfalso. apply nth_error_None in Er. assert (j < length (cols c)) by (apply nth_error_Some; congruence). rewrite (k_m _ Hc) in Er. rewrite (k_m' _ Hc) in *. lia.
        * destruct (dist c) as [|e' p|] eqn:Ed.
          -- right. exists (ATake j). unfold criss_step. rewrite (k_panic _ Hc), Hj, Ed. discriminate.
          -- destruct (forallb negb p) eqn:Ep.
             ++ right. exists ANext. unfold criss_step. rewrite (k_panic _ Hc), Ed, Ep. discriminate.
             ++ destruct (find_not (fun x => match x with CWait => false | _ => true end) (cols c)) as [H1|(j1 & x1 & Hj1 & Hx1)].
                ** left. intros a. destruct (step c a) as [c'|] eqn:E; [|reflexivity]. exfalso. apply step_ctrans in E as [_ E].
                   destruct E; try (rewrite (O1 _ _ H) in *; discriminate); try (rewrite (O2 _ _ H) in *; discriminate); try congruence.
                   --- pose proof (H1 _ _ H0) as X. discriminate X.
                   --- destruct (listen_cases _ _ _ H3) as [[X _]|[X _]]; rewrite (O1 _ _ H) in X; discriminate X.
                ** right. destruct x1; try discriminate Hx1. destruct (nth_error (rcvs c) j1) as [r|] eqn:Er.
                   --- exists (ACol j1). unfold criss_step. rewrite (k_panic _ Hc), Er, Hj1, (O2 j1 r Er). discriminate.
                   --- exfalso. apply nth_error_None in Er. assert (j1 < length (cols c)) by (apply nth_error_Some; congruence). rewrite (k_m _ Hc) in Er. rewrite (k_m' _ Hc) in *. lia.
          -- exfalso. pose proof (forallb_nth _ _ _ _ (k_dclosed _ Hc Ed) Hj) as X. discriminate X.
    - exact cinv_start.
    - exact Hf.
    - exists n. destruct (criss_progress _ (cinv_run (prefix f n))) as [Ho|[a Ha]]; [exact Ho|]. exfalso. exact (Ha (Hn a)).
  Qed.

  (** ** The data. *)
  Record ddinv (c : criss) : Prop := {
    t_items : forall i s, nth_error (snds c) i = Some s -> nth_error work i = Some (ssent s ++ sleft s);
    t_perm : Permutation (concat (map ssent (snds c))) (concat (map rrcvd (rcvs c))) }.

  Lemma concat_set {A} (f : A -> list D) l : forall i x y d, nth_error l i = Some x -> f y = f x ++ [d] -> Permutation (concat (map f (set_nth i y l))) (d :: concat (map f l)).
  Proof.
    induction l as [|z l IH]; intros [|i] x y d H E; try discriminate H; cbn [set_nth map concat nth_error] in *.
    - injection H as ->. rewrite E, <- app_assoc. symmetry. apply Permutation_middle.
    - rewrite (IH i x y d H E). symmetry. apply Permutation_middle.
  Qed.
  Lemma concat_same {A} (f : A -> list D) l : forall i x y, nth_error l i = Some x -> f y = f x -> concat (map f (set_nth i y l)) = concat (map f l).
  Proof.
    induction l as [|z l IH]; intros [|i] x y H E; try discriminate H; cbn [set_nth map concat nth_error] in *.
    - injection H as ->. rewrite E. reflexivity.
    - rewrite (IH i x y H E). reflexivity.
  Qed.
  Lemma listen_data (s s' : sender) e : listen s e = Some s' -> ssent s' = ssent s /\ sleft s' = sleft s.
  Proof. intros H. destruct (listen_cases _ _ _ H) as [[_ ->]|[_ ->]]; auto. Qed.

  Lemma ddinv_start : ddinv (criss_start work M).
  Proof.
    split.
    - intros i s H. cbn in H. rewrite nth_error_map in H. destruct (nth_error work i) as [w|]; [|discriminate H]. injection H as <-. reflexivity.
    - cbn. assert (A : forall l : list (list D), concat (map ssent (map snd_start l)) = []) by (induction l; auto). rewrite A.
      assert (B : forall m, concat (map rrcvd (repeat (@rcv_start D) m)) = []) by (induction m; auto). rewrite B. constructor.
  Qed.
  Lemma ddinv_step c a c' : ddinv c -> step c a = Some c' -> ddinv c'.
  Proof.
    intros [T1 T2] H. apply step_ctrans in H as [_ H].
    assert (GU : forall i s s', nth_error (snds c) i = Some s -> ssent s' = ssent s -> sleft s' = sleft s ->
               (forall i1 s1, nth_error (set_nth i s' (snds c)) i1 = Some s1 -> nth_error work i1 = Some (ssent s1 ++ sleft s1)) /\
               Permutation (concat (map ssent (set_nth i s' (snds c)))) (concat (map rrcvd (rcvs c)))).
    { intros i s s' Hi E1 E2. split.
      - intros i1 s1 Hi1. upd Hi Hi1. destruct (Nat.eqb_spec i1 i) as [->|]; [|exact (T1 i1 s1 Hi1)]. injection Hi1 as <-. rewrite E1, E2. exact (T1 i s Hi).
      - rewrite (concat_same ssent _ _ _ _ Hi E1). exact T2. }
    destruct H; flds; try (split; assumption).
    - split; flds.
      + intros i1 s1 Hi1. upd H Hi1. destruct (Nat.eqb_spec i1 i) as [->|]; [|exact (T1 i1 s1 Hi1)]. injection Hi1 as <-. cbn. rewrite <- app_assoc. cbn. rewrite <- H2. exact (T1 i s H).
      + etransitivity; [apply (concat_set ssent _ _ _ _ x H); reflexivity|]. etransitivity; [apply perm_skip; exact T2|]. symmetry. apply (concat_set rrcvd _ _ _ _ x H0). reflexivity.
    - split; apply (GU i s); auto.
    - split; apply (GU i s); auto.
    - split; apply (GU i s); auto.
    - destruct (listen_data _ _ _ H1). split; apply (GU i s); auto.
    - split; flds; [exact T1|]. rewrite (concat_same rrcvd _ _ _ _ H); [exact T2 | reflexivity].
    - split; flds; [exact T1|]. rewrite (concat_same rrcvd _ _ _ _ H); [exact T2 | reflexivity].
    - destruct (listen_data _ _ _ H2). split; apply (GU i s); auto.
  Qed.
  Lemma ddinv_run l : ddinv (run step (criss_start work M) l).
  Proof. apply (run_inv step ddinv ddinv_step). exact ddinv_start. Qed.

  (** ** No receiver fails. *)
  Section Quiet.
    Hypothesis some_receiver : 0 < M.
    Hypothesis no_fail : forall j h, fails j h = None /\ fails_end j h = None.
    Record qqinv (c : criss) : Prop := {
      u_c : cinv c;
      u_col : forall j e, nth_error (cols c) j <> Some (CFwd e);
      u_dist : forall e p, dist c <> DSend e p;
      u_cdone : forall j r, nth_error (rcvs c) j = Some r -> nth_error (cols c) j = Some CDone -> rend r = true;
      u_left : forall i s, nth_error (snds c) i = Some s -> spc s <> SWork -> sleft s = [] /\ (forall e, In e (sfound s) -> In e (own i)) /\ forall e, In e (own i) -> In e (sfound s) }.
    Lemma quiet_gave j (r : receiver) e : ~ gave j r e.
    Proof. intros [[_ X]|[_ X]]; [rewrite (proj1 (no_fail _ _)) in X | rewrite (proj2 (no_fail _ _)) in X]; discriminate X. Qed.
    Lemma qqinv_step c a c' : qqinv c -> step c a = Some c' -> qqinv c'.
    Proof.
      intros [UC U1 U2 U4 U3] H. pose proof (cinv_step c a c' UC H) as UC'. apply step_ctrans in H as [_ H].
      assert (GU : forall i s s', nth_error (snds c) i = Some s -> (spc s' <> SWork -> sleft s' = [] /\ (forall e, In e (sfound s') -> In e (own i)) /\ forall e, In e (own i) -> In e (sfound s')) ->
                 forall i1 s1, nth_error (set_nth i s' (snds c)) i1 = Some s1 -> spc s1 <> SWork -> sleft s1 = [] /\ (forall e, In e (sfound s1) -> In e (own i1)) /\ forall e, In e (own i1) -> In e (sfound s1)).
      { intros i s s' Hi Hs i1 s1 Hi1 Hp. upd Hi Hi1. destruct (Nat.eqb_spec i1 i) as [->|]; [injection Hi1 as <-; exact (Hs Hp) | exact (U3 i1 s1 Hi1 Hp)]. }
      destruct H; flds; try (split; assumption).
      - split; flds; auto.
        + intros j1 r1 Hj1 Hc. upd H0 Hj1. destruct (Nat.eqb_spec j1 j) as [->|]; [|exact (U4 j1 r1 Hj1 Hc)]. exfalso.
          rewrite (k_col _ UC j r H0) in Hc; [discriminate Hc | rewrite H4; discriminate].
        + apply (GU i s _ H). intros X. exfalso. apply X. reflexivity.
      - split; flds; auto. apply (GU i s _ H). intros _. cbn. auto.
      - split; flds; auto. apply (GU i s _ H). intros _. cbn. apply (U3 i s H). rewrite H0. discriminate.
      - split; flds; auto. apply (GU i s _ H). intros _. cbn. apply (U3 i s H). rewrite H0. discriminate.
      - split; flds; auto. apply (GU i s _ H). intros _. destruct (listen_cases _ _ _ H1) as [[E ->]|[E ->]]; cbn [at_pc sleft sfound].
        + exfalso. (* a receiver has seen the end *)
          assert (Hj : exists j r, nth_error (rcvs c) j = Some r).
          { exists 0. destruct (nth_error (rcvs c) 0) as [r|] eqn:E0; [exists r; reflexivity|]. apply nth_error_None in E0. rewrite (k_m _ UC) in E0. lia. }
          destruct Hj as (j & r & Hj). destruct (nth_error (cols c) j) as [x|] eqn:Ec.
          2:{ apply nth_error_None in Ec. rewrite (k_m' _ UC), <- (k_m _ UC) in Ec. assert (j < length (rcvs c)) by (apply nth_error_Some; congruence). lia. }
          pose proof (forallb_nth _ _ _ _ (k_dclosed _ UC H0) Ec) as X. destruct x; try discriminate X.
          pose proof (k_end _ UC j r Hj (U4 j r Hj Ec)) as Y.
          assert (closes c = 0) by (apply (open_work c i s UC H); unfold requested; rewrite E; reflexivity). lia.
        + destruct (U3 i s H) as (A & B & C); [rewrite E; discriminate|]. split; [exact A|]. split; intros e He.
          * apply coalesce_in in He as [He|[]]. exact (B e He).
          * apply coalesce_in. left. exact (C e He).
      - split; flds; auto. intros j1 r1 Hj1 Hc. upd H Hj1. destruct (Nat.eqb_spec j1 j) as [->|]; [|exact (U4 j1 r1 Hj1 Hc)]. injection Hj1 as <-. reflexivity.
      - exfalso. pose proof (k_fail _ UC j r H) as X. rewrite H1 in X. exact (quiet_gave _ _ _ X).
      - split; flds; auto.
        + intros j1 e X. upd H0 X. destruct (Nat.eqb_spec j1 j) as [->|]; [discriminate X | exact (U1 j1 e X)].
        + intros j1 r1 Hj1 Hc. upd H0 Hc. destruct (Nat.eqb_spec j1 j) as [->|]; [|exact (U4 j1 r1 Hj1 Hc)]. assert (r1 = r) by congruence. subst. pose proof (k_fail _ UC j r H) as X. rewrite H1 in X. destruct X as [X|[e X]]; [exact X | exfalso; exact (quiet_gave _ _ _ X)].
      - exfalso. exact (U1 j e H).
      - exfalso. exact (U2 e pending H0).
      - exfalso. exact (U2 e pending H).
      - split; flds; auto. discriminate.
    Qed.
    Lemma qqinv_run l : qqinv (run step (criss_start work M) l).
    Proof.
      apply (run_inv step qqinv qqinv_step). split; [exact cinv_start | | discriminate | |].
      - intros j e H. cbn in H. apply nth_error_In, repeat_spec in H. discriminate H.
      - intros j r _ H. cbn in H. apply nth_error_In, repeat_spec in H. discriminate H.
      - intros i s H Hp. cbn in H. apply nth_error_In, in_map_iff in H as (x & <- & _). exfalso. apply Hp. reflexivity.
    Qed.
    (** Then everything is delivered, to one receiver each, and every sender ends with its own error. *)
    Lemma criss_delivers l : let c := run step (criss_start work M) l in criss_over c ->
      Permutation (concat work) (concat (map rrcvd (rcvs c))) /\ forall i s, nth_error (snds c) i = Some s -> forall e, In e (sfound s) <-> In e (own i).
    Proof.
      intros c [Ho _]. pose proof (qqinv_run l) as Q. pose proof (ddinv_run l) as [T1 T2]. fold c in Q, T1, T2. split.
      - rewrite <- T2. assert (E : map ssent (snds c) = work); [|rewrite E; reflexivity].
        apply list_eq_nth. intros i. rewrite nth_error_map. destruct (nth_error (snds c) i) as [s|] eqn:Ei; cbn.
        + rewrite (T1 i s Ei). destruct (u_left _ Q i s Ei) as [-> _]; [rewrite (Ho i s Ei); discriminate|]. rewrite app_nil_r. reflexivity.
        + symmetry. apply nth_error_None. apply nth_error_None in Ei. rewrite (k_n _ (u_c _ Q)) in Ei. exact Ei.
      - intros i s Hi e. destruct (u_left _ Q i s Hi) as (_ & A & B); [rewrite (Ho i s Hi); discriminate|]. split; auto.
    Qed.
  End Quiet.

  (** ** Some receiver fails. *)
  Record xinv (c : criss) : Prop := {
    x_c : cinv c;
    x_fwd : forall j e, nth_error (cols c) j = Some (CFwd e) -> blame c e;
    x_dist : forall e p, dist c = DSend e p -> blame c e;
    x_first : rounds c = 0 -> forall e p, dist c = DSend e p -> forall i s, nth_error (snds c) i = Some s -> nth_error p i = Some false -> In e (sfound s);
    x_later : 0 < rounds c -> exists e, blame c e /\ forall i s, nth_error (snds c) i = Some s -> In e (sfound s);
    x_gave : forall j r e, nth_error (rcvs c) j = Some r -> gave j r e ->
      rpc r <> RDone \/ (exists e', nth_error (cols c) j = Some (CFwd e')) \/ 0 < rounds c \/ exists e' p, dist c = DSend e' p;
    x_real : forall i s e, nth_error (snds c) i = Some s -> In e (sfound s) -> In e (own i) \/ blame c e }.

  Lemma blame_step c c' e : cinv c -> ctrans c c' -> blame c e -> blame c' e.
  Proof.
    intros I H (j & r & Hj & Hg). destruct H; flds; try (exists j, r; auto; fail).
    - exists j, r. flds. rewrite (upd_nth _ _ _ _ H0). destruct (Nat.eqb_spec j j0) as [->|]; [|auto]. exfalso. assert (r0 = r) by congruence. subst. pose proof (k_fail _ I j0 r Hj) as X. rewrite H4 in X. exact (proj2 X e Hg).
    - exists j, r. flds. rewrite (upd_nth _ _ _ _ H). destruct (Nat.eqb_spec j j0) as [->|]; [|auto]. exfalso. assert (r0 = r) by congruence. subst. pose proof (k_fail _ I j0 r Hj) as X. rewrite H0 in X. exact (proj2 X e Hg).
    - destruct (Nat.eq_dec j j0) as [->|Hne].
      + assert (r0 = r) by congruence. subst. exists j0, {| rpc := RDone; rrcvd := rrcvd r; rend := rend r |}. flds. rewrite (upd_nth _ _ _ _ Hj), Nat.eqb_refl. auto.
      + exists j, r. flds. rewrite (upd_nth _ _ _ _ H). destruct (Nat.eqb_spec j j0); [contradiction | auto].
  Qed.

  Lemma xinv_step c a c' : xinv c -> step c a = Some c' -> xinv c'.
  Proof.
    intros [XC X1 X2 X3 X4 X5 X6] H. pose proof (cinv_step c a c' XC H) as XC'. apply step_ctrans in H as [_ H].
    assert (HB : forall e, blame c e -> blame c' e) by (intros e; exact (blame_step c c' e XC H)).
    (* a sender changes *)
    assert (G3 : forall i s s', nth_error (snds c) i = Some s -> (spc s = SWork \/ forall e, In e (sfound s) -> In e (sfound s')) -> rounds c = 0 -> forall e p, dist c = DSend e p ->
               forall i1 s1, nth_error (set_nth i s' (snds c)) i1 = Some s1 -> nth_error p i1 = Some false -> In e (sfound s1)).
    { intros i s s' Hi Hs Hr e p Hd i1 s1 Hi1 Hp. upd Hi Hi1. destruct (Nat.eqb_spec i1 i) as [->|]; [|exact (X3 Hr e p Hd i1 s1 Hi1 Hp)]. injection Hi1 as <-.
      destruct Hs as [Hs|Hs]; [|exact (Hs e (X3 Hr e p Hd i s Hi Hp))]. exfalso. pose proof (k_fresh _ XC Hr) as F. rewrite Hd in F. exact (proj2 (F i s Hi) Hp Hs). }
    assert (G4 : forall i s s', nth_error (snds c) i = Some s -> (spc s = SWork \/ forall e, In e (sfound s) -> In e (sfound s')) -> 0 < rounds c ->
               exists e, blame c' e /\ forall i1 s1, nth_error (set_nth i s' (snds c)) i1 = Some s1 -> In e (sfound s1)).
    { intros i s s' Hi Hs Hr. destruct (X4 Hr) as (e & He & Hf). exists e. split; [exact (HB e He)|]. intros i1 s1 Hi1. upd Hi Hi1. destruct (Nat.eqb_spec i1 i) as [->|]; [|exact (Hf i1 s1 Hi1)]. injection Hi1 as <-.
      destruct Hs as [Hs|Hs]; [|exact (Hs e (Hf i s Hi))]. exfalso. exact (proj1 (k_later _ XC Hr) i s Hi Hs). }
    assert (G6 : forall i s s', nth_error (snds c) i = Some s -> (forall e, In e (sfound s') -> In e (own i) \/ blame c' e) ->
               forall i1 s1 e, nth_error (set_nth i s' (snds c)) i1 = Some s1 -> In e (sfound s1) -> In e (own i1) \/ blame c' e).
    { intros i s s' Hi Hs i1 s1 e Hi1 He. upd Hi Hi1. destruct (Nat.eqb_spec i1 i) as [->|]; [injection Hi1 as <-; exact (Hs e He)|]. destruct (X6 i1 s1 e Hi1 He); auto. }
    assert (G6' : forall i s, nth_error (snds c) i = Some s -> forall e, In e (sfound s) -> In e (own i) \/ blame c' e).
    { intros i s Hi e He. destruct (X6 i s e Hi He); auto. }
    assert (XR : forall i s e, nth_error (snds c) i = Some s -> In e (sfound s) -> In e (own i) \/ blame c' e) by (intros i s e Hi; exact (G6' i s Hi e)).
    assert (XL : 0 < rounds c -> exists e, blame c' e /\ forall i s, nth_error (snds c) i = Some s -> In e (sfound s)).
    { intros Hr. destruct (X4 Hr) as (e & He & Hf). exists e. auto. }
    assert (XF : forall j e, nth_error (cols c) j = Some (CFwd e) -> blame c' e) by eauto.
    assert (XD : forall e p, dist c = DSend e p -> blame c' e) by eauto.
    destruct H; flds.
    - split; flds; auto. 
    - split; flds; auto.
      + apply (G3 i s); auto.
      + apply (G4 i s); auto.
      + intros j1 r1 e Hj1 Hg. upd H0 Hj1. destruct (Nat.eqb_spec j1 j) as [->|]; [|exact (X5 j1 r1 e Hj1 Hg)]. injection Hj1 as <-. left. unfold got. cbn. destruct (fails j (rrcvd r ++ [x])); discriminate.
      + apply (G6 i s _ H). exact (G6' i s H).
    - split; flds; auto; [apply (G3 i s); auto | apply (G4 i s); auto |]. apply (G6 i s _ H). cbn. auto.
    - split; flds; auto; [apply (G3 i s); auto | apply (G4 i s); auto |]. apply (G6 i s _ H). exact (G6' i s H).
    - split; flds; auto.
    - split; flds; auto; [apply (G3 i s); auto | apply (G4 i s); auto |]. apply (G6 i s _ H). exact (G6' i s H).
    - assert (Hk : spc s = SWork \/ forall e, In e (sfound s) -> In e (sfound s')).
      { destruct (listen_cases _ _ _ H1) as [[E ->]|[E ->]]; [left; exact E|]. right. intros e He. cbn. apply coalesce_in. left. exact He. }
      split; flds; auto; [apply (G3 i s); auto | apply (G4 i s); auto |]. apply (G6 i s _ H). intros e He.
      destruct (listen_cases _ _ _ H1) as [[E ->]|[E ->]]; cbn [at_pc sfound] in He; [contradiction|]. apply coalesce_in in He as [He|[]]. exact (G6' i s H e He).
    - split; flds; auto. intros j1 r1 e Hj1 Hg. upd H Hj1. destruct (Nat.eqb_spec j1 j) as [->|]; [|exact (X5 j1 r1 e Hj1 Hg)]. injection Hj1 as <-. left. unfold got_end. cbn.
      destruct (fails_end j (rrcvd r)) as [e'|] eqn:Ef; [discriminate|]. exfalso. destruct Hg as [[A B]|[_ B]]; cbn in *; [|congruence].
      pose proof (k_fail _ XC j r H) as K. rewrite H0 in K. exact (proj2 K e (or_introl (conj A B))).
    - pose proof (k_fail _ XC j r H) as K. rewrite H1 in K. split; flds; auto.
      + intros j1 e1 Hc. upd H0 Hc. destruct (Nat.eqb_spec j1 j) as [->|]; [|exact (XF j1 e1 Hc)]. injection Hc as <-. apply HB. exists j, r. auto.
      + intros j1 r1 e1 Hj1 Hg. upd H Hj1. rewrite (upd_nth _ _ _ _ H0). destruct (Nat.eqb_spec j1 j) as [->|]; [|exact (X5 j1 r1 e1 Hj1 Hg)]. right. left. eauto.
    - split; flds; auto.
      + intros j1 e1 Hc. upd H0 Hc. destruct (Nat.eqb_spec j1 j) as [->|]; [discriminate Hc | exact (XF j1 e1 Hc)].
      + intros j1 r1 e1 Hj1 Hg. rewrite (upd_nth _ _ _ _ H0). destruct (X5 j1 r1 e1 Hj1 Hg) as [Y|[[e2 Y]|Y]]; auto. destruct (Nat.eqb_spec j1 j) as [->|]; [congruence | right; left; eauto].
    - split; flds; auto.
      + intros j1 e1 Hc. upd H Hc. destruct (Nat.eqb_spec j1 j) as [->|]; [discriminate Hc | exact (XF j1 e1 Hc)].
      + intros e1 p X. injection X as <- <-. exact (XF j e H).
      + intros _ e1 p X. injection X as <- <-. intros i s _ Hp. apply nth_error_In, repeat_spec in Hp. discriminate Hp.
      + intros j1 r1 e1 _ _. right. right. right. eauto.
    - assert (Hin : In e (sfound s')).
      { destruct (listen_cases _ _ _ H2) as [[E ->]|[E ->]]; cbn [at_pc sfound]; [left; reflexivity|]. apply coalesce_in. right. left. reflexivity. }
      assert (Hk : spc s = SWork \/ forall e1, In e1 (sfound s) -> In e1 (sfound s')).
      { destruct (listen_cases _ _ _ H2) as [[E ->]|[E ->]]; [left; exact E|]. right. intros e1 He. cbn. apply coalesce_in. left. exact He. }
      split; flds; auto.
      + intros e1 p X. injection X as <- <-. exact (XD e pending H0).
      + intros Hr e1 p X. injection X as <- <-. intros i1 s1 Hi1 Hp. upd H Hi1. rewrite (upd_nth _ _ _ _ H1) in Hp. destruct (Nat.eqb_spec i1 i) as [->|]; [injection Hi1 as <-; exact Hin | exact (X3 Hr e pending H0 i1 s1 Hi1 Hp)].
      + apply (G4 i s); auto.
      + intros j1 r1 e1 _ _. right. right. right. eauto.
      + apply (G6 i s _ H). intros e1 He. destruct (listen_cases _ _ _ H2) as [[E ->]|[E ->]]; cbn [at_pc sfound] in He.
        * destruct He as [<-|[]]. right. exact (XD e pending H0).
        * apply coalesce_in in He as [He|[<-|[]]]; [exact (G6' i s H e1 He) | right; exact (XD e pending H0)].
    - split; flds; auto; try discriminate; try (intros i s e1 Hi He; exact (G6' i s Hi e1 He)).
      + intros _. destruct (rounds c) as [|k] eqn:Er; [|exact (XL ltac:(lia))]. exists e. split; [exact (XD e pending H)|]. intros i s Hi.
        apply (X3 eq_refl e pending H i s Hi). destruct (nth_error pending i) as [b|] eqn:E.
        * pose proof (forallb_nth _ _ _ _ H0 E) as X. destruct b; [discriminate X | reflexivity].
        * exfalso. apply nth_error_None in E. rewrite (k_pend _ XC _ _ H), <- (k_n _ XC) in E. assert (i < length (snds c)) by (apply nth_error_Some; congruence). lia.
      + intros j1 r1 e1 Hj1 Hg. right. right. left. lia.
    - split; flds; auto; try discriminate.
      intros j1 r1 e1 Hj1 Hg. destruct (X5 j1 r1 e1 Hj1 Hg) as [Y|[Y|[Y|(e2 & p & Y)]]]; auto. congruence.
  Qed.
  Lemma xinv_run l : xinv (run step (criss_start work M) l).
  Proof.
    apply (run_inv step xinv xinv_step). split; [exact cinv_start | | discriminate | discriminate | cbn; lia | |].
    - intros j e H. cbn in H. apply nth_error_In, repeat_spec in H. discriminate H.
    - intros j r e H Hg. cbn in H. apply nth_error_In, repeat_spec in H. subst. left. discriminate.
    - intros i s e H He. cbn in H. apply nth_error_In, in_map_iff in H as (x & <- & _). contradiction.
  Qed.
  (** If receivers failed, one of their errors is in what every sender reports. *)
  Lemma criss_error l : let c := run step (criss_start work M) l in criss_over c -> forall e0, blame c e0 ->
    exists e, blame c e /\ forall i s, nth_error (snds c) i = Some s -> In e (sfound s).
  Proof.
    intros c [Ho Hr] e0 (j & r & Hj & Hg). destruct (xinv_run l) as [XC X1 X2 X3 X4 X5 X6]. fold c in XC, X1, X2, X3, X4, X5, X6.
    destruct (rounds c) as [|k] eqn:Er; [|apply X4; lia]. destruct (dist c) as [|e p|] eqn:Ed.
    - exfalso. pose proof (k_fresh _ XC Er) as F. rewrite Ed in F. destruct (nth_error (snds c) 0) as [s|] eqn:Es; [exact (F 0 s Es (Ho 0 s Es))|].
      apply nth_error_None in Es. rewrite (k_n _ XC) in Es. lia.
    - exists e. split; [exact (X2 e p eq_refl)|]. intros i s Hi. apply (X3 eq_refl e p eq_refl i s Hi). pose proof (k_fresh _ XC Er) as F. rewrite Ed in F.
      destruct (nth_error p i) as [[|]|] eqn:Ep; [exfalso; exact (proj1 (F i s Hi) Ep (Ho i s Hi)) | reflexivity|]. exfalso. apply nth_error_None in Ep. rewrite (k_pend _ XC _ _ Ed), <- (k_n _ XC) in Ep.
      assert (i < length (snds c)) by (apply nth_error_Some; congruence). lia.
    - exfalso. destruct (X5 j r e0 Hj Hg) as [Y|[[e' Y]|[Y|(e' & p & Y)]]]; [exact (Y (Hr j r Hj)) | | lia | discriminate].
      pose proof (forallb_nth _ _ _ _ (k_dclosed _ XC Ed) Y) as Z. discriminate Z.
  Qed.
  Lemma criss_real l : let c := run step (criss_start work M) l in forall i s e, nth_error (snds c) i = Some s -> In e (sfound s) -> In e (own i) \/ blame c e.
  Proof. exact (x_real _ (xinv_run l)). Qed.
  Lemma criss_sees_end l : let c := run step (criss_start work M) l in forall j r, nth_error (rcvs c) j = Some r -> rpc r = RDone -> rend r = true \/ exists e, gave j r e.
  Proof. intros c j r Hj Hd. pose proof (k_fail _ (cinv_run l) j r Hj) as K. rewrite Hd in K. exact K. Qed.
  Lemma criss_closed_once l : let c := run step (criss_start work M) l in panicked c = false /\ closes c <= 1 /\
    (0 < closes c -> forall i s, nth_error (snds c) i = Some s -> spc s = SBrk \/ spc s = SDone) /\ (criss_over c -> closes c = 1).
  Proof.
    intros c. pose proof (cinv_run l) as I. fold c in I. split; [exact (k_panic _ I)|]. pose proof (k_close _ I) as K. split; [destruct (requests c =? N); lia|]. split.
    - intros Hc i s Hi. destruct (spc s) eqn:E; auto; exfalso.
      + assert (closes c = 0) by (apply (open_work c i s I Hi); unfold requested; rewrite E; reflexivity). lia.
      + assert (closes c = 0) by (apply (open_work c i s I Hi); unfold requested; rewrite E; reflexivity). lia.
      + destruct (closing_open c i s I Hi E). lia.
    - intros [Ho _]. assert (Hq : requests c = N) by (rewrite (k_req _ I), <- (k_n _ I); apply cnt_all; intros i s Hi; unfold requested; rewrite (Ho i s Hi); reflexivity).
      rewrite Hq, Nat.eqb_refl in K. destruct (cnt closing (snds c)) eqn:Ec; [lia|]. exfalso.
      assert (cnt closing (snds c) <= 0); [|lia]. unfold cnt. destruct (filter closing (snds c)) as [|y l'] eqn:E; [cbn; lia|]. exfalso.
      assert (In y (filter closing (snds c))) as Y by (rewrite E; left; reflexivity). apply filter_In in Y as [Y1 Y2]. apply In_nth_error in Y1 as [i Y1]. unfold closing in Y2. rewrite (Ho i y Y1) in Y2. discriminate.
  Qed.
End Criss.

(** A sender that is done and has not been told is never told. *)
Lemma criss_blocked {D : Type} own fails fails_end (c : @criss D) i s e p l :
  nth_error (snds c) i = Some s -> spc s = SDone -> dist c = DSend e p -> nth_error p i = Some true ->
  exists p', dist (run (criss_step own fails fails_end) c l) = DSend e p'.
Proof.
  intros H1 H2 H3 H4.
  assert (G : let c' := run (criss_step own fails fails_end) c l in (exists s', nth_error (snds c') i = Some s' /\ spc s' = SDone) /\ exists p', dist c' = DSend e p' /\ nth_error p' i = Some true).
  { cbn zeta. apply (run_inv (criss_step own fails fails_end) (fun c' => (exists s', nth_error (snds c') i = Some s' /\ spc s' = SDone) /\ exists p', dist c' = DSend e p' /\ nth_error p' i = Some true)); [|eauto].
    intros c0 a c1 [(s0 & A & B) (p0 & C & E)] H. apply (step_ctrans own fails fails_end [[]] (Nat.lt_0_succ 0)) in H as [_ H].
    assert (GU : forall k u u', nth_error (snds c0) k = Some u -> spc u <> SDone -> exists s', nth_error (set_nth k u' (snds c0)) i = Some s' /\ spc s' = SDone).
    { intros k u u' Hk Hu. rewrite (upd_nth _ _ _ _ Hk). destruct (Nat.eqb_spec i k) as [->|]; [exfalso; apply Hu; congruence | eauto]. }
    assert (GL : forall k u u' e1, nth_error (snds c0) k = Some u -> listen u e1 = Some u' -> spc u <> SDone).
    { intros k u u' e1 _ X. destruct (listen_cases _ _ _ X) as [[Y _]|[Y _]]; congruence. }
    destruct H as [| | | | | | | | | |j e1 X1 X2|k u u' e1 pend X1 X2 X3 X4|e1 pend X1 X2|X1 X2]; cbn [with_panic with_rcv with_snd with_col with_dist with_requests with_close snds rcvs cols dist rounds requests closes panicked] in *;
      try congruence; try (split; [|eauto]; try (eauto; fail); eapply GU; eauto; (congruence || (eapply GL; eauto))).
    - assert (e1 = e /\ pend = p0) as [-> ->] by (split; congruence). split; [eapply GU; eauto|].
      exists (set_nth k false p0). split; [reflexivity|]. rewrite (upd_nth _ _ _ _ X3). destruct (Nat.eqb_spec i k) as [->|]; [|exact E].
      exfalso. apply (GL k u u' [e] X1 X4). congruence.
    - exfalso. assert (pend = p0) by congruence. subst. rewrite forallb_forall in X2. pose proof (X2 true (nth_error_In _ _ E)). discriminate.
    - split; eauto. }
  destruct G as [_ (p' & G & _)]. eauto.
Qed.
