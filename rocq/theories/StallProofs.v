(** Stalled work runs alone, and the stages go on afterwards. *)
From Verif Require Import Base BaseLemmas BatchProofs SysModel SysProofs SyncModel.

(** ** Counting. *)
Definition cnt {A} (f : A -> bool) (l : list A) : nat := length (filter f l).
Local Arguments cnt : simpl never.
Local Arguments list_sum : simpl never.
Definition bn (b : bool) : nat := if b then 1 else 0.

Lemma cnt_cons {A} (f : A -> bool) x l : cnt f (x :: l) = bn (f x) + cnt f l.
Proof. unfold cnt. cbn. destruct (f x); reflexivity. Qed.
Lemma cnt_one {A} (f : A -> bool) x : cnt f [x] = bn (f x).
Proof. unfold cnt. cbn. destruct (f x); reflexivity. Qed.
Lemma cnt_app {A} (f : A -> bool) l l' : cnt f (l ++ l') = cnt f l + cnt f l'.
Proof. unfold cnt. rewrite filter_app, app_length. reflexivity. Qed.
Lemma cnt_set {A} (f : A -> bool) l i x y : nth_error l i = Some x -> cnt f (set_nth i y l) + bn (f x) = cnt f l + bn (f y).
Proof.
  revert i. induction l as [|z l IH]; intros [|i] H; try discriminate H; cbn [set_nth nth_error] in *; rewrite !cnt_cons.
  - injection H as ->. lia.
  - specialize (IH i H). lia.
Qed.
Lemma cnt_remove {A} (f : A -> bool) l i x : nth_error l i = Some x -> cnt f (firstn i l ++ skipn (S i) l) + bn (f x) = cnt f l.
Proof.
  revert i. induction l as [|z l IH]; intros [|i] H; try discriminate H; cbn [nth_error firstn skipn app] in *; rewrite !cnt_cons.
  - injection H as ->. lia.
  - specialize (IH i H). cbn [skipn] in IH. lia.
Qed.
Lemma cnt_pos {A} (f : A -> bool) l i x : nth_error l i = Some x -> f x = true -> 1 <= cnt f l.
Proof.
  revert i. induction l as [|z l IH]; intros [|i] H Hf; try discriminate H; cbn [nth_error] in *; rewrite cnt_cons.
  - injection H as ->. rewrite Hf. cbn. lia.
  - specialize (IH i H Hf). lia.
Qed.
Lemma cnt_two {A} (f : A -> bool) l i j x y : nth_error l i = Some x -> nth_error l j = Some y -> f x = true -> f y = true -> i <> j -> 2 <= cnt f l.
Proof.
  revert i j. induction l as [|z l IH]; intros [|i] [|j] H H' Hf Hg Hne; try discriminate H; try discriminate H'; cbn [nth_error] in *; rewrite cnt_cons; try lia.
  - injection H as ->. rewrite Hf. pose proof (cnt_pos f l j y H' Hg). cbn. lia.
  - injection H' as ->. rewrite Hg. pose proof (cnt_pos f l i x H Hf). cbn. lia.
  - specialize (IH i j H H' Hf Hg ltac:(congruence)). lia.
Qed.
Lemma cnt_zero_none {A} (f : A -> bool) l : cnt f l <> 0 -> exists i x, nth_error l i = Some x /\ f x = true.
Proof.
  induction l as [|z l IH]; [unfold cnt; cbn; lia|]. rewrite cnt_cons. intros H. destruct (f z) eqn:Ez; [exists 0, z; split; [reflexivity | exact Ez]|].
  destruct (IH ltac:(cbn in H; lia)) as (i & x & Hi & Hx). exists (S i), x. split; assumption.
Qed.

Definition working (st : stage_st) : bool := stalls st && match spc st with PProcess => true | _ => false end.
Definition holds_stall (st : stage_st) : bool := match spc st with PEvalHold | PGateHold => true | _ => false end.
Definition holds_group (st : stage_st) : bool := match spc st with PJoinHold => true | _ => false end.
Definition rel_stall (p : releaser_pc) : bool := match p with LWant | LWait | LRun | LUnstall => true | LUngroup => false end.
Definition rel_group (p : releaser_pc) : bool := match p with LWant => false | _ => true end.
Definition rel_past (p : releaser_pc) : bool := match p with LRun | LUnstall | LUngroup => true | _ => false end.

Definition place_ok (st : stage_st) : Prop :=
  match spc st with
  | PEval | PEvalHold => evaluates st = true
  | PGate | PGateHold | PJoin | PJoinHold => stalls st = true
  | _ => True
  end.

Record stall_inv (kinds : list (bool * bool)) (x : stall) : Prop := {
  s_kinds : map (fun st => (evaluates st, stalls st)) (stages x) = kinds;
  s_place : forall i st, nth_error (stages x) i = Some st -> place_ok st;
  s_group : group x = cnt working (stages x);
  s_gmu : cnt holds_group (stages x) + cnt rel_group (releasers x) = bn (group_mu x);
  s_smu : cnt holds_stall (stages x) + cnt rel_stall (releasers x) = bn (stall_mu x);
  s_past : 1 <= cnt rel_past (releasers x) -> group x = 0 }.

(** ** Internal steps decrease this. *)
Definition srank (st : stage_st) : nat :=
  match spc st with
  | PRecv | PDone => 0 | PGateHold => 1 | PGate => 2 | PEvalHold => 8 | PEval => 9 | PSend => 10 | PProcess => 11 | PJoinHold => 12 | PJoin => 13
  end.
Definition lrank (p : releaser_pc) : nat := match p with LWant => 5 | LWait => 4 | LRun => 3 | LUnstall => 2 | LUngroup => 1 end.
Definition stall_rank (x : stall) : nat := list_sum (map srank (stages x)) + list_sum (map lrank (releasers x)).

Lemma lsum_cons a l : list_sum (a :: l) = a + list_sum l. Proof. reflexivity. Qed.
Lemma lsum_set {A} (f : A -> nat) l i x y : nth_error l i = Some x -> list_sum (map f (set_nth i y l)) + f x = list_sum (map f l) + f y.
Proof.
  revert i. induction l as [|z l IH]; intros [|i] H; try discriminate H; cbn [set_nth map nth_error] in *; rewrite !lsum_cons.
  - injection H as ->. lia.
  - specialize (IH i H). lia.
Qed.
Lemma lsum_remove {A} (f : A -> nat) l i x : nth_error l i = Some x -> list_sum (map f (firstn i l ++ skipn (S i) l)) + f x = list_sum (map f l).
Proof.
  revert i. induction l as [|z l IH]; intros [|i] H; try discriminate H; cbn [nth_error firstn skipn app map] in *; rewrite !lsum_cons.
  - injection H as ->. lia.
  - specialize (IH i H). cbn [skipn] in IH. lia.
Qed.

Lemma stall_inv_start kinds : stall_inv kinds (stall_start kinds).
Proof.
  assert (C : forall f : stage_st -> bool, (forall e s, f {| evaluates := e; stalls := s; spc := PEval |} = false) ->
    (forall e s, f {| evaluates := e; stalls := s; spc := PGate |} = false) -> (forall e s, f {| evaluates := e; stalls := s; spc := PRecv |} = false) ->
    cnt f (stages (stall_start kinds)) = 0).
  { intros f H1 H2 H3. unfold stall_start. cbn [stages]. induction kinds as [|[e s] kinds IH]; [reflexivity|]. cbn [map]. rewrite cnt_cons, IH.
    destruct e, s; cbn [fst snd loop_top after_eval evaluates stalls]; rewrite ?H1, ?H2, ?H3; reflexivity. }
  constructor.
  - unfold stall_start. cbn. rewrite map_map. cbn. rewrite <- (map_id kinds) at 2. apply map_ext. intros [e s]. reflexivity.
  - intros i st H. unfold stall_start in H. cbn in H. rewrite nth_error_map in H. destruct (nth_error kinds i) as [[e s]|]; cbn in H; [|discriminate H].
    injection H as <-. destruct e, s; cbn; auto.
  - rewrite C; try reflexivity; intros e s; unfold working; cbn; destruct s; reflexivity.
  - rewrite C; try reflexivity.
  - rewrite C; try reflexivity.
  - cbn. lia.
Qed.

Lemma kinds_set kinds l i st p : nth_error l i = Some st -> map (fun st => (evaluates st, stalls st)) l = kinds ->
  map (fun st => (evaluates st, stalls st)) (set_nth i {| evaluates := evaluates st; stalls := stalls st; spc := p |} l) = kinds.
Proof.
  intros H <-. revert i H. induction l as [|z l IH]; intros [|i] H; try discriminate H; cbn in *; [injection H as ->; reflexivity|].
  f_equal. exact (IH i H).
Qed.
Lemma place_set l i (st y : stage_st) : nth_error l i = Some st -> (forall j s, nth_error l j = Some s -> place_ok s) -> place_ok y ->
  forall j s, nth_error (set_nth i y l) j = Some s -> place_ok s.
Proof.
  intros H Hp Hy j s E. rewrite nth_error_set_nth in E by (apply nth_error_Some; rewrite H; discriminate).
  destruct (j =? i); [injection E as <-; exact Hy | exact (Hp j s E)].
Qed.

Lemma place_loop st : place_ok {| evaluates := evaluates st; stalls := stalls st; spc := loop_top st |}.
Proof. unfold place_ok, loop_top, after_eval. cbn. destruct (evaluates st) eqn:He; [reflexivity|]. destruct (stalls st) eqn:Hs; [reflexivity | exact I]. Qed.
Lemma place_after st : place_ok {| evaluates := evaluates st; stalls := stalls st; spc := after_eval st |}.
Proof. unfold place_ok, after_eval. cbn. destruct (stalls st) eqn:Hs; [reflexivity | exact I]. Qed.

(** Everything a stage does by itself; data and stop requests come from outside. *)
Definition internal (a : stall_act) : Prop := match a with ActStage _ _ | ActReleaser _ => True | _ => False end.

Lemma past_group l : cnt rel_past l <= cnt rel_group l.
Proof. induction l as [|p l IH]; [unfold cnt; cbn; lia|]. rewrite !cnt_cons. destruct p; cbn [rel_past rel_group bn]; lia. Qed.

Lemma stage_upd kinds x s st p sm gm g rel n :
  nth_error (stages x) s = Some st -> stall_inv kinds x ->
  let st' := {| evaluates := evaluates st; stalls := stalls st; spc := p |} in
  place_ok st' -> g + bn (working st) = group x + bn (working st') ->
  bn gm + cnt rel_group (releasers x) + bn (holds_group st) = bn (group_mu x) + cnt rel_group rel + bn (holds_group st') ->
  bn sm + cnt rel_stall (releasers x) + bn (holds_stall st) = bn (stall_mu x) + cnt rel_stall rel + bn (holds_stall st') ->
  (1 <= cnt rel_past rel -> g = 0) ->
  stall_inv kinds {| stall_mu := sm; group_mu := gm; group := g; stages := set_nth s st' (stages x); releasers := rel; runs := n |}.
Proof.
  intros Hs HI st' Hpl Hg Hgm Hsm Hpa.
  pose proof (cnt_set working _ _ _ st' Hs). pose proof (cnt_set holds_group _ _ _ st' Hs). pose proof (cnt_set holds_stall _ _ _ st' Hs).
  pose proof (s_group _ _ HI). pose proof (s_gmu _ _ HI). pose proof (s_smu _ _ HI).
  constructor; cbn [stages releasers group group_mu stall_mu].
  - apply (kinds_set kinds _ _ _ _ Hs). apply HI.
  - apply (place_set _ _ _ _ Hs (s_place _ _ HI)). exact Hpl.
  - lia.
  - lia.
  - lia.
  - exact Hpa.
Qed.
Lemma stage_rank x s st p sm gm g rel n : nth_error (stages x) s = Some st ->
  let st' := {| evaluates := evaluates st; stalls := stalls st; spc := p |} in
  srank st' + list_sum (map lrank rel) < srank st + list_sum (map lrank (releasers x)) ->
  stall_rank {| stall_mu := sm; group_mu := gm; group := g; stages := set_nth s st' (stages x); releasers := rel; runs := n |} < stall_rank x.
Proof. intros Hs st' H. unfold stall_rank. cbn [stages releasers]. pose proof (lsum_set srank _ _ _ st' Hs). lia. Qed.

Lemma rel_upd kinds x sm gm rel n : stall_inv kinds x ->
  bn gm + cnt rel_group (releasers x) = bn (group_mu x) + cnt rel_group rel ->
  bn sm + cnt rel_stall (releasers x) = bn (stall_mu x) + cnt rel_stall rel ->
  (1 <= cnt rel_past rel -> group x = 0) ->
  stall_inv kinds {| stall_mu := sm; group_mu := gm; group := group x; stages := stages x; releasers := rel; runs := n |}.
Proof.
  intros HI Hgm Hsm Hpa. pose proof (s_gmu _ _ HI). pose proof (s_smu _ _ HI).
  constructor; cbn [stages releasers group group_mu stall_mu].
  - exact (s_kinds _ _ HI).
  - exact (s_place _ _ HI).
  - exact (s_group _ _ HI).
  - lia.
  - lia.
  - exact Hpa.
Qed.

Lemma stall_step_inv kinds x a x' : stall_inv kinds x -> stall_step x a = Some x' -> stall_inv kinds x' /\ (internal a -> stall_rank x' < stall_rank x).
Proof.
  intros HI H. pose proof (s_gmu _ _ HI) as Hgm. pose proof (s_smu _ _ HI) as Hsm.
  pose proof (s_past _ _ HI) as Hpa. pose proof (past_group (releasers x)) as Hpg.
  destruct a as [s d|s|s|r]; cbn [stall_step] in H.
  - destruct (nth_error (stages x) s) as [st|] eqn:Hs; [|discriminate H]. pose proof (s_place _ _ HI s st Hs) as Hpl. unfold place_ok in Hpl.
    pose proof (cnt_pos holds_group _ _ _ Hs) as Pg. pose proof (cnt_pos holds_stall _ _ _ Hs) as Ps. pose proof (cnt_pos working _ _ _ Hs) as Pw.
    rewrite <- (s_group _ _ HI) in Pw.
    destruct st as [ev sl p]. cbn [spc evaluates stalls] in *. destruct p.
    + destruct (stall_mu x) eqn:Em; [discriminate H|]. injection H as <-. split.
      * eapply (stage_upd kinds x s _ PEvalHold); try exact Hs; try exact HI; try exact Hpa; unfold working; cbn; rewrite ?Em; cbn; rewrite ?andb_false_r; cbn; try lia. exact Hpl.
      * intros _. eapply stage_rank; [exact Hs|]. cbn. lia.
    + destruct d; injection H as <-; split.
      * eapply (stage_upd kinds x s _ (after_eval _)); try exact Hs; try exact HI; cbn [evaluates stalls spc working holds_group holds_stall group_mu stall_mu group releasers];
          rewrite ?cnt_app; unfold working, holds_group, holds_stall, after_eval; destruct sl; cbn; rewrite ?cnt_app, ?cnt_one; cbn; try lia; try exact Hpl; try reflexivity; try exact I;
          intros X; apply Hpa; lia.
      * intros _. eapply stage_rank; [exact Hs|]. cbn [releasers with_stage]. rewrite map_app, list_sum_app. change (list_sum (map lrank [LWant])) with 5. unfold after_eval. destruct sl; cbn; lia.
      * specialize (Ps eq_refl). eapply (stage_upd kinds x s _ (after_eval _)); try exact Hs; try exact HI; try exact Hpa;
          unfold working, holds_group, holds_stall, after_eval; destruct sl; cbn; try lia; try reflexivity; try exact I; destruct (stall_mu x); cbn in *; lia.
      * intros _. eapply stage_rank; [exact Hs|]. unfold after_eval. destruct sl; cbn; lia.
    + destruct (stall_mu x) eqn:Em; [discriminate H|]. injection H as <-. split.
      * eapply (stage_upd kinds x s _ PGateHold); try exact Hs; try exact HI; try exact Hpa; unfold working; cbn; rewrite ?Em; cbn; rewrite ?andb_false_r; cbn; try lia. exact Hpl.
      * intros _. eapply stage_rank; [exact Hs|]. cbn. lia.
    + injection H as <-. specialize (Ps eq_refl). split.
      * eapply (stage_upd kinds x s _ PRecv); try exact Hs; try exact HI; try exact Hpa; unfold working; cbn; rewrite ?andb_false_r; cbn; try lia; try exact I;
        destruct (stall_mu x); cbn in *; lia.
      * intros _. eapply stage_rank; [exact Hs|]. cbn. lia.
    + discriminate H.
    + destruct (group_mu x) eqn:Em; [discriminate H|]. injection H as <-. split.
      * eapply (stage_upd kinds x s _ PJoinHold); try exact Hs; try exact HI; try exact Hpa; unfold working; cbn; rewrite ?Em; cbn; rewrite ?andb_false_r; cbn; try lia. exact Hpl.
      * intros _. eapply stage_rank; [exact Hs|]. cbn. lia.
    + injection H as <-. subst sl. specialize (Pg eq_refl). split.
      * eapply (stage_upd kinds x s _ PProcess); try exact Hs; try exact HI; cbn; try lia; try exact I; try intros X; destruct (group_mu x); cbn in *; lia.
      * intros _. eapply stage_rank; [exact Hs|]. cbn. lia.
    + injection H as <-. split.
      * eapply (stage_upd kinds x s _ PSend); try exact Hs; try exact HI; cbn; try lia; try exact I; [|intros X; specialize (Hpa X); destruct sl; lia].
        unfold working. destruct sl; cbn in *; [specialize (Pw eq_refl)|]; lia.
      * intros _. eapply stage_rank; [exact Hs|]. cbn. lia.
    + injection H as <-. split.
      * eapply (stage_upd kinds x s _ (loop_top _)); try exact Hs; try exact HI; try exact Hpa; [apply (place_loop {| evaluates := ev; stalls := sl; spc := PSend |})|..];
          unfold working, holds_group, holds_stall, loop_top, after_eval; destruct ev, sl; cbn; lia.
      * intros _. eapply stage_rank; [exact Hs|]. unfold loop_top, after_eval. destruct ev, sl; cbn; lia.
    + discriminate H.
  - destruct (nth_error (stages x) s) as [st|] eqn:Hs; [|discriminate H]. destruct st as [ev sl p]. cbn [spc stalls] in H. destruct p; try discriminate H. injection H as <-.
    split; [|intros []]. destruct sl.
    + eapply (stage_upd kinds x s _ PJoin); try exact Hs; try exact HI; try exact Hpa; cbn; try lia; try reflexivity.
    + eapply (stage_upd kinds x s _ PProcess); try exact Hs; try exact HI; try exact Hpa; cbn; try lia; try exact I.
  - destruct (nth_error (stages x) s) as [st|] eqn:Hs; [|discriminate H]. destruct st as [ev sl p]. cbn [spc] in H.
    split; [|intros []]. destruct p; try discriminate H; injection H as <-.
    + eapply (stage_upd kinds x s _ PDone); try exact Hs; try exact HI; try exact Hpa; unfold working; cbn; rewrite ?andb_false_r; cbn; try lia; try exact I.
    + eapply (stage_upd kinds x s _ PDone); try exact Hs; try exact HI; try exact Hpa; unfold working; cbn; rewrite ?andb_false_r; cbn; try lia; try exact I.
  - destruct (nth_error (releasers x) r) as [p|] eqn:Hr; [|discriminate H].
    pose proof (cnt_pos rel_group _ _ _ Hr) as Pg. pose proof (cnt_pos rel_stall _ _ _ Hr) as Ps. pose proof (cnt_pos rel_past _ _ _ Hr) as Pp.
    assert (U : forall y, cnt rel_group (set_nth r y (releasers x)) + bn (rel_group p) = cnt rel_group (releasers x) + bn (rel_group y) /\
                cnt rel_stall (set_nth r y (releasers x)) + bn (rel_stall p) = cnt rel_stall (releasers x) + bn (rel_stall y) /\
                cnt rel_past (set_nth r y (releasers x)) + bn (rel_past p) = cnt rel_past (releasers x) + bn (rel_past y) /\
                list_sum (map lrank (set_nth r y (releasers x))) + lrank p = list_sum (map lrank (releasers x)) + lrank y).
    { intros y. repeat split; apply cnt_set || apply lsum_set; exact Hr. }
    destruct p.
    + destruct (group_mu x) eqn:Em; [discriminate H|]. injection H as <-. destruct (U LWait) as (U1 & U2 & U3 & U4). cbn in U1, U2, U3, U4. split.
      * unfold with_locks, with_releasers; cbn [stages releasers group stall_mu group_mu runs]; apply rel_upd; try assumption; try rewrite Em; cbn; try lia; try (intros X; apply Hpa; lia).
      * intros _. unfold stall_rank. cbn. lia.
    + destruct (Nat.eqb_spec (group x) 0) as [Eg|]; [|discriminate H]. injection H as <-. destruct (U LRun) as (U1 & U2 & U3 & U4). cbn in U1, U2, U3, U4. split.
      * unfold with_locks, with_releasers; cbn [stages releasers group stall_mu group_mu runs]; apply rel_upd; try assumption; try lia.
      * intros _. unfold stall_rank. cbn. lia.
    + injection H as <-. destruct (U LUnstall) as (U1 & U2 & U3 & U4). cbn in U1, U2, U3, U4. split.
      * unfold with_locks, with_releasers; cbn [stages releasers group stall_mu group_mu runs]; apply rel_upd; try assumption; try lia; try (intros X; apply Hpa; lia).
      * intros _. unfold stall_rank. cbn. lia.
    + injection H as <-. destruct (U LUngroup) as (U1 & U2 & U3 & U4). cbn in U1, U2, U3, U4. specialize (Ps eq_refl). split.
      * unfold with_locks, with_releasers; cbn [stages releasers group stall_mu group_mu runs]; apply rel_upd; try assumption; cbn; [lia|destruct (stall_mu x); cbn in *; lia|]. intros X. apply Hpa. lia.
      * intros _. unfold stall_rank. cbn. lia.
    + injection H as <-. specialize (Pg eq_refl).
      pose proof (cnt_remove rel_group _ _ _ Hr) as U1. pose proof (cnt_remove rel_stall _ _ _ Hr) as U2. pose proof (cnt_remove rel_past _ _ _ Hr) as U3.
      pose proof (lsum_remove lrank _ _ _ Hr) as U4. change (bn (rel_group LUngroup)) with 1 in U1. change (bn (rel_stall LUngroup)) with 0 in U2. change (bn (rel_past LUngroup)) with 1 in U3.
      change (lrank LUngroup) with 1 in U4. cbn [skipn] in U1, U2, U3, U4. split.
      * unfold with_locks, with_releasers; cbn [stages releasers group stall_mu group_mu runs]; apply rel_upd; try assumption; cbn [bn]; [destruct (group_mu x); cbn [bn] in *; lia|lia|]. intros X. apply Hpa. lia.
      * intros _. unfold stall_rank, with_locks, with_releasers. cbn [stages releasers]. lia.
Qed.

Lemma stall_run_inv kinds l : stall_inv kinds (run stall_step (stall_start kinds) l).
Proof. apply run_inv; [|apply stall_inv_start]. intros s a s' H E. exact (proj1 (stall_step_inv kinds s a s' H E)). Qed.

(** *** Alone. *)
Lemma stall_alone kinds l r s st : let x := run stall_step (stall_start kinds) l in
  nth_error (releasers x) r = Some LRun -> nth_error (stages x) s = Some st -> stalls st = true -> spc st <> PProcess.
Proof.
  intros x Hr Hs Hst Hp. pose proof (stall_run_inv kinds l) as HI. fold x in HI.
  pose proof (s_past _ _ HI (cnt_pos rel_past _ _ _ Hr eq_refl)) as Hg. rewrite (s_group _ _ HI) in Hg.
  assert (W : working st = true) by (unfold working; rewrite Hst, Hp; reflexivity). pose proof (cnt_pos working _ _ _ Hs W). lia.
Qed.
Lemma stall_one_run kinds l r r' : let x := run stall_step (stall_start kinds) l in
  nth_error (releasers x) r = Some LRun -> nth_error (releasers x) r' = Some LRun -> r = r'.
Proof.
  intros x Hr Hr'. pose proof (stall_run_inv kinds l) as HI. fold x in HI. destruct (Nat.eq_dec r r') as [|Hne]; [assumption|].
  pose proof (cnt_two rel_group _ _ _ _ _ Hr Hr' eq_refl eq_refl Hne). pose proof (s_gmu _ _ HI). destruct (group_mu x); cbn in *; lia.
Qed.
(** A stage that got its data while the work runs waits before it processes. *)

(** *** Going on. *)
Lemma stall_internal_inv kinds x a x' : stall_inv kinds x -> stall_internal x a = Some x' -> stall_inv kinds x' /\ stall_rank x' < stall_rank x.
Proof.
  intros HI H. unfold stall_internal in H.
  destruct a as [s d|s|s|r]; try discriminate H;
    (destruct (stall_step_inv kinds x _ x' HI H) as [A B]; split; [exact A | apply B; exact I]).
Qed.

Lemma stall_progress kinds x : stall_inv kinds x -> (resting x /\ stuck stall_internal x) \/ exists a, stall_internal x a <> None.
Proof.
  intros HI. pose proof (s_gmu _ _ HI) as Hgm. pose proof (s_smu _ _ HI) as Hsm. pose proof (s_group _ _ HI) as Hg.
  (* a stage that holds a lock or works can always go on *)
  assert (F : forall f : stage_st -> bool, (forall st, f st = true -> match spc st with PEvalHold | PGateHold | PJoinHold | PProcess => True | _ => False end) ->
              cnt f (stages x) <> 0 -> exists a, stall_internal x a <> None).
  { intros f Hf H. destruct (cnt_zero_none f _ H) as (i & st & Hi & Hfi). specialize (Hf st Hfi). exists (ActStage i false). cbn. rewrite Hi.
    destruct (spc st); try destruct Hf; discriminate. }
  assert (Fw : cnt working (stages x) <> 0 -> exists a, stall_internal x a <> None).
  { apply F. intros st Hw. unfold working in Hw. apply andb_prop in Hw. destruct (spc st); try discriminate (proj2 Hw); exact I. }
  assert (Fg : cnt holds_group (stages x) <> 0 -> exists a, stall_internal x a <> None).
  { apply F. intros st Hw. unfold holds_group in Hw. destruct (spc st); try discriminate Hw; exact I. }
  assert (Fs : cnt holds_stall (stages x) <> 0 -> exists a, stall_internal x a <> None).
  { apply F. intros st Hw. unfold holds_stall in Hw. destruct (spc st); try discriminate Hw; exact I. }
  (* so can a releaser that holds the group lock, or somebody it waits for *)
  assert (R : cnt rel_group (releasers x) <> 0 -> exists a, stall_internal x a <> None).
  { intros H. destruct (cnt_zero_none _ _ H) as (r & p & Hr & Hp). destruct p; try discriminate Hp; try (exists (ActReleaser r); cbn; rewrite Hr; discriminate).
    destruct (Nat.eqb_spec (group x) 0) as [E|E]; [exists (ActReleaser r); cbn; rewrite Hr, E; discriminate|]. apply Fw. congruence. }
  destruct (Nat.eq_dec (cnt holds_group (stages x)) 0) as [G0|G0]; [|right; exact (Fg G0)].
  destruct (Nat.eq_dec (cnt holds_stall (stages x)) 0) as [S0|S0]; [|right; exact (Fs S0)].
  destruct (Nat.eq_dec (cnt rel_group (releasers x)) 0) as [R0|R0]; [|right; exact (R R0)].
  assert (Gm : group_mu x = false) by (destruct (group_mu x); [cbn in Hgm; lia | reflexivity]).
  destruct (releasers x) as [|p rel] eqn:Er.
  - assert (Sm : stall_mu x = false) by (destruct (stall_mu x); [unfold cnt at 2 in Hsm; cbn in Hsm; lia | reflexivity]).
    assert (D : (forall s st, nth_error (stages x) s = Some st -> spc st = PRecv \/ spc st = PDone) \/
                exists s st, nth_error (stages x) s = Some st /\ spc st <> PRecv /\ spc st <> PDone).
    { clear. induction (stages x) as [|y l IH]; [left; intros [|s] st H; discriminate H|].
      assert (Dy : (spc y = PRecv \/ spc y = PDone) \/ (spc y <> PRecv /\ spc y <> PDone)) by (destruct (spc y); auto; right; split; discriminate).
      destruct Dy as [Dy|Dy]; [|right; exists 0, y; split; [reflexivity | exact Dy]].
      destruct IH as [IH|(s & st & H & H')]; [|right; exists (S s), st; split; assumption].
      left. intros [|s] st H; cbn in H; [injection H as <-; exact Dy | exact (IH s st H)]. }
    destruct D as [D|(s & st & Hs & D1 & D2)].
    + left. split; [split; [exact Er | exact D]|]. intros a. unfold stall_internal. destruct a as [s d|s|s|r]; try reflexivity; cbn.
      * destruct (nth_error (stages x) s) as [st|] eqn:Hs; [|reflexivity]. destruct (D s st Hs) as [-> | ->]; reflexivity.
      * rewrite Er. destruct r; reflexivity.
    + right. exists (ActStage s false). cbn. rewrite Hs. destruct (spc st); try rewrite Sm; try rewrite Gm; try discriminate; contradiction.
  - right. exists (ActReleaser 0). cbn. rewrite Er. cbn. destruct p; try discriminate.
    rewrite Gm. discriminate.
Qed.

Lemma stall_continues kinds l f : fair f ->
  exists n, resting (run stall_internal (run stall_step (stall_start kinds) l) (prefix f n)).
Proof.
  intros Hf.
  destruct (fair_finishes stall_internal (stall_inv kinds) (fun s a s' H E => proj1 (stall_internal_inv kinds s a s' H E))
              (fun s' s => stall_rank s' < stall_rank s) (Wf_nat.well_founded_ltof stall stall_rank)
              (fun s a s' H E => proj2 (stall_internal_inv kinds s a s' H E))) with (f := f) (s := run stall_step (stall_start kinds) l) as [n Hn].
  - intros s Hs. destruct (stall_progress kinds s Hs) as [[_ H]|H]; [left; exact H | right; exact H].
  - apply stall_run_inv.
  - exact Hf.
  - exists n.
    assert (HI : stall_inv kinds (run stall_internal (run stall_step (stall_start kinds) l) (prefix f n))).
    { apply run_inv; [intros s a s' H E; exact (proj1 (stall_internal_inv kinds s a s' H E)) | apply stall_run_inv]. }
    destruct (stall_progress kinds _ HI) as [[H _]|[a Ha]]; [exact H|]. destruct (Ha (Hn a)).
Qed.
