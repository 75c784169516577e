(** Proofs about SchedModel: invariants of all schedules, and of those without delays. *)
From Verif Require Import Base BaseLemmas SchedModel.
Local Open Scope list_scope.

Lemma end_run_app l s e now : end_run now (l ++ [(s, e)]) = l ++ [(s, Some now)].
Proof. unfold end_run. rewrite rev_app_distr. cbn. now rewrite rev_involutive. Qed.
Lemma nth_snoc {A} (l : list A) x k y : nth_error (l ++ [x]) k = Some y -> (k < length l /\ nth_error l k = Some y) \/ (k = length l /\ y = x).
Proof.
  intros E. destruct (Nat.lt_ge_cases k (length l)) as [L|L].
  - rewrite nth_error_app1 in E by exact L. auto.
  - rewrite nth_error_app2 in E by exact L. right. destruct (k - length l) as [|n] eqn:D; cbn in E.
    + injection E as <-. split; [lia|reflexivity].
    + destruct n; discriminate.
Qed.
Lemma nth_lt {A} (l : list A) k y : nth_error l k = Some y -> k < length l.
Proof. intros E. apply nth_error_Some. congruence. Qed.

Lemma run_app when repeat s a b : run when repeat s (a ++ b) = match run when repeat s a with Some s' => run when repeat s' b | None => None end.
Proof. revert s. induction a as [|x a IH]; intros s; [reflexivity|]. cbn. destruct (step when repeat s x); [apply IH|reflexivity]. Qed.
Lemma prompt_app when repeat s a b : prompt when repeat s (a ++ b) = prompt when repeat s a && match run when repeat s a with Some s' => prompt when repeat s' b | None => false end.
Proof.
  revert s. induction a as [|x a IH]; intros s; [cbn; reflexivity|]. cbn. destruct (step when repeat s x); [|now rewrite !andb_false_r].
  rewrite IH. now rewrite andb_assoc.
Qed.

Section General.
  Variable when repeat now0 : Z.
  Hypothesis Hr : (0 < repeat)%Z.
  Let b : Z := Z.max now0 when.

  Definition all_closed (l : list (Z * option Z)) : Prop := forall k x y, nth_error l k = Some (x, y) -> exists e, y = Some e.
  Record past (l : list (Z * option Z)) (now : Z) : Prop := {
    p_grid : forall k s e, nth_error l k = Some (s, e) -> (b + Z.of_nat k * repeat <= s)%Z;
    p_time : forall k s e, nth_error l k = Some (s, e) -> (s <= now)%Z;
    p_end : forall k s e, nth_error l k = Some (s, Some e) -> (s <= e <= now)%Z;
    p_order : forall k s e s' e', nth_error l k = Some (s, e) -> nth_error l (S k) = Some (s', e') -> exists x, e = Some x /\ (x <= s')%Z;
    p_gap : forall k i s e s' e', nth_error l k = Some (s, e) -> nth_error l (k + 2 + i) = Some (s', e') -> (s + Z.of_nat i * repeat < s')%Z }.
  Lemma past_later l now now' : past l now -> (now <= now')%Z -> past l now'.
  Proof. intros [A B C D E] L. split; auto; intros k s e N; [specialize (B _ _ _ N)|specialize (C _ _ _ N)]; lia. Qed.
  Lemma past_nil now : past [] now.
  Proof. split; intros [|k]; intros; discriminate. Qed.

  (** The ticker: cell [j] of the grid was consumed. *)
  Definition ticking (s : sched) (t0 : Z) (j : nat) : Prop :=
    (b <= t0)%Z /\ (t0 + Z.of_nat j * repeat <= clock s)%Z /\ next s = (t0 + (Z.of_nat j + 1) * repeat)%Z.
  Definition live (s : sched) : Prop :=
    exists t0 j, ticking s t0 j /\ length (runs s) <= S j /\ runs s <> [] /\ past (runs s) (clock s) /\
      (forall k x y, nth_error (runs s) k = Some (x, y) -> S k < length (runs s) -> (x + (Z.of_nat (length (runs s)) - 2 - Z.of_nat k) * repeat < next s)%Z).
  Definition inv (s : sched) : Prop :=
    (now0 <= clock s)%Z /\
    match pc s with
    | Begin => runs s = []
    | Arming w => runs s = [] /\ (when <= w + clock s)%Z
    | Sleeping d => runs s = [] /\ (b <= d)%Z
    | Woken => runs s = [] /\ (b <= clock s)%Z
    | Calling => exists t0 j, ticking s t0 j /\ length (runs s) <= j /\ past (runs s) (clock s) /\ all_closed (runs s) /\
        (forall k x y, nth_error (runs s) k = Some (x, y) -> (x + (Z.of_nat (length (runs s)) - 1 - Z.of_nat k) * repeat < next s)%Z)
    | Running => live s /\ exists l x, runs s = l ++ [(x, None)] /\ all_closed l
    | Selecting => live s /\ all_closed (runs s)
    | Blocked => live s /\ all_closed (runs s) /\ cancelled s = false
    | Stopped => live s /\ all_closed (runs s) /\ cancelled s = true
    | Panicked => False
    end.

  Lemma start_inv : inv (begin_at now0).
  Proof. split; cbn; [lia|reflexivity]. Qed.
  Lemma live_later s s' : live s -> (clock s <= clock s')%Z -> next s' = next s -> runs s' = runs s -> live s'.
  Proof.
    intros (t0 & j & (A & B & C) & D & F & G & I) L N R. exists t0, j. unfold ticking. rewrite N, R.
    split; [split; [exact A|split; [lia|exact C]]|]. split; [exact D|]. split; [exact F|]. split; [eapply past_later; eauto|exact I].
  Qed.
  Lemma take_inv s : (now0 <= clock s)%Z -> live s -> all_closed (runs s) -> (next s <= clock s)%Z -> inv (take_tick repeat s).
  Proof.
    intros W (t0 & j & (A & B & C) & D & F & G & I) CL L. split; [exact W|]. cbn [take_tick pc].
    set (q := ((clock s - next s) / repeat)%Z). assert (Q0 : (0 <= q)%Z) by (apply Z.div_pos; lia).
    assert (Q1 : (repeat * q <= clock s - next s)%Z) by (apply Z.mul_div_le; lia).
    assert (Q2 : (clock s - next s < repeat * (1 + q))%Z) by (pose proof (Z.mul_succ_div_gt (clock s - next s) repeat); unfold q; lia).
    exists t0, (j + 1 + Z.to_nat q). unfold ticking, take_tick. cbn [clock next runs].
    fold q. assert (J : Z.of_nat (j + 1 + Z.to_nat q) = (Z.of_nat j + 1 + q)%Z) by lia. rewrite J.
    split; [split; [exact A|split; [nia|nia]]|]. split; [lia|]. split; [exact G|]. split; [exact CL|].
    intros k x y N. destruct (Nat.lt_ge_cases (S k) (length (runs s))) as [K|K].
    - specialize (I _ _ _ N K). nia.
    - pose proof (nth_lt _ _ _ N). assert (k = length (runs s) - 1) by lia. pose proof (p_time _ _ G _ _ _ N). nia.
  Qed.

  Lemma past_call l now : past l now -> all_closed l -> (forall t0 j, (b <= t0)%Z -> length l <= j -> (t0 + Z.of_nat j * repeat <= now)%Z ->
      (forall k x y, nth_error l k = Some (x, y) -> (x + (Z.of_nat (length l) - 1 - Z.of_nat k) * repeat < t0 + (Z.of_nat j + 1) * repeat)%Z) -> past (l ++ [(now, None)]) now).
  Proof.
    intros [A B C D G] CL t0 j T J N I. split.
    - intros k s e E. apply nth_snoc in E as [[K E]|[-> E]]; [eauto|]. injection E as -> ->. nia.
    - intros k s e E. apply nth_snoc in E as [[K E]|[-> E]]; [eauto|]. injection E as -> ->. lia.
    - intros k s e E. apply nth_snoc in E as [[K E]|[-> E]]; [eauto|discriminate].
    - intros k s e s' e' E E'. apply nth_snoc in E as [[K E]|[-> E]].
      + apply nth_snoc in E' as [[K' E']|[K' E']]; [eauto|]. injection E' as -> ->. destruct (CL _ _ _ E) as (x & ->).
        exists x. split; [reflexivity|]. apply C in E. lia.
      + apply nth_lt in E'. rewrite app_length in E'. cbn in E'. lia.
    - intros k i s e s' e' E E'. apply nth_snoc in E as [[K E]|[-> E]].
      + apply nth_snoc in E' as [[K' E']|[K' E']]; [eauto|]. injection E' as -> ->. specialize (I _ _ _ E). nia.
      + apply nth_lt in E'. rewrite app_length in E'. cbn in E'. lia.
  Qed.
  Lemma past_end l x now : past (l ++ [(x, None)]) now -> past (l ++ [(x, Some now)]) now.
  Proof.
    assert (S : forall k s e, nth_error (l ++ [(x, Some now)]) k = Some (s, e) -> exists e', nth_error (l ++ [(x, None)]) k = Some (s, e') /\ (S k <= length l -> e' = e)).
    { intros k s e E. apply nth_snoc in E as [[K E]|[-> E]].
      - exists e. rewrite nth_error_app1 by exact K. auto.
      - injection E as -> ->. exists None. rewrite nth_error_app2, Nat.sub_diag by lia. cbn. split; [reflexivity|lia]. }
    intros [A B C D G]. split.
    - intros k s e E. apply S in E as (e' & E & _). eauto.
    - intros k s e E. apply S in E as (e' & E & _). eauto.
    - intros k s e E. destruct (nth_snoc _ _ _ _ E) as [[K E']|[-> E']].
      + apply (C k). rewrite nth_error_app1 by exact K. exact E'.
      + injection E' as -> ->. apply S in E as (e' & E & _). specialize (B _ _ _ E). lia.
    - intros k s e s' e' E E'. pose proof (nth_lt _ _ _ E') as L. rewrite app_length in L. cbn in L.
      apply S in E as (e1 & E & X). apply S in E' as (e2 & E' & _). specialize (X ltac:(lia)). subst e1. eauto.
    - intros k i s e s' e' E E'. apply S in E as (e1 & E & _). apply S in E' as (e2 & E' & _). eauto.
  Qed.
  Lemma closed_end l x now : all_closed l -> all_closed (l ++ [(x, Some now)]).
  Proof. intros C k s e E. apply nth_snoc in E as [[K E]|[-> E]]; [eauto|]. injection E as -> ->. eauto. Qed.

  Lemma step_inv s a s' : inv s -> step when repeat s a = Some s' -> inv s'.
  Proof.
    intros [W I] E. destruct a as [d| |tick]; cbn [step] in E.
    - destruct (Z.leb_spec 0 d) as [L|L]; [|discriminate]. injection E as <-. split; cbn [clock]; [lia|]. cbn [pc].
      destruct (pc s); cbn [runs]; cbn in I |- *.
      + exact I.
      + destruct I. split; [assumption|lia].
      + exact I.
      + destruct I. split; [assumption|lia].
      + destruct I as (t0 & j & (A & B & C) & D & F & G & K). exists t0, j. unfold ticking. cbn [clock next].
        split; [split; [exact A|split; [lia|exact C]]|]. split; [exact D|]. split; [eapply past_later; [exact F|lia]|]. split; [exact G|exact K].
      + destruct I as [I J]. split; [|exact J]. eapply live_later; [exact I| | |]; cbn; [lia|reflexivity|reflexivity].
      + destruct I as [I J]. split; [|exact J]. eapply live_later; [exact I| | |]; cbn; [lia|reflexivity|reflexivity].
      + destruct I as [I J]. split; [|exact J]. eapply live_later; [exact I| | |]; cbn; [lia|reflexivity|reflexivity].
      + destruct I as [I J]. split; [|exact J]. eapply live_later; [exact I| | |]; cbn; [lia|reflexivity|reflexivity].
      + exact I.
    - injection E as <-. split; cbn [clock]; [exact W|]. cbn [pc runs cancelled].
      destruct (pc s); cbn [runs]; cbn in I |- *; try exact I.
      + destruct I as (I & J & _). split; [|split; [exact J|reflexivity]]. eapply live_later; [exact I| | |]; cbn; [lia|reflexivity|reflexivity].
      + destruct I as (I & J & _). split; [|split; [exact J|reflexivity]]. eapply live_later; [exact I| | |]; cbn; [lia|reflexivity|reflexivity].
    - destruct (pc s) eqn:P; cbn in I.
      + injection E as <-. split; [exact W|]. cbn. split; [exact I|lia].
      + injection E as <-. split; [exact W|]. cbn. destruct I. split; [assumption|unfold b; lia].
      + destruct (Z.leb_spec d (clock s)); [|discriminate]. injection E as <-. split; [exact W|]. cbn. destruct I. split; [assumption|lia].
      + destruct (Z.leb_spec repeat 0); [lia|]. injection E as <-. destruct I as [R L]. split; [exact W|]. cbn. rewrite R.
        exists (clock s), 0. unfold ticking. cbn [clock next]. split; [split; [exact L|split; lia]|]. split; [cbn; lia|]. split; [apply past_nil|].
        split; intros [|k]; discriminate.
      + injection E as <-. destruct I as (t0 & j & (A & B & C) & D & F & G & K). split; [exact W|]. cbn. split.
        * exists t0, j. unfold ticking. cbn [clock next runs]. rewrite app_length. cbn [length].
          split; [split; [exact A|split; [exact B|exact C]]|]. split; [lia|]. split; [destruct (runs s); discriminate|].
          split; [|intros k x y N L; apply nth_snoc in N as [[KK N]|[-> N]]; [specialize (K _ _ _ N); lia|lia]].
          eapply past_call; eauto. intros k x y N. specialize (K _ _ _ N). lia.
        * exists (runs s), (clock s). split; [reflexivity|exact G].
      + injection E as <-. destruct I as [(t0 & j & T & D & F & G & K) (l & x & R & CL)]. split; [exact W|]. cbn.
        rewrite R, end_run_app. split; [|now apply closed_end]. exists t0, j. cbn [runs clock next].
        rewrite R in D, G, K. rewrite app_length in D, K |- *. cbn [length] in *.
        split; [exact T|]. split; [exact D|]. split; [destruct l; discriminate|]. split; [now apply past_end|].
        intros k u v N L. apply nth_snoc in N as [[KK N]|[-> N]]; [|lia]. apply (K k u v); [rewrite nth_error_app1 by exact KK; exact N|exact L].
      + destruct I as [I CL]. destruct (Z.leb_spec (next s) (clock s)) as [L|L], (cancelled s) eqn:CC.
        * destruct tick; injection E as <-; [now apply take_inv|]. split; [exact W|]. cbn. rewrite CC. split; [|auto].
          eapply live_later; [exact I| | |]; cbn; [lia|reflexivity|reflexivity].
        * injection E as <-. now apply take_inv.
        * injection E as <-. split; [exact W|]. cbn. rewrite CC. split; [|auto]. eapply live_later; [exact I| | |]; cbn; [lia|reflexivity|reflexivity].
        * injection E as <-. split; [exact W|]. cbn. rewrite CC. split; [|auto]. eapply live_later; [exact I| | |]; cbn; [lia|reflexivity|reflexivity].
      + destruct I as (I & CL & CC). destruct (Z.leb_spec (next s) (clock s)) as [L|L]; [|discriminate]. injection E as <-. now apply take_inv.
      + discriminate.
      + contradiction.
  Qed.
  Lemma run_inv acts : forall s s', inv s -> run when repeat s acts = Some s' -> inv s'.
  Proof.
    induction acts as [|a acts IH]; intros s s' I E; cbn in E; [injection E as <-; exact I|].
    destruct (step when repeat s a) as [u|] eqn:U; [|discriminate]. eapply IH; [|exact E]. eapply step_inv; eauto.
  Qed.
  Lemma inv_past s : inv s -> past (runs s) (clock s).
  Proof.
    intros [_ I]. destruct (pc s); cbn in I.
    - rewrite I. apply past_nil.
    - destruct I as [I _]. rewrite I. apply past_nil.
    - destruct I as [I _]. rewrite I. apply past_nil.
    - destruct I as [I _]. rewrite I. apply past_nil.
    - destruct I as (t0 & j & _ & _ & F & _). exact F.
    - destruct I as [(t0 & j & _ & _ & _ & F & _) _]. exact F.
    - destruct I as [(t0 & j & _ & _ & _ & F & _) _]. exact F.
    - destruct I as [(t0 & j & _ & _ & _ & F & _) _]. exact F.
    - destruct I as [(t0 & j & _ & _ & _ & F & _) _]. exact F.
    - contradiction.
  Qed.
  Lemma reach_inv acts s : run when repeat (begin_at now0) acts = Some s -> inv s.
  Proof. intros E. eapply run_inv; [apply start_inv|exact E]. Qed.
End General.

(** No interval: nothing is ever called. *)
Lemma no_interval when repeat now0 acts s : (repeat <= 0)%Z -> run when repeat (begin_at now0) acts = Some s ->
  runs s = [] /\ match pc s with Begin | Arming _ | Sleeping _ | Woken | Panicked => True | _ => False end.
Proof.
  intros Hr E. set (P := fun s : sched => runs s = [] /\ match pc s with Begin | Arming _ | Sleeping _ | Woken | Panicked => True | _ => False end).
  assert (St : forall u a u', P u -> step when repeat u a = Some u' -> P u').
  { intros u a u' [R C] S. destruct a as [d| |tick]; cbn [step] in S.
    - destruct (0 <=? d)%Z; [|discriminate]. injection S as <-. split; cbn; [exact R|exact C].
    - injection S as <-. split; cbn; [exact R|]. now destruct (pc u).
    - destruct (pc u); try contradiction; try discriminate.
      + injection S as <-. split; cbn; auto.
      + injection S as <-. split; cbn; auto.
      + destruct (d <=? clock u)%Z; [|discriminate]. injection S as <-. split; cbn; auto.
      + destruct (Z.leb_spec repeat 0); [|lia]. injection S as <-. split; cbn; auto. }
  assert (G : forall acts u u', P u -> run when repeat u acts = Some u' -> P u').
  { clear E acts. induction acts as [|a acts IH]; intros u u' I E; cbn in E; [injection E as <-; exact I|].
    destruct (step when repeat u a) eqn:U; [|discriminate]. eapply IH; [|exact E]. eapply St; eauto. }
  apply (G acts (begin_at now0) s); [split; cbn; auto|exact E].
Qed.

Lemma end_run_length now l : length (end_run now l) = length l.
Proof. unfold end_run. destruct (rev l) as [|[y z] r] eqn:R; rewrite <- (rev_length l), R; [reflexivity|]. rewrite app_length, rev_length. cbn. lia. Qed.

(** ** Schedules without delays *)
Section Prompt.
  Variable when repeat now0 : Z.
  Hypothesis Hr : (0 < repeat)%Z.
  Let b : Z := Z.max now0 when.
  Definition cell (t : Z) : Z := ((t - b) / repeat)%Z.
  (** The beginning of the next call after a call from [s] to [e]. *)
  Definition after_run (s e : Z) : Z := if (cell s <? cell e)%Z then e else (b + (cell e + 1) * repeat)%Z.
  Lemma cell_spec t j : cell t = j <-> (b + j * repeat <= t < b + (j + 1) * repeat)%Z.
  Proof.
    unfold cell. split.
    - intros <-. pose proof (Z.mul_div_le (t - b) repeat Hr). pose proof (Z.mul_succ_div_gt (t - b) repeat Hr). nia.
    - intros L. symmetry. apply (Z.div_unique_pos _ _ _ (t - b - j * repeat)); lia.
  Qed.
  Lemma cell_mono s t : (s <= t)%Z -> (cell s <= cell t)%Z.
  Proof. intros L. unfold cell. apply Z.div_le_mono; lia. Qed.

  Definition follows (l : list (Z * option Z)) : Prop :=
    (forall s e, nth_error l 0 = Some (s, e) -> s = b) /\
    (forall k s e s' e', nth_error l k = Some (s, Some e) -> nth_error l (S k) = Some (s', e') -> s' = after_run s e) /\
    (forall k s e, nth_error l k = Some (s, Some e) -> (s <= e)%Z).
  Definition after (s : sched) (f : Z -> Z -> Prop) : Prop :=
    follows (runs s) /\ exists l x e, runs s = l ++ [(x, Some e)] /\ (forall k u v, nth_error l k = Some (u, v) -> exists w, v = Some w) /\ f x e.
  Definition pinv (s : sched) : Prop :=
    match pc s with
    | Begin => runs s = [] /\ clock s = now0
    | Arming w => runs s = [] /\ clock s = now0 /\ w = (when - now0)%Z
    | Sleeping d => runs s = [] /\ d = b /\ (clock s <= b)%Z
    | Woken => runs s = [] /\ clock s = b
    | Calling => next s = (b + (cell (clock s) + 1) * repeat)%Z /\
        ((runs s = [] /\ clock s = b) \/ after s (fun x e => clock s = after_run x e))
    | Running => follows (runs s) /\ exists l x, runs s = l ++ [(x, None)] /\ (forall k u v, nth_error l k = Some (u, v) -> exists w, v = Some w) /\
        next s = (b + (cell x + 1) * repeat)%Z /\ (x <= clock s)%Z
    | Selecting => after s (fun x e => next s = (b + (cell x + 1) * repeat)%Z /\ clock s = e /\ (x <= e)%Z)
    | Blocked => cancelled s = false /\ after s (fun x e => next s = (b + (cell x + 1) * repeat)%Z /\ (x <= e < next s)%Z /\ (e <= clock s <= next s)%Z)
    | Stopped => after s (fun _ _ => True)
    | Panicked => False
    end.
  Lemma pstart : pinv (begin_at now0).
  Proof. cbn. auto. Qed.

  Lemma b_cell : cell b = 0%Z.
  Proof. apply cell_spec. lia. Qed.

  Lemma follows_call l x e n : follows (l ++ [(x, Some e)]) -> n = after_run x e -> follows ((l ++ [(x, Some e)]) ++ [(n, None)]).
  Proof.
    intros (A & B & C) ->. split; [|split].
    - intros s e' E. apply (A s e'). rewrite nth_error_app1 in E; [exact E|]. rewrite app_length. cbn. lia.
    - intros k s e1 s' e' E E'. apply nth_snoc in E' as [[K E']|[K E']].
      + apply nth_snoc in E as [[K2 E]|[K2 E]]; [|lia]. eapply B; eauto.
      + injection E' as -> ->. apply nth_snoc in E as [[K2 E]|[K2 E]]; [|lia]. rewrite app_length in K. cbn in K.
        apply nth_snoc in E as [[K3 E]|[K3 E]]; [lia|]. injection E as -> ->. reflexivity.
    - intros k s e1 E. apply nth_snoc in E as [[K E]|[K E]]; [eauto|discriminate].
  Qed.
  Lemma follows_end l x now : follows (l ++ [(x, None)]) -> (x <= now)%Z -> follows (l ++ [(x, Some now)]).
  Proof.
    intros (A & B & C) L.
    assert (S : forall k s e, nth_error (l ++ [(x, Some now)]) k = Some (s, e) -> exists e', nth_error (l ++ [(x, None)]) k = Some (s, e') /\ (S k <= length l -> e' = e)).
    { intros k s e E. apply nth_snoc in E as [[K E]|[-> E]].
      - exists e. rewrite nth_error_app1 by exact K. auto.
      - injection E as -> ->. exists None. rewrite nth_error_app2, Nat.sub_diag by lia. cbn. split; [reflexivity|lia]. }
    split; [|split].
    - intros s e E. apply S in E as (e' & E & _). eauto.
    - intros k s e s' e' E E'. pose proof (nth_lt _ _ _ E') as K. rewrite app_length in K. cbn in K.
      apply S in E as (e1 & E & X). specialize (X ltac:(lia)). subst e1. apply S in E' as (e2 & E' & _). eapply B; eauto.
    - intros k s e E. apply nth_snoc in E as [[K E]|[-> E]]; [|injection E as -> ->; exact L]. apply (C k). rewrite nth_error_app1 by exact K. exact E.
  Qed.
  Lemma closed_snoc (l : list (Z * option Z)) x e : (forall k u v, nth_error l k = Some (u, v) -> exists w, v = Some w) ->
    forall k u v, nth_error (l ++ [(x, Some e)]) k = Some (u, v) -> exists w, v = Some w.
  Proof. intros C k u v E. apply nth_snoc in E as [[K E]|[-> E]]; [eauto|]. injection E as -> ->. eauto. Qed.

  (** Taking a tick: the clock is where the call should begin. *)
  Lemma take_next s x : next s = (b + (cell x + 1) * repeat)%Z -> (next s <= clock s)%Z ->
    next (take_tick repeat s) = (b + (cell (clock s) + 1) * repeat)%Z.
  Proof.
    intros N L. cbn [take_tick next]. assert (cell (clock s) = cell x + 1 + (clock s - next s) / repeat)%Z as ->; [|rewrite N at 1; nia].
    apply cell_spec. pose proof (Z.mul_div_le (clock s - next s) repeat Hr). pose proof (Z.mul_succ_div_gt (clock s - next s) repeat Hr). nia.
  Qed.
  Lemma after_crossed x e : (b + (cell x + 1) * repeat <= e)%Z -> after_run x e = e.
  Proof.
    intros L. unfold after_run. assert (cell x < cell e)%Z as ->%Z.ltb_lt; [|reflexivity].
    assert (cell (b + (cell x + 1) * repeat) = cell x + 1)%Z as C by (apply cell_spec; lia). pose proof (cell_mono _ _ L). lia.
  Qed.
  Lemma after_short x e : (x <= e)%Z -> (e < b + (cell x + 1) * repeat)%Z -> after_run x e = (b + (cell x + 1) * repeat)%Z.
  Proof.
    intros L U. assert (cell e = cell x) as C by (apply cell_spec; pose proof (proj1 (cell_spec x (cell x)) eq_refl); lia).
    unfold after_run. rewrite C, Z.ltb_irrefl. reflexivity.
  Qed.

  Lemma pstep s a s' : pinv s -> on_time s a = true -> step when repeat s a = Some s' -> pinv s'.
  Proof.
    intros I O E. destruct a as [d| |tick]; cbn [step] in E.
    - destruct (Z.leb_spec 0 d) as [L|L]; [|discriminate]. injection E as <-. cbn [on_time] in O. unfold pinv in *. cbn [pc clock runs next cancelled].
      destruct (pc s).
      + apply Z.eqb_eq in O. subst d. rewrite Z.add_0_r. exact I.
      + apply Z.eqb_eq in O. subst d. rewrite Z.add_0_r. exact I.
      + apply Z.leb_le in O. destruct I as (R & -> & _). split; [exact R|]. split; [reflexivity|exact O].
      + apply Z.eqb_eq in O. subst d. rewrite Z.add_0_r. exact I.
      + apply Z.eqb_eq in O. subst d. unfold after in *. cbn [clock runs]. rewrite Z.add_0_r. exact I.
      + destruct I as (F & l & x & R & C & N & K). split; [exact F|]. exists l, x. split; [exact R|]. split; [exact C|]. split; [exact N|lia].
      + apply Z.eqb_eq in O. subst d. unfold after in *. cbn [clock runs]. rewrite Z.add_0_r. exact I.
      + apply Z.leb_le in O. destruct I as (CC & F & l & x & e & R & C & N & K & M). split; [exact CC|]. split; [exact F|].
        exists l, x, e. split; [exact R|]. split; [exact C|]. split; [exact N|]. split; [exact K|lia].
      + exact I.
      + exact I.
    - injection E as <-. unfold pinv in *. cbn [pc clock runs next cancelled]. destruct (pc s); try exact I.
      destruct I as (_ & F & l & x & e & R & C & _). split; [exact F|]. exists l, x, e. auto.
    - unfold pinv in I. destruct (pc s) eqn:P.
      + injection E as <-. destruct I as (R & C). cbn. split; [exact R|]. split; [exact C|lia].
      + injection E as <-. destruct I as (R & C & ->). cbn. split; [exact R|]. unfold b. split; lia.
      + destruct (Z.leb_spec d (clock s)) as [L|L]; [|discriminate]. injection E as <-. destruct I as (R & -> & C). cbn. split; [exact R|lia].
      + destruct (Z.leb_spec repeat 0); [lia|]. injection E as <-. destruct I as (R & C). cbn. rewrite C, b_cell. split; [lia|]. left. auto.
      + injection E as <-. cbn. destruct I as (N & [(R & C)|(F & l & x & e & R & C & M)]).
        * rewrite R. cbn. split.
          { split; [|split]; [intros s0 e0 E0; injection E0 as <- <-; exact C|intros [|k]; discriminate|intros [|[|k]]; discriminate]. }
          exists [], (clock s). split; [reflexivity|]. split; [intros [|k]; discriminate|]. split; [exact N|lia].
        * rewrite R in F |- *. split; [now apply follows_call|]. exists (l ++ [(x, Some e)]), (clock s). split; [reflexivity|].
          split; [now apply closed_snoc|]. split; [exact N|lia].
      + injection E as <-. cbn. destruct I as (F & l & x & R & C & N & L). split; cbn [runs]; rewrite R, end_run_app.
        * rewrite R in F. now apply follows_end.
        * exists l, x, (clock s). auto.
      + destruct I as (F & l & x & e & R & C & N & K & M).
        assert (TK : (next s <= clock s)%Z -> pinv (take_tick repeat s)).
        { intros L. unfold pinv. cbn [take_tick pc]. split; [change (next (take_tick repeat s) = (b + (cell (clock s) + 1) * repeat)%Z); eapply take_next; eauto|].
          right. split; [exact F|]. exists l, x, e. split; [exact R|]. split; [exact C|]. cbn [take_tick clock]. rewrite K. symmetry.
          apply after_crossed. lia. }
        assert (ST : pinv (set_pc s Stopped)) by (split; [exact F|]; exists l, x, e; auto).
        destruct (Z.leb_spec (next s) (clock s)) as [L|L], (cancelled s) eqn:CC.
        * destruct tick; injection E as <-; auto.
        * injection E as <-; auto.
        * injection E as <-; auto.
        * injection E as <-. unfold pinv. cbn. split; [exact CC|]. split; [exact F|]. exists l, x, e. split; [exact R|]. split; [exact C|].
          split; [exact N|]. lia.
      + destruct I as (CC & F & l & x & e & R & C & N & K & M). destruct (Z.leb_spec (next s) (clock s)) as [L|L]; [|discriminate]. injection E as <-.
        unfold pinv. cbn [take_tick pc]. split; [change (next (take_tick repeat s) = (b + (cell (clock s) + 1) * repeat)%Z); eapply take_next; eauto|].
        right. split; [exact F|]. exists l, x, e. split; [exact R|]. split; [exact C|]. cbn [take_tick clock].
        rewrite after_short by lia. lia.
      + discriminate.
      + contradiction.
  Qed.
  Lemma prun acts : forall s s', pinv s -> prompt when repeat s acts = true -> run when repeat s acts = Some s' -> pinv s'.
  Proof.
    induction acts as [|a acts IH]; intros s s' I O E; cbn in E, O; [injection E as <-; exact I|].
    apply andb_true_iff in O as [O1 O2]. destruct (step when repeat s a) as [u|] eqn:U; [|discriminate]. eapply IH; [|exact O2|exact E]. eapply pstep; eauto.
  Qed.
  Lemma follows_nil : follows [].
  Proof. split; [|split]; [|intros [|k]|intros [|k]]; intros; discriminate. Qed.
  Lemma pinv_follows s : pinv s -> follows (runs s).
  Proof.
    unfold pinv. destruct (pc s).
    - intros (-> & _). apply follows_nil.
    - intros (-> & _). apply follows_nil.
    - intros (-> & _). apply follows_nil.
    - intros (-> & _). apply follows_nil.
    - intros (_ & [(-> & _)|(F & _)]); [apply follows_nil|exact F].
    - intros (F & _). exact F.
    - intros (F & _). exact F.
    - intros (_ & F & _). exact F.
    - intros (F & _). exact F.
    - contradiction.
  Qed.
  Lemma reach_prompt acts s : prompt when repeat (begin_at now0) acts = true -> run when repeat (begin_at now0) acts = Some s -> pinv s.
  Proof. intros O E. eapply prun; [apply pstart|exact O|exact E]. Qed.

  (** Cancelled during or after a call: another one begins only if that one went beyond a point of the grid. *)
  Definition late (n : nat) (s : sched) : Prop :=
    pinv s /\ cancelled s = true /\
    ((length (runs s) = n /\ match pc s with Running | Selecting | Stopped => True | Calling => exists l x e, runs s = l ++ [(x, Some e)] /\ (cell x < cell e)%Z | _ => False end)
     \/ (n < length (runs s) /\ exists x e, nth_error (runs s) (n - 1) = Some (x, Some e) /\ (cell x < cell e)%Z)).
  Lemma end_run_keeps now l k x e : nth_error l k = Some (x, Some e) -> (exists l' y, l = l' ++ [(y, None)]) -> nth_error (end_run now l) k = Some (x, Some e).
  Proof.
    intros E (l' & y & ->). rewrite end_run_app. apply nth_snoc in E as [[K E]|[K E]]; [|discriminate]. now rewrite nth_error_app1 by exact K.
  Qed.
  Lemma late_step n s a s' : 1 <= n -> late n s -> on_time s a = true -> step when repeat s a = Some s' -> late n s'.
  Proof.
    intros Hn (I & CC & D) O E. pose proof (pstep _ _ _ I O E) as I'. split; [exact I'|].
    destruct a as [d| |tick]; cbn [step] in E.
    - destruct (0 <=? d)%Z; [|discriminate]. injection E as <-. split; [exact CC|]. exact D.
    - injection E as <-. split; [reflexivity|]. cbn [runs pc]. destruct D as [(L & P)|D]; [left|right; exact D]. split; [exact L|]. destruct (pc s); auto.
    - destruct (pc s) eqn:P; unfold pinv in I; rewrite P in I; cbn beta iota in I.
      + destruct D as [(_ & [])|(L & _)]. destruct I as (R & _). rewrite R in L. cbn in L. lia.
      + destruct D as [(_ & [])|(L & _)]. destruct I as (R & _). rewrite R in L. cbn in L. lia.
      + destruct D as [(_ & [])|(L & _)]. destruct I as (R & _). rewrite R in L. cbn in L. lia.
      + destruct D as [(_ & [])|(L & _)]. destruct I as (R & _). rewrite R in L. cbn in L. lia.
      + injection E as <-. split; [exact CC|]. right. cbn [runs]. rewrite app_length. cbn [length].
        destruct D as [(L & l & x & e & R & X)|(L & x & e & N & X)].
        * split; [lia|]. exists x, e. split; [|exact X]. rewrite R in L |- *. rewrite app_length in L. cbn in L.
          rewrite nth_error_app1 by (rewrite app_length; cbn; lia). rewrite nth_error_app2 by lia. replace (n - 1 - length l) with 0 by lia. reflexivity.
        * split; [lia|]. exists x, e. split; [|exact X]. rewrite nth_error_app1 by lia. exact N.
      + injection E as <-. split; [exact CC|]. cbn [runs pc]. rewrite end_run_length. destruct D as [(L & _)|(L & x & e & N & X)]; [left; auto|right].
        split; [exact L|]. exists x, e. split; [|exact X]. destruct I as (_ & l & y & R & _). apply end_run_keeps; [exact N|eauto].
      + assert (TK : (next s <= clock s)%Z -> late n (take_tick repeat s) \/ True) by auto. clear TK.
        assert (CX : (next s <= clock s)%Z -> exists l x e, runs s = l ++ [(x, Some e)] /\ (cell x < cell e)%Z).
        { intros L. destruct I as (F & l & x & e & R & C & N & K & M). exists l, x, e. split; [exact R|].
          assert (cell (b + (cell x + 1) * repeat) = cell x + 1)%Z as Cx by (apply cell_spec; lia).
          assert (LE : (b + (cell x + 1) * repeat <= e)%Z) by lia. apply cell_mono in LE. lia. }
        rewrite CC in E. destruct (Z.leb_spec (next s) (clock s)) as [L|L].
        * destruct tick; injection E as <-; (split; [exact CC|]); cbn [take_tick set_pc runs pc]; destruct D as [(N & _)|D]; auto.
        * injection E as <-. split; [exact CC|]. cbn [set_pc runs pc]. destruct D as [(N & _)|D]; auto.
      + destruct I as (I & _). congruence.
      + discriminate.
      + discriminate.
  Qed.
  Lemma late_run n acts : 1 <= n -> forall s s', late n s -> prompt when repeat s acts = true -> run when repeat s acts = Some s' -> late n s'.
  Proof.
    intros Hn. induction acts as [|a acts IH]; intros s s' I O E; cbn in E, O; [injection E as <-; exact I|].
    apply andb_true_iff in O as [O1 O2]. destruct (step when repeat s a) as [u|] eqn:U; [|discriminate]. eapply IH; [|exact O2|exact E]. eapply late_step; eauto.
  Qed.
End Prompt.
