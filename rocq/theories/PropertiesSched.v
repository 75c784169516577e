(** Property theorem C85: when the updates of the map server run, for the model of RunWhen in SchedModel.v. *)
From Coq Require Import Strings.String.
From Verif Require Import Base BaseLemmas UtilModel SchedModel SchedProofs.
From Verif Require PropertiesUtil.
Local Open Scope list_scope.
Local Notation b_ s := (list_byte_of_string s%string).

(** Every schedule, with any delays and cancellations: no call begins before [when] or before RunWhen was called, calls do not overlap, the
    k-th call after the first begins at least k intervals after that, and of any i + 3 calls in a row the last begins more than i intervals after
    the first: no burst makes up for missed ticks. RunWhen does not panic, and it ends only after a cancellation. *)
Theorem C85_calls : forall when repeat now acts s, (0 < repeat)%Z -> run when repeat (begin_at now) acts = Some s ->
  (forall k b e, nth_error (runs s) k = Some (b, e) -> (Z.max now when + Z.of_nat k * repeat <= b <= clock s)%Z) /\
  (forall k b e b' e', nth_error (runs s) k = Some (b, e) -> nth_error (runs s) (S k) = Some (b', e') -> exists x, e = Some x /\ (b <= x <= b')%Z) /\
  (forall k i b e b' e', nth_error (runs s) k = Some (b, e) -> nth_error (runs s) (k + 2 + i) = Some (b', e') -> (b + Z.of_nat i * repeat < b')%Z) /\
  pc s <> Panicked /\ (pc s = Stopped -> cancelled s = true).
Proof.
  intros when repeat now acts s Hr E. pose proof (reach_inv when repeat now Hr acts s E) as I. pose proof (inv_past when repeat now s I) as [A B C D G].
  split; [|split; [|split; [|split]]].
  - intros k b e N. split; eauto.
  - intros k b e b' e' N N'. destruct (D _ _ _ _ _ N N') as (x & -> & L). exists x. split; [reflexivity|]. specialize (C _ _ _ N). lia.
  - exact G.
  - intros P. destruct I as [_ I]. now rewrite P in I.
  - intros P. destruct I as [_ I]. rewrite P in I. apply I.
Qed.
Print Assumptions C85_calls.

(** Interval 10, the first call at 100: three calls, of which the second takes 15; delays everywhere. *)
Definition slow : list act :=
  [Time 3; Go true; Time 1; Go true; Time 98; Go true; Time 1; Go true; Go true; Time 2; Go true; Go true; Time 12; Go true; Go true; Time 15; Go true;
   Go true; Time 1; Go true; Time 1; Go true].
Example C85_calls_nonvacuous : match run 100 10 (begin_at 0) slow with
  | Some s => runs s = [(103, Some 105); (117, Some 132); (133, Some 134)]%Z /\ pc s = Selecting | None => False end.
Proof. vm_compute. auto. Qed.

(** Without delays: the first call begins at [when], or at once if that is past. If no point of the grid (of multiples of the interval, from the
    first call on) is passed during a call, the next one begins at the first point after its end; otherwise it begins immediately. *)
Theorem C85_on_time : forall when repeat now acts s, (0 < repeat)%Z -> prompt when repeat (begin_at now) acts = true ->
  run when repeat (begin_at now) acts = Some s ->
  (forall b e, nth_error (runs s) 0 = Some (b, e) -> b = Z.max now when) /\
  (forall k b e b' e', nth_error (runs s) k = Some (b, Some e) -> nth_error (runs s) (S k) = Some (b', e') ->
     ((exists g, (b < Z.max now when + g * repeat <= e)%Z) -> b' = e) /\
     ((forall g, ~ (b < Z.max now when + g * repeat <= e)%Z) -> (e < b' <= e + repeat)%Z /\ exists g, b' = (Z.max now when + g * repeat)%Z)).
Proof.
  intros when repeat now acts s Hr O E. destruct (pinv_follows when repeat now s (reach_prompt when repeat now Hr acts s O E)) as (A & B & C).
  split; [exact A|]. intros k b e b' e' N N'. specialize (C _ _ _ N). specialize (B _ _ _ _ _ N N'). unfold after_run in B.
  pose proof (proj1 (cell_spec when repeat now Hr b _) eq_refl) as SB. pose proof (proj1 (cell_spec when repeat now Hr e _) eq_refl) as SE.
  set (cb := cell when repeat now b) in *. set (ce := cell when repeat now e) in *. split.
  - intros (g & G). destruct (Z.ltb_spec cb ce) as [L|L]; [exact B|]. exfalso. assert (cb < g)%Z by nia. assert (g <= ce)%Z by nia. lia.
  - intros G. destruct (Z.ltb_spec cb ce) as [L|L].
    + exfalso. apply (G ce). nia.
    + subst b'. split; [nia|eauto].
Qed.
Print Assumptions C85_on_time.

(** If every call is shorter than the interval, the k-th one begins exactly at the k-th point of the grid, whatever its length; and no point is
    left out, as long as nobody cancels. *)
Definition short (repeat : Z) (s : sched) : Prop :=
  (forall k b e, nth_error (runs s) k = Some (b, Some e) -> (e < b + repeat)%Z) /\
  (forall k b, nth_error (runs s) k = Some (b, None) -> (clock s < b + repeat)%Z).
Theorem C85_grid : forall when repeat now acts s, (0 < repeat)%Z -> prompt when repeat (begin_at now) acts = true ->
  run when repeat (begin_at now) acts = Some s -> short repeat s ->
  (forall k b e, nth_error (runs s) k = Some (b, e) -> b = (Z.max now when + Z.of_nat k * repeat)%Z) /\
  (cancelled s = false -> (Z.max now when <= clock s)%Z ->
     let n := ((clock s - Z.max now when) / repeat)%Z in (n <= Z.of_nat (length (runs s)) <= n + 1)%Z).
Proof.
  intros when repeat now acts s Hr O E [SH SN]. pose proof (reach_prompt when repeat now Hr acts s O E) as P.
  destruct (pinv_follows when repeat now s P) as (A & B & C).
  pose proof (inv_past when repeat now s (reach_inv when repeat now Hr acts s E)) as [_ PT _ PO _].
  assert (G : forall k b e, nth_error (runs s) k = Some (b, e) -> b = (Z.max now when + Z.of_nat k * repeat)%Z).
  { induction k as [|k IH]; intros b e N; [rewrite (A _ _ N); lia|].
    destruct (nth_error (runs s) k) as [[b0 e0]|] eqn:N0; [|apply nth_error_None in N0; apply nth_lt in N; lia].
    destruct (PO _ _ _ _ _ N0 N) as (x & -> & _). rewrite (B _ _ _ _ _ N0 N). specialize (IH _ _ eq_refl). specialize (SH _ _ _ N0). specialize (C _ _ _ N0).
    assert (C0 : cell when repeat now b0 = Z.of_nat k) by (apply cell_spec; [exact Hr|lia]). rewrite after_short by (rewrite ?C0; lia). rewrite C0. lia. }
  split; [exact G|]. intros NC L. cbv zeta.
  assert (Q : forall n, (Z.max now when + n * repeat <= clock s < Z.max now when + (n + 1) * repeat)%Z -> ((clock s - Z.max now when) / repeat)%Z = n).
  { intros n Hn. apply (cell_spec when repeat now Hr (clock s) n). exact Hn. }
  assert (LA : forall l x (e : option Z), runs s = l ++ [(x, e)] -> x = (Z.max now when + Z.of_nat (length l) * repeat)%Z /\ Z.of_nat (length (runs s)) = (Z.of_nat (length l) + 1)%Z /\ nth_error (runs s) (length l) = Some (x, e)).
  { intros l x e R. assert (N : nth_error (runs s) (length l) = Some (x, e)) by (rewrite R, nth_error_app2, Nat.sub_diag by lia; reflexivity).
    split; [exact (G _ _ _ N)|]. split; [rewrite R, app_length; cbn; lia|exact N]. }
  unfold pinv in P. destruct (pc s) eqn:PC.
  - destruct P as (R & CK). rewrite R. cbn [length]. rewrite (Q 0%Z) by lia. lia.
  - destruct P as (R & CK & _). rewrite R. cbn [length]. rewrite (Q 0%Z) by lia. lia.
  - destruct P as (R & _ & CK). rewrite R. cbn [length]. rewrite (Q 0%Z) by lia. lia.
  - destruct P as (R & CK). rewrite R. cbn [length]. rewrite (Q 0%Z) by lia. lia.
  - destruct P as (_ & [(R & CK)|(_ & l & x & e & R & _ & CK)]); [rewrite R; cbn [length]; rewrite (Q 0%Z) by lia; lia|].
    destruct (LA _ _ _ R) as (X & LE & N). specialize (SH _ _ _ N). specialize (C _ _ _ N).
    assert (C0 : cell when repeat now x = Z.of_nat (length l)) by (apply cell_spec; [exact Hr|lia]).
    rewrite after_short in CK by (rewrite ?C0; lia). rewrite C0 in CK. rewrite LE, (Q (Z.of_nat (length l) + 1)%Z) by lia. lia.
  - destruct P as (_ & l & x & R & _ & _ & CK). destruct (LA _ _ _ R) as (X & LE & N). specialize (SN _ _ N). rewrite LE, (Q (Z.of_nat (length l))) by lia. lia.
  - destruct P as (_ & l & x & e & R & _ & _ & CK & XE). destruct (LA _ _ _ R) as (X & LE & N). specialize (SH _ _ _ N). rewrite LE, (Q (Z.of_nat (length l))) by lia. lia.
  - destruct P as (_ & _ & l & x & e & R & _ & NX & XE & CK). destruct (LA _ _ _ R) as (X & LE & N). specialize (SH _ _ _ N).
    assert (C0 : cell when repeat now x = Z.of_nat (length l)) by (apply cell_spec; [exact Hr|lia]). rewrite C0 in NX.
    rewrite LE. destruct (Z.eq_dec (clock s) (next s)) as [EQ|NE]; [rewrite (Q (Z.of_nat (length l) + 1)%Z) by lia|rewrite (Q (Z.of_nat (length l))) by lia]; lia.
  - pose proof (reach_inv when repeat now Hr acts s E) as [_ I]. rewrite PC in I. destruct I as (_ & _ & CT). congruence.
  - contradiction.
Qed.
Print Assumptions C85_grid.
(** Two calls of 4 and 9 with interval 10, then the beginning of a third. *)
Definition in_time : list act :=
  [Go true; Go true; Time 100; Go true; Go true; Go true; Time 4; Go true; Go true; Time 6; Go true; Go true; Time 9; Go true; Go true; Time 1; Go true; Go true].
Example C85_grid_nonvacuous : prompt 100 10 (begin_at 0) in_time = true /\ match run 100 10 (begin_at 0) in_time with
  | Some s => runs s = [(100, Some 104); (110, Some 119); (120, None)]%Z /\ clock s = 120%Z /\ cancelled s = false | None => False end.
Proof. vm_compute. auto. Qed.

(** With the time of day of the configuration (C58), in UTC, and an interval of 24 hours: all updates begin at that time of day, the first within a
    day, if none takes a day. *)
Theorem C85_daily : forall t0 tod now now' acts s, (0 <= tod < day_ns)%Z -> (t0 < now)%Z ->
  let when := next_time_of_day t0 tod now 0 in (now <= now' <= when)%Z ->
  prompt when day_ns (begin_at now') acts = true -> run when day_ns (begin_at now') acts = Some s -> short day_ns s ->
  forall k b e, nth_error (runs s) k = Some (b, e) -> (b mod day_ns = tod)%Z /\ (now + Z.of_nat k * day_ns <= b < now + (Z.of_nat k + 1) * day_ns)%Z.
Proof.
  intros t0 tod now now' acts s T T0 when W O E SH k b e N.
  destruct (C85_grid when day_ns now' acts s ltac:(unfold day_ns; lia) O E SH) as [G _]. specialize (G _ _ _ N).
  destruct (PropertiesUtil.C58_partial t0 tod now T T0) as [A B]. fold when in A, B. subst b. replace (Z.max now' when) with when by lia. split; [|lia].
  rewrite Z.add_mod, Z.mod_mul, Z.add_0_r, Z.mod_mod by (unfold day_ns; lia). exact B.
Qed.
Print Assumptions C85_daily.
Definition hour : Z := 3600000000000.
Example C85_daily_nonvacuous : let when := next_time_of_day 0 (3 * hour) (100 * hour) 0 in
  let acts := [Go true; Go true; Time (23 * hour); Go true; Go true; Go true; Time hour; Go true; Go true; Time (23 * hour); Go true; Go true] in
  prompt when day_ns (begin_at (100 * hour)) acts = true /\
  match run when day_ns (begin_at (100 * hour)) acts with Some s => runs s = [((123 * hour)%Z, Some (124 * hour)%Z); ((147 * hour)%Z, None)] | None => False end.
Proof. vm_compute. auto. Qed.

(** Until a cancellation, every state leads to a further call. *)
Theorem C85_again : forall when repeat now acts s, (0 < repeat)%Z -> run when repeat (begin_at now) acts = Some s -> cancelled s = false ->
  exists more s', ~ In Cancel more /\ run when repeat s more = Some s' /\ length (runs s') = S (length (runs s)).
Proof.
  intros when repeat now acts s Hr E NC. pose proof (reach_inv when repeat now Hr acts s E) as [_ I].
  assert (CALL : forall u, pc u = Calling -> exists more u', ~ In Cancel more /\ run when repeat u more = Some u' /\ length (runs u') = S (length (runs u))).
  { intros u P. exists [Go true]. cbn. rewrite P. eexists. split; [intros [?|[]]; discriminate|]. split; [reflexivity|]. cbn. rewrite app_length. cbn. lia. }
  assert (BEFORE : forall u a u', a <> Cancel -> step when repeat u a = Some u' -> length (runs u') = length (runs u) ->
    (exists more v, ~ In Cancel more /\ run when repeat u' more = Some v /\ length (runs v) = S (length (runs u'))) ->
    exists more v, ~ In Cancel more /\ run when repeat u more = Some v /\ length (runs v) = S (length (runs u))).
  { intros u a u' A S L (more & v & C & R & X). exists (a :: more), v. split; [intros [?|?]; auto|]. cbn. rewrite S. split; [exact R|]. lia. }
  assert (WOKEN : forall u, pc u = Woken -> exists more v, ~ In Cancel more /\ run when repeat u more = Some v /\ length (runs v) = S (length (runs u))).
  { intros u P. eapply (BEFORE u (Go true)); [discriminate|cbn; rewrite P; destruct (Z.leb_spec repeat 0); [lia|reflexivity]|reflexivity|]. now apply CALL. }
  assert (SLEEP : forall u d, pc u = Sleeping d -> exists more v, ~ In Cancel more /\ run when repeat u more = Some v /\ length (runs v) = S (length (runs u))).
  { intros u d P. eapply (BEFORE u (Time (Z.max 0 (d - clock u)))); [discriminate|cbn; destruct (Z.leb_spec 0 (Z.max 0 (d - clock u))); [reflexivity|lia]|reflexivity|].
    eapply (BEFORE _ (Go true)); [discriminate|cbn; rewrite P; destruct (Z.leb_spec d (clock u + Z.max 0 (d - clock u))); [reflexivity|lia]|reflexivity|]. now apply WOKEN. }
  assert (BLOCK : forall u, pc u = Blocked -> exists more v, ~ In Cancel more /\ run when repeat u more = Some v /\ length (runs v) = S (length (runs u))).
  { intros u P. eapply (BEFORE u (Time (Z.max 0 (next u - clock u)))); [discriminate|cbn; destruct (Z.leb_spec 0 (Z.max 0 (next u - clock u))); [reflexivity|lia]|reflexivity|].
    eapply (BEFORE _ (Go true)); [discriminate|cbn; rewrite P; destruct (Z.leb_spec (next u) (clock u + Z.max 0 (next u - clock u))); [reflexivity|lia]|reflexivity|]. now apply CALL. }
  assert (SEL : forall u, pc u = Selecting -> cancelled u = false -> exists more v, ~ In Cancel more /\ run when repeat u more = Some v /\ length (runs v) = S (length (runs u))).
  { intros u P C. destruct (Z.leb_spec (next u) (clock u)) as [L|L].
    - eapply (BEFORE u (Go true)); [discriminate|cbn; rewrite P, C; destruct (Z.leb_spec (next u) (clock u)); [reflexivity|lia]|reflexivity|]. now apply CALL.
    - eapply (BEFORE u (Go true)); [discriminate|cbn; rewrite P, C; destruct (Z.leb_spec (next u) (clock u)); [lia|reflexivity]|reflexivity|]. now apply BLOCK. }
  destruct (pc s) eqn:P.
  - apply (BEFORE s (Go true) (set_pc s (Arming (when - clock s)))); [discriminate|cbn; rewrite P; reflexivity|reflexivity|].
    apply (BEFORE _ (Go true) (set_pc s (Sleeping (clock s + Z.max 0 (when - clock s))))); [discriminate|reflexivity|reflexivity|].
    exact (SLEEP (set_pc s (Sleeping (clock s + Z.max 0 (when - clock s)))) _ eq_refl).
  - apply (BEFORE _ (Go true) (set_pc s (Sleeping (clock s + Z.max 0 w)))); [discriminate|cbn; rewrite P; reflexivity|reflexivity|].
    exact (SLEEP (set_pc s (Sleeping (clock s + Z.max 0 w))) _ eq_refl).
  - eapply SLEEP. exact P.
  - now apply WOKEN.
  - now apply CALL.
  - eapply (BEFORE s (Go true)); [discriminate|cbn; rewrite P; reflexivity| |now apply SEL]. cbn. apply end_run_length.
  - now apply SEL.
  - now apply BLOCK.
  - destruct I as (_ & _ & C). congruence.
  - contradiction.
Qed.
Print Assumptions C85_again.
Example C85_again_nonvacuous : match run 100 10 (begin_at 0) [Go true; Time 7; Go true] with Some s => cancelled s = false /\ runs s = [] | None => False end.
Proof. vm_compute. auto. Qed.

(** Cancelled while it waits for a tick: no further call, whatever the schedule. Without delays, cancelled during a call: a further one begins only
    if that call passes a point of the grid. *)
Theorem C85_cancel : forall when repeat now acts s, (0 < repeat)%Z -> run when repeat (begin_at now) acts = Some s ->
  (pc s = Blocked -> forall more s', run when repeat s (Cancel :: more) = Some s' -> runs s' = runs s) /\
  (pc s = Running -> cancelled s = true -> prompt when repeat (begin_at now) acts = true ->
     forall more s', prompt when repeat s more = true -> run when repeat s more = Some s' -> length (runs s) < length (runs s') ->
     exists b e g, nth_error (runs s') (length (runs s) - 1) = Some (b, Some e) /\ (b < Z.max now when + g * repeat <= e)%Z).
Proof.
  intros when repeat now acts s Hr E. split.
  - intros P more s' R. cbn in R. rewrite P in R.
    assert (ST : forall l u v, pc u = Stopped -> run when repeat u l = Some v -> pc v = Stopped /\ runs v = runs u).
    { induction l as [|a l IH]; intros u v PU RU; cbn in RU; [injection RU as <-; auto|].
      destruct (step when repeat u a) as [w|] eqn:S; [|discriminate]. destruct a as [d| |t]; cbn in S.
      - destruct (0 <=? d)%Z; [|discriminate]. injection S as <-. rewrite PU in RU. apply IH in RU as [? ?]; [auto|reflexivity].
      - injection S as <-. rewrite PU in RU. apply IH in RU as [? ?]; [auto|reflexivity].
      - rewrite PU in S. discriminate. }
    apply ST in R as [_ R]; [exact R|reflexivity].
  - intros P C O more s' O' R L. pose proof (reach_prompt when repeat now Hr acts s O E) as I.
    assert (N1 : 1 <= length (runs s)). { pose proof I as I2. unfold pinv in I2. rewrite P in I2. destruct I2 as (_ & l & x & -> & _). rewrite app_length. cbn. lia. }
    assert (LT : late when repeat now (length (runs s)) s). { split; [exact I|]. split; [exact C|]. left. rewrite P. auto. }
    destruct (late_run when repeat now Hr _ more N1 s s' LT O' R) as (_ & _ & [(X & _)|(_ & b & e & N & CE)]); [lia|].
    pose proof (proj1 (cell_spec when repeat now Hr b _) eq_refl) as SB. pose proof (proj1 (cell_spec when repeat now Hr e _) eq_refl) as SE.
    exists b, e, (cell when repeat now e). split; [exact N|]. nia.
Qed.
Print Assumptions C85_cancel.
Example C85_cancel_nonvacuous :
  match run 100 10 (begin_at 0) [Go true; Go true; Time 100; Go true; Go true; Go true; Time 4; Go true; Go true] with
  | Some s => pc s = Blocked /\ runs s = [(100, Some 104)]%Z | None => False end /\
  match run 100 10 (begin_at 0) [Go true; Go true; Time 100; Go true; Go true; Go true; Time 4; Cancel] with
  | Some s => pc s = Running /\ cancelled s = true | None => False end.
Proof. vm_compute. auto. Qed.

(** "The function stops being executed when the context is cancelled" (ticker.go:13) is wrong: the first call takes place even if the context is
    cancelled long before; RunWhen never ends without one. *)
Theorem C85_first_call_refuted :
  (forall when repeat now acts s, (0 < repeat)%Z -> run when repeat (begin_at now) acts = Some s -> pc s = Stopped -> runs s <> []) /\
  exists acts s, prompt 100 10 (begin_at 0) (Cancel :: acts) = true /\ run 100 10 (begin_at 0) (Cancel :: acts) = Some s /\
    runs s = [(100, Some 105)]%Z /\ pc s = Stopped.
Proof.
  split.
  - intros when repeat now acts s Hr E P. pose proof (reach_inv when repeat now Hr acts s E) as [_ I]. rewrite P in I. destruct I as ((t0 & j & _ & _ & X & _) & _). exact X.
  - exists [Go true; Go true; Time 100; Go true; Go true; Go true; Time 5; Go true; Go true].
    exists {| clock := 105; pc := Stopped; next := 110; cancelled := true; runs := [(100, Some 105)%Z] |}. repeat split; vm_compute; reflexivity.
Qed.
Print Assumptions C85_first_call_refuted.

(** And if the function takes an interval or more, the select may prefer the tick any number of times after the cancellation. *)
Theorem C85_calls_after_cancel_refuted : forall n, exists acts s, prompt 0 10 (begin_at 0) (Cancel :: acts) = true /\
  run 0 10 (begin_at 0) (Cancel :: acts) = Some s /\ length (runs s) = n.
Proof.
  assert (LOOP : forall n c r, exists acts s, prompt 0 10 {| clock := c; pc := Calling; next := c + 10; cancelled := true; runs := r |} acts = true /\
    run 0 10 {| clock := c; pc := Calling; next := c + 10; cancelled := true; runs := r |} acts = Some s /\ length (runs s) = (n + length r)%nat).
  { induction n as [|n IH]; intros c r; [exists [], {| clock := c; pc := Calling; next := c + 10; cancelled := true; runs := r |}; auto|].
    destruct (IH (c + 10)%Z (end_run (c + 10) (r ++ [(c, None)]))) as (acts & s & O & R & L).
    exists ([Go true; Time 10; Go true; Go true] ++ acts), s.
    assert (ST : run 0 10 {| clock := c; pc := Calling; next := c + 10; cancelled := true; runs := r |} [Go true; Time 10; Go true; Go true] =
      Some {| clock := c + 10; pc := Calling; next := c + 10 + 10; cancelled := true; runs := end_run (c + 10) (r ++ [(c, None)]) |}).
    { cbn -[end_run Z.add Z.leb Z.div Z.mul Z.sub]. change (0 <=? 10)%Z with true. cbn -[end_run Z.add Z.leb Z.div Z.mul Z.sub]. rewrite Z.leb_refl. unfold take_tick. cbn [clock next cancelled runs].
      replace (c + 10 - (c + 10))%Z with 0%Z by lia. change (10 * (1 + 0 / 10))%Z with 10%Z. reflexivity. }
    split; [|split].
    - rewrite prompt_app, ST, O, andb_true_r. cbn -[Z.add Z.leb]. change (0 <=? 10)%Z with true. cbn -[Z.add Z.leb]. now rewrite ?Z.leb_refl.
    - rewrite run_app, ST. exact R.
    - rewrite L, end_run_length, app_length. cbn. lia. }
  intros n. destruct (LOOP n 0%Z []) as (acts & s & O & R & L). exists ([Go true; Go true; Go true; Go true] ++ acts), s.
  change (Cancel :: [Go true; Go true; Go true; Go true] ++ acts) with ([Cancel; Go true; Go true; Go true; Go true] ++ acts).
  rewrite prompt_app, run_app. change (run 0 10 (begin_at 0) [Cancel; Go true; Go true; Go true; Go true]) with (Some {| clock := 0; pc := Calling; next := 0 + 10; cancelled := true; runs := [] |}).
  split; [exact O|]. split; [exact R|]. rewrite L. cbn. lia.
Qed.
Print Assumptions C85_calls_after_cancel_refuted.

(** "The execution times of the function are independent from the duration of the execution itself" (ticker.go:11) is wrong for calls that take
    longer than the interval: the next call begins at once, off the grid, and the one after it less than an interval later. *)
Theorem C85_independent_refuted : exists acts s, prompt 100 10 (begin_at 0) acts = true /\ run 100 10 (begin_at 0) acts = Some s /\
  runs s = [(100, Some 125); (125, Some 126); (130, None)]%Z /\ cancelled s = false.
Proof.
  exists [Go true; Go true; Time 100; Go true; Go true; Go true; Time 25; Go true; Go true; Go true; Time 1; Go true; Go true; Time 4; Go true; Go true].
  exists {| clock := 130; pc := Running; next := 140; cancelled := false; runs := [(100, Some 125); (125, Some 126); (130, None)]%Z |}.
  repeat split; vm_compute; reflexivity.
Qed.
Print Assumptions C85_independent_refuted.

(** Without a positive interval no schedule ever calls the function; at the first tick the process panics. A configuration without UpdateTimer
    has the interval 0, and the duration reader accepts "0s" and "-1h". *)
Theorem C85_interval_refuted :
  (forall when repeat now acts s, (repeat <= 0)%Z -> run when repeat (begin_at now) acts = Some s -> runs s = []) /\
  (forall when repeat now, (repeat <= 0)%Z -> exists acts s, prompt when repeat (begin_at now) acts = true /\
     run when repeat (begin_at now) acts = Some s /\ pc s = Panicked /\ clock s = Z.max now when) /\
  parse_duration (b_ "0s") = Some 0%Z /\ parse_duration (b_ "-1h") = Some (- hour)%Z.
Proof.
  split; [|split].
  - intros when repeat now acts s Hr E. apply (no_interval when repeat now acts s Hr E).
  - intros when repeat now Hr.
    exists [Go true; Go true; Time (Z.max 0 (when - now)); Go true; Go true], {| clock := now + Z.max 0 (when - now); pc := Panicked; next := 0; cancelled := false; runs := [] |}.
    assert (A : (0 <=? Z.max 0 (when - now))%Z = true) by (apply Z.leb_le; lia).
    cbn -[Z.max Z.add Z.leb Z.sub]. rewrite A. cbn -[Z.max Z.add Z.leb Z.sub]. rewrite !Z.leb_refl. apply Z.leb_le in Hr. cbn -[Z.max Z.add Z.leb Z.sub]. rewrite Hr.
    split; [reflexivity|]. split; [reflexivity|]. split; [reflexivity|]. cbn -[Z.max Z.add Z.leb Z.sub]. lia.
  - split; vm_compute; reflexivity.
Qed.
Print Assumptions C85_interval_refuted.
