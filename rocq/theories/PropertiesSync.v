(** C41, C42, C43, C59: hand-made synchronisation. *)
From Verif Require Import Base BaseLemmas SysModel SyncModel CacheSpec SpinProofs CacheProofs CacheTop LoopProofs StallProofs.

(** ** C42. One use of the lock: at most one worker inside, entered in the order of the ids, and all get their turn. *)
Theorem C42_one_round_partial : forall n l, let s := run (spin_step n) (spin_start n 1) l in
  (forall i j, inside s i -> inside s j -> i = j) /\ exists k, entered s = seq 0 k.
Proof. intros n l. split; [exact (spin_exclusive n l) | exact (spin_order n l)]. Qed.

Theorem C42_everybody_enters_partial : forall n f, fair f -> exists m,
  let s := run (spin_step n) (spin_start n 1) (prefix f m) in
  entered s = seq 0 n /\ waiting s = false /\ forall i, ~ inside s i.
Proof.
  intros n f Hf. destruct (spin_finishes n f Hf) as (m & H1 & H2 & H3 & H4). exists m. split; [exact H4|]. split; [exact H2|].
  intros i [r Hi]. rewrite H3 in Hi. apply nth_error_In in Hi. apply repeat_spec in Hi. discriminate Hi.
Qed.

Example C42_three_workers :
  let s := run (spin_step 3) (spin_start 3 1)
             [AMain; AWorker 2; AStarter 0; AWorker 1; AWorker 0; AWorker 2; AWorker 0; AStarter 0; AStarter 0; AWorker 1] in
  inside s 1 /\ entered s = [0; 1].
Proof. cbn. split; [eexists; reflexivity | reflexivity]. Qed.

(** False for a second round, with every worker waiting for the second Start: two workers inside at the same time, out of order. *)
Theorem C42_second_round_refuted : exists n l i j, i <> j /\
  let s := run (spin_step n) (spin_start n 2) l in inside s i /\ inside s j /\ entered s = [0; 1; 1; 0].
Proof.
  exists 2, [AMain; AStarter 0; AWorker 0; AWorker 0; AStarter 0; AStarter 0; AWorker 1; AWorker 1; AStarter 0; AMain; AMain;
             AWorker 1; AStarter 1; AWorker 0], 0, 1.
  split; [discriminate|]. cbn. split; [eexists; reflexivity|]. split; [eexists; reflexivity | reflexivity].
Qed.

(** ** C43. Under every interleaving the cache behaves as a set whose operations take effect one after the other. *)
Theorem C43_linearizable : forall progs l, linearizable (events (run cache_step (cache_start progs) l)).
Proof. exact cache_linearizable. Qed.

Theorem C43_never_forgets : forall progs l t k ids r t' k' id r', let ev := events (run cache_step (cache_start progs) l) in
  before ev (Returned t k (AddIDs ids) r) (Called t' k' (Contains id)) -> In id ids ->
  In (Returned t' k' (Contains id) r') ev -> r' = true.
Proof. intros progs l t k ids r t' k' id r' ev. exact (lin_never_forgets ev (cache_linearizable progs l) t k ids r t' k' id r'). Qed.

Theorem C43_never_invents : forall progs l t k id, let ev := events (run cache_step (cache_start progs) l) in
  In (Returned t k (Contains id) true) ev ->
  exists t' k' ids, In id ids /\ before ev (Called t' k' (AddIDs ids)) (Returned t k (Contains id) true).
Proof. intros progs l t k id ev. exact (lin_never_invents ev (cache_linearizable progs l) t k id). Qed.

(** Once seen, always seen. *)
Theorem C43_no_flicker : forall progs l t k t' k' id r', let ev := events (run cache_step (cache_start progs) l) in
  before ev (Returned t k (Contains id) true) (Called t' k' (Contains id)) -> In (Returned t' k' (Contains id) r') ev -> r' = true.
Proof. intros progs l t k t' k' id r' ev. exact (lin_no_flicker ev (cache_linearizable progs l) t k t' k' id r'). Qed.

(** No set is read while it is written, and there is one writer at a time. *)
Theorem C43_no_data_race : forall progs l t th t' th', let c := run cache_step (cache_start progs) l in
  nth_error (threads c) t = Some th -> nth_error (threads c) t' = Some th' ->
  (critical (pc th) = true -> critical (pc th') = true -> t = t') /\
  forall id ids x rest, (pc th' = WAdd1 ids (x :: rest) -> pc th <> RRead id true) /\
                        (pc th' = WAdd0 ids (x :: rest) -> pc th <> RRead id false).
Proof.
  intros progs l t th t' th' c H H'. split; [exact (cache_one_writer progs l t th t' th' H H') | exact (cache_no_race progs l t th t' th' H H')].
Qed.

Theorem C43_everything_returns : forall progs f, fair f -> exists n, all_returned (run cache_step (cache_start progs) (prefix f n)).
Proof. exact cache_finishes. Qed.

Definition id1 : bytes := [x01].
Definition two_threads : list (list cache_op) := [[AddIDs [id1]]; [Contains id1; Contains id1]].
(** Events in their order; an operation is named by its thread and the number of its operations left. The reader holds the first
    set while the writer fills and shows the second one. *)
Definition reads (l : list nat) : list (option (nat * nat * bool)) :=
  map (fun e => match e with Returned t k (Contains _) r => Some (t, k, r) | _ => None end)
    (events (run cache_step (cache_start two_threads) l)).
Example C43_old_then_new :
  reads [1; 1; 0; 0; 0; 0; 0; 1; 1; 0; 0; 1; 1; 1; 1; 1; 1; 0; 0; 0; 0; 0; 0; 0; 1; 1; 1; 1; 1; 1; 1; 1] =
  [None; None; Some (1, 1, false); None; None; Some (1, 0, true)].
Proof. vm_compute. reflexivity. Qed.
(** The same, the reader being late with its announcement: it sees that the set was changed and takes the new one. *)
Example C43_read_again : reads [1; 1; 0; 0; 0; 0; 0; 0; 1; 1; 1; 1; 1; 1; 1; 1] = [None; None; Some (1, 1, true)].
Proof. vm_compute. reflexivity. Qed.

(** ** C59. Without errors of the reload and without cancellation, every call comes back with the result of the update it triggered,
    and the server listens again. *)
Theorem C59_partial : forall (E : Type) (outcome : nat -> option E * option E), (forall i, snd (outcome i) = None) ->
  forall progs f, fair f -> exists n, let m := run (ms_run_step outcome) (ms_start progs) (prefix f n) in
    srv m = Listening /\
    forall c p, nth_error progs c = Some p -> exists k, nth_error (callers m) c = Some k /\
      crashed k = false /\ calls k = [] /\ pending k = None /\
      length (got k) + refused k = length p /\ refused k <= length (filter negb p) /\
      forall u r, In (u, r) (got k) -> u < served m /\ r = fst (outcome u).
Proof.
  intros E outcome Hr progs f Hf. destruct (ms_finishes outcome Hr progs f Hf) as (n & Hl & Ha). exists n. cbv zeta. split; [exact Hl|].
  intros c p Hp. pose proof (ms_run_inv outcome Hr progs (prefix f n)) as HI.
  destruct (nth_error (callers (run (ms_run_step outcome) (ms_start progs) (prefix f n))) c) as [k|] eqn:Hk.
  - exists k. split; [reflexivity|]. destruct (m_callers _ _ _ HI c k p Hk Hp) as (H1 & H2 & H3 & H4). destruct (Ha c k Hk) as [H5 H6].
    rewrite H5, H6 in H2. rewrite H5 in H3. cbn in H2, H3. split; [exact H1|]. split; [exact H5|]. split; [exact H6|]. split; [lia|].
    split; [unfold falses in H3; lia|]. intros u r Hin. destruct (H4 u r Hin) as [H7 H8]. split; [|exact H8]. unfold srv_num in H7. rewrite Hl in H7. exact H7.
  - apply nth_error_None in Hk. rewrite (m_len _ _ _ HI) in Hk. assert (c < length progs) by (apply nth_error_Some; rewrite Hp; discriminate). lia.
Qed.

Example C59_failing_updates :
  let outcome := fun i => (if i =? 0 then Some 7 else None, @None nat) in
  let m := run (ms_run_step outcome) (ms_start [[true; true]; [false]])
             [Some 0; Some 1; None; Some 0; None; Some 0; None; Some 0; None] in
  srv m = Listening /\ map got (callers m) = [[(0, Some 7); (1, None)]; []] /\ map refused (callers m) = [0; 1].
Proof. vm_compute. repeat split. Qed.

(** False with an error of the reload: the server waits for ever for somebody to take it. Whatever happens afterwards, no update is
    started and no call gets an answer. *)
Theorem C59_wedged : forall (E : Type) (outcome : nat -> option E * option E) progs l e,
  let m := run (ms_step outcome) (ms_start progs) l in srv m = SendingReload e ->
  forall l', let m' := run (ms_step outcome) m l' in
    srv m' = SendingReload e /\ served m' = served m /\ map got (callers m') = map got (callers m).
Proof. intros E outcome progs l e. exact (wedge outcome progs l e). Qed.

Theorem C59_refuted : exists (outcome : nat -> option nat * option nat) progs l,
  let m := run (ms_step outcome) (ms_start progs) l in
  srv m = SendingReload 7 /\
  exists k, nth_error (callers m) 1 = Some k /\ calls k = [true] /\
    forall l', got (nth 1 (callers (run (ms_step outcome) m l')) k) = [].
Proof.
  exists (fun _ => (None, Some 7)), [[true]; [true]], [ActCaller 0; ActServer; ActCaller 0; ActServer].
  cbv zeta. split; [reflexivity|]. eexists. split; [reflexivity|]. split; [reflexivity|]. intros l'.
  pose proof (C59_wedged nat (fun _ => (None, Some 7)) [[true]; [true]] [ActCaller 0; ActServer; ActCaller 0; ActServer] 7 eq_refl l') as (_ & _ & H).
  set (m' := run (ms_step (fun _ => (None, Some 7))) _ l') in *. clearbody m'.
  destruct (callers m') as [|a [|b [|x cs]]]; cbn in H; try discriminate H. injection H as _ H. exact H.
Qed.

(** And after the context of the server is done, a call panics: it sends on a closed channel. *)
Theorem C59_cancelled_refuted : exists (outcome : nat -> option nat * option nat) l,
  map crashed (callers (run (ms_step outcome) (ms_start [[true]]) l)) = [true].
Proof. exists (fun _ => (None, None)), [ActCancel; ActCaller 0]. reflexivity. Qed.

(** ** C41. While the function runs, no stage of the stalled ones processes anything, and no second function runs. *)
Theorem C41_alone : forall kinds l r s st, let x := run stall_step (stall_start kinds) l in
  nth_error (releasers x) r = Some LRun -> nth_error (stages x) s = Some st -> stalls st = true -> spc st <> PProcess.
Proof. exact stall_alone. Qed.
Theorem C41_one_at_a_time : forall kinds l r r', let x := run stall_step (stall_start kinds) l in
  nth_error (releasers x) r = Some LRun -> nth_error (releasers x) r' = Some LRun -> r = r'.
Proof. exact stall_one_run. Qed.
(** From every moment on, the stages work through what they have, whatever they decide about stalling: nobody waits for ever. *)
Theorem C41_continues : forall kinds l f, fair f ->
  exists n, resting (run stall_internal (run stall_step (stall_start kinds) l) (prefix f n)).
Proof. exact stall_continues. Qed.

(** Two stages, the first evaluates and both stall; the second works when the first decides to stall. *)
Definition busy : list stall_act :=
  [ActStage 1 false; ActStage 1 false; ActData 1; ActStage 1 false; ActStage 1 false; ActStage 0 false; ActStage 0 true; ActReleaser 0; ActReleaser 0].
Example C41_waits : let x := run stall_step (stall_start [(true, true); (false, true)]) busy in
  releasers x = [LWait] /\ map spc (stages x) = [PGate; PProcess].
Proof. vm_compute. split; reflexivity. Qed.
Example C41_runs : let x := run stall_step (stall_start [(true, true); (false, true)]) (busy ++ [ActStage 1 false; ActReleaser 0]) in
  releasers x = [LRun] /\ map spc (stages x) = [PGate; PSend].
Proof. vm_compute. split; reflexivity. Qed.

Print Assumptions C42_one_round_partial.
Print Assumptions C42_everybody_enters_partial.
Print Assumptions C42_second_round_refuted.
Print Assumptions C43_linearizable.
Print Assumptions C43_never_forgets.
Print Assumptions C43_never_invents.
Print Assumptions C43_no_flicker.
Print Assumptions C43_no_data_race.
Print Assumptions C43_everything_returns.
Print Assumptions C59_partial.
Print Assumptions C59_wedged.
Print Assumptions C59_refuted.
Print Assumptions C59_cancelled_refuted.
Print Assumptions C41_alone.
Print Assumptions C41_one_at_a_time.
Print Assumptions C41_continues.
