(** C37: several stages feed several stages over one channel. *)
From Coq Require Import Permutation.
From Verif Require Import Base BaseLemmas SysModel SysProofs PipeModel PipeProofs CrissModel CrissProofs.

(** ** C37. In every run, for all numbers of senders and receivers, all items, all errors: nobody sends on the closed channel or closes
    it twice, and when it is closed every sender is past its own closing. *)
Theorem C37_closed_once_after_all_senders : forall (D : Type) own fails fails_end (work : list (list D)) M l, 0 < length work ->
  let c := run (criss_step own fails fails_end) (criss_start work M) l in
  panicked c = false /\ closes c <= 1 /\ (0 < closes c -> forall i s, nth_error (snds c) i = Some s -> spc s = SBrk \/ spc s = SDone).
Proof. intros D own fails fails_end work M l H. destruct (criss_closed_once own fails fails_end work M H l) as (A & B & C & _). auto. Qed.

(** Every fair schedule comes to the end of all senders and receivers; the channel has been closed exactly once; every receiver saw the
    end or failed. *)
Theorem C37_everybody_ends : forall (D : Type) own fails fails_end (work : list (list D)) M f, 0 < length work -> fair f -> exists n,
  let c := run (criss_step own fails fails_end) (criss_start work M) (prefix f n) in
  closes c = 1 /\ (forall i s, nth_error (snds c) i = Some s -> spc s = SDone) /\
  forall j r, nth_error (rcvs c) j = Some r -> rpc r = RDone /\ (rend r = true \/ exists e, gave fails fails_end j r e).
Proof.
  intros D own fails fails_end work M f H Hf. destruct (criss_terminates own fails fails_end work M H f Hf) as [n Hn]. exists n.
  destruct (criss_closed_once own fails fails_end work M H (prefix f n)) as (_ & _ & _ & A). split; [exact (A Hn)|]. destruct Hn as [H1 H2]. split; [exact H1|].
  intros j r Hj. split; [exact (H2 j r Hj)|]. exact (criss_sees_end own fails fails_end work M H (prefix f n) j r Hj (H2 j r Hj)).
Qed.

(** At every moment: what was received, by all together, is what was sent. *)
Theorem C37_one_receiver_each : forall (D : Type) own fails fails_end (work : list (list D)) M l, 0 < length work ->
  let c := run (criss_step own fails fails_end) (criss_start work M) l in
  Permutation (concat (map ssent (snds c))) (concat (map rrcvd (rcvs c))) /\
  forall i s, nth_error (snds c) i = Some s -> nth_error work i = Some (ssent s ++ sleft s).
Proof. intros D own fails fails_end work M l H c. destruct (ddinv_run own fails fails_end work M H l) as [A B]. split; assumption. Qed.
(** If no receiver fails, everything is delivered. *)
Theorem C37_everything_arrives : forall (D : Type) own fails fails_end (work : list (list D)) M l, 0 < length work -> 0 < M ->
  (forall j h, fails j h = None /\ fails_end j h = None) ->
  let c := run (criss_step own fails fails_end) (criss_start work M) l in
  (forall i s, nth_error (snds c) i = Some s -> spc s = SDone) -> (forall j r, nth_error (rcvs c) j = Some r -> rpc r = RDone) ->
  Permutation (concat work) (concat (map rrcvd (rcvs c))) /\ forall i s, nth_error (snds c) i = Some s -> forall e, In e (sfound s) <-> In e (own i).
Proof. intros D own fails fails_end work M l H HM Hf c H1 H2. exact (criss_delivers own fails fails_end work M H HM Hf l (conj H1 H2)). Qed.

(** If receivers fail, all senders report one of their errors; and they report nothing else but these and their own. *)
Theorem C37_errors : forall (D : Type) own fails fails_end (work : list (list D)) M l, 0 < length work ->
  let c := run (criss_step own fails fails_end) (criss_start work M) l in
  (forall i s, nth_error (snds c) i = Some s -> spc s = SDone) -> (forall j r, nth_error (rcvs c) j = Some r -> rpc r = RDone) ->
  (forall e0, blame fails fails_end c e0 -> exists e, blame fails fails_end c e /\ forall i s, nth_error (snds c) i = Some s -> In e (sfound s)) /\
  forall i s e, nth_error (snds c) i = Some s -> In e (sfound s) -> In e (own i) \/ blame fails fails_end c e.
Proof.
  intros D own fails fails_end work M l H c H1 H2. split; [exact (criss_error own fails fails_end work M H l (conj H1 H2))|].
  exact (criss_real own fails fails_end work M H l).
Qed.

(** Two senders, two receivers, nobody fails. *)
Definition calm_j (j : nat) (h : list nat) : option bytes := None.
Definition quiet_schedule : list criss_act :=
  [ASend 0 1; ASend 1 0; ASend 0 0; AStop 0; AReq 0; ASend 1 1; AStop 1; AReq 1; AClose 1; AEnd 1; AEnd 0; ACol 0; ACol 1; AErrClosed; AHearEnd 1; AHearEnd 0].
Example C37_two_two : let c := run (criss_step (fun _ => []) calm_j calm_j) (criss_start [[1; 2]; [3; 4]] 2) quiet_schedule in
  map rrcvd (rcvs c) = [[3; 2]; [1; 4]] /\ map spc (snds c) = [SDone; SDone] /\ closes c = 1.
Proof. vm_compute. auto. Qed.
(** One receiver fails at its first item while the senders still have some. *)
Definition fail_first (j : nat) (h : list nat) : option bytes := if j =? 0 then Some [x61] else None.
Example C37_one_fails : let c := run (criss_step (fun _ => []) fail_first calm_j) (criss_start [[1; 2]; [3; 4]] 2)
    [ASend 0 1; ASend 1 0; AFail 0; ATake 0; AGive 0; AReq 0; AGive 1; AReq 1; AClose 1; AEnd 1; ANext; ACol 0; ACol 1; AErrClosed; AHearEnd 0; AHearEnd 1] in
  map sfound (snds c) = [[[x61]]; [[x61]]] /\ map ssent (snds c) = [[1]; [3]] /\ map rend (rcvs c) = [false; true].
Proof. vm_compute. auto. Qed.

(** Not all errors arrive, and the forwarding goroutine is then blocked for ever: two receivers fail, the sender hears only one of them. *)
Definition fail_both (j : nat) (h : list nat) : option bytes := Some [if j =? 0 then x61 else x62].
Theorem C37_second_error_refuted : exists l, let c := run (criss_step (fun _ => []) fail_both calm_j) (criss_start [[1; 2]] 2) l in
  map spc (snds c) = [SDone] /\ map rpc (rcvs c) = [RDone; RDone] /\
  blame fail_both calm_j c [x62] /\ map sfound (snds c) = [[[x61]]] /\ dist c = DSend [x62] [true].
Proof.
  exists [ASend 0 0; ASend 0 1; AStop 0; AReq 0; AClose 0; AFail 0; AFail 1; ATake 0; AGive 0; ANext; ATake 1].
  split; [vm_compute; reflexivity|]. split; [vm_compute; reflexivity|]. split; [|vm_compute; auto].
  exists 1. eexists. split; [vm_compute; reflexivity|]. left. split; [discriminate | reflexivity].
Qed.
Theorem C37_blocked_for_ever : forall (D : Type) own fails fails_end (c : @criss D) i s e p l,
  nth_error (snds c) i = Some s -> spc s = SDone -> dist c = DSend e p -> nth_error p i = Some true ->
  exists p', dist (run (criss_step own fails fails_end) c l) = DSend e p'.
Proof. exact @criss_blocked. Qed.

Print Assumptions C37_closed_once_after_all_senders.
Print Assumptions C37_everybody_ends.
Print Assumptions C37_one_receiver_each.
Print Assumptions C37_everything_arrives.
Print Assumptions C37_errors.
Print Assumptions C37_second_error_refuted.
Print Assumptions C37_blocked_for_ever.
