(** C73: the two halves of the ingestion, joined. *)
From Verif Require Import Base BaseLemmas SysModel SysProofs PipeModel PipeProofs JoinModel JoinProofs.

(** ** C73. In every run, for all numbers of producing stages and channels, all certificates, all errors, when every certificate is routed to
    existing channels: nobody sends on a closed channel; the channels are closed at most once, and then all producing stages have closed theirs and
    every certificate they sent has been handed over. *)
Theorem C73_closed_once_after_all : forall (D : Type) C K (route : D -> nat * nat) own fails fails_end (work : nat -> list D) l,
  (forall d, fst (route d) < K /\ snd (route d) < K) ->
  let c := run (join_step C K route own fails fails_end) (join_start work) l in
  panicked c = false /\ closes c <= 1 /\
  (0 < closes c -> forall i, i < C -> (ppc (prods c i) = PBrk \/ ppc (prods c i) = PDone) /\ fwds c i = FDone).
Proof.
  intros D C K route own fails fails_end work l R c. pose proof (jinv_run C K route own fails fails_end R work l) as I. fold c in I.
  split; [exact (j_panic _ _ _ _ _ _ I)|]. split; [exact (j_closes _ _ _ _ _ _ I)|]. intros H i Hi. pose proof (j_closed _ _ _ _ _ _ I H i Hi) as F.
  split; [exact (j_fdone _ _ _ _ _ _ I i F) | exact F].
Qed.
(** If a certificate is routed to a channel that does not exist, the process can die. *)
Theorem C73_no_such_channel_refuted : exists l, panicked (run (join_step 1 2 (fun d : nat => (d, d)) (fun _ => []) (fun _ _ => None) (fun _ _ => None)) (join_start (fun _ => [2])) l) = true.
Proof. exists [ASend 0; AFirst 0]. vm_compute. reflexivity. Qed.

(** At every moment: what a stage of the database half has received is made up of what the producing stages sent that is routed to it, of each
    producing stage in the order it sent them, except for what is still in the hands of the goroutine of that stage. *)
Theorem C73_received_is_sent : forall (D : Type) C K (route : D -> nat * nat) own fails fails_end (work : nat -> list D) l k,
  let c := run (join_step C K route own fails fails_end) (join_start work) l in
  (forall i, work i = psent (prods c i) ++ pleft (prods c i)) /\
  exists g, woven g (wrcvd (wstages c k)) /\ forall i, g i ++ inflight route k (fwds c i) = routed route k (psent (prods c i)).
Proof. intros D C K route own fails fails_end work l k c. destruct (dinv_run C K route own fails fails_end work l) as [A B]. split; [exact A | exact (B k)]. Qed.

(** If the stages of the database half fail, if at all, only at the end of their input, every fair schedule comes to an end, and it stays there:
    the channels were closed exactly once, all stages are done, every stage of the database half saw the end. *)
Theorem C73_everybody_ends : forall (D : Type) C K (route : D -> nat * nat) own fails fails_end (work : nat -> list D) f,
  0 < K -> (forall d, fst (route d) < K /\ snd (route d) < K) -> (forall k h, fails k h = None) -> fair f -> exists n, forall l,
  let c := run (join_step C K route own fails fails_end) (join_start work) (prefix f n ++ l) in
  closes c = 1 /\ (forall i, i < C -> ppc (prods c i) = PDone /\ fwds c i = FDone) /\ (forall k, k < K -> wpc (wstages c k) = WDone /\ wend (wstages c k) = true).
Proof.
  intros D C K route own fails fails_end work f HK R L Hf. destruct (join_ends C K route own fails fails_end R HK L work f Hf) as [n Hn]. exists n. intros l.
  exact (join_stays C K route own fails fails_end R HK L work _ l Hn).
Qed.
(** Then every certificate has been received by both of its stages, and nothing else; if a stage failed, every producing stage reports such an
    error; it reports its own error too, and nothing else. *)
Theorem C73_everything_arrives : forall (D : Type) C K (route : D -> nat * nat) own fails fails_end (work : nat -> list D) l,
  0 < K -> (forall d, fst (route d) < K /\ snd (route d) < K) -> (forall k h, fails k h = None) ->
  let c := run (join_step C K route own fails fails_end) (join_start work) l in
  closes c = 1 -> (forall i, i < C -> ppc (prods c i) = PDone /\ fwds c i = FDone) -> (forall k, k < K -> wpc (wstages c k) = WDone /\ wend (wstages c k) = true) ->
  (forall k, k < K -> woven (fun i => if i <? C then routed route k (work i) else []) (wrcvd (wstages c k))) /\
  (forall k e i, k < K -> fails_end k (wrcvd (wstages c k)) = Some e -> i < C ->
    exists e' k', k' < K /\ fails_end k' (wrcvd (wstages c k')) = Some e' /\ In e' (pfound (prods c i))) /\
  (forall i e, i < C -> In e (own i) -> In e (pfound (prods c i))) /\
  (forall i e, In e (pfound (prods c i)) -> In e (own i) \/ exists k, k < K /\ fails_end k (wrcvd (wstages c k)) = Some e).
Proof.
  intros D C K route own fails fails_end work l HK R L c H1 H2 H3.
  destruct (join_end C K route own fails fails_end R HK L work l (conj H1 (conj H2 H3))) as (A & B). fold c in A, B. split; [|exact B]. intros k Hk. exact (proj1 (A k Hk)).
Qed.
(** With one producing stage, the stage receives exactly the list routed to it. *)
Lemma woven_one {D} (g : nat -> list D) l : woven g l -> (forall i, i <> 0 -> g i = []) -> l = g 0.
Proof.
  induction 1 as [|g l i d W IH|g g' l W IH E]; intros H.
  - reflexivity.
  - destruct (Nat.eq_dec i 0) as [->|Hi].
    + rewrite upd_same. rewrite <- IH; [reflexivity|]. intros j Hj. specialize (H j Hj). rewrite upd_other in H by exact Hj. exact H.
    + specialize (H i Hi). rewrite upd_same in H. destruct (g i); discriminate.
  - rewrite E. apply IH. intros i Hi. rewrite <- E. apply H. exact Hi.
Qed.
Theorem C73_one_producer : forall (D : Type) K (route : D -> nat * nat) own fails fails_end (work : nat -> list D) l k,
  0 < K -> (forall d, fst (route d) < K /\ snd (route d) < K) -> (forall k h, fails k h = None) ->
  let c := run (join_step 1 K route own fails fails_end) (join_start work) l in
  closes c = 1 -> (ppc (prods c 0) = PDone /\ fwds c 0 = FDone) -> (forall k, k < K -> wpc (wstages c k) = WDone /\ wend (wstages c k) = true) -> k < K ->
  wrcvd (wstages c k) = routed route k (work 0).
Proof.
  intros D K route own fails fails_end work l k HK R L c H1 H2 H3 Hk.
  assert (H2' : forall i, i < 1 -> ppc (prods c i) = PDone /\ fwds c i = FDone) by (intros i Hi; replace i with 0 by lia; exact H2).
  destruct (C73_everything_arrives D 1 K route own fails fails_end work l HK R L H1 H2' H3) as (A & _). specialize (A k Hk).
  apply woven_one in A; [exact A|]. intros i Hi. destruct (i <? 1) eqn:E; [apply Nat.ltb_lt in E; lia | reflexivity].
Qed.

(** Two producing stages, two channels; every certificate goes to both. *)
Definition calm_k (k : nat) (h : list nat) : option bytes := None.
Definition to_both (d : nat) : nat * nat := (0, 1).
Definition two_lists (i : nat) : list nat := if i =? 0 then [1; 2] else [3].
Definition calm_schedule : list join_act :=
  [ASend 0; ASend 1; ASecond 1; AFirst 0; ASecond 0; ANext 0; AFirst 1; ANext 1; ASend 0; AStop 1; ACloseP 1; AStop 0; ACloseP 0; AEndF 1;
   AFirst 0; ASecond 0; ANext 0; AEndF 0; AClose; AEnd 0; AEnd 1].
Example C73_two_two : let c := run (join_step 2 2 to_both (fun _ => []) calm_k calm_k) (join_start two_lists) (calm_schedule ++ [AEndE 1; AEndE 0; ACloseE; AHear 0; AHear 1]) in
  (map (fun k => wrcvd (wstages c k)) [0; 1] = [[1; 3; 2]; [3; 1; 2]]) /\ (map (fun i => ppc (prods c i)) [0; 1] = [PDone; PDone]) /\ closes c = 1.
Proof. vm_compute. auto. Qed.
(** A stage that fails at the end: both producing stages report it. *)
Definition fail_at_end (k : nat) (h : list nat) : option bytes := if k =? 1 then Some [x65] else None.
Example C73_fails_at_end : let c := run (join_step 2 2 to_both (fun _ => []) calm_k fail_at_end) (join_start two_lists)
    (calm_schedule ++ [AFail 1; AEndE 0; AGive 1 1; AGive 1 0; ANextE 1; AEndE 1; ACloseE]) in
  (map (fun i => pfound (prods c i)) [0; 1] = [[[x65]]; [[x65]]]) /\ (map (fun i => ppc (prods c i)) [0; 1] = [PDone; PDone]) /\ eclosed c = true.
Proof. vm_compute. auto. Qed.

(** But if a stage of the database half fails earlier, the ingestion can hang: it fails on its first certificate, the goroutine already holds the next
    for it, and no step is possible any more although the producing stage has read the error, closed its channel and waits. *)
Definition fail_first (k : nat) (h : list nat) : option bytes := if k =? 0 then Some [x65] else None.
Definition jam_schedule : list join_act :=
  [ASend 0; AFirst 0; ASecond 0; ANext 0; ASend 0; ASecond 0; AFail 0; AGive 0 0; ACloseP 0; ANextE 0; AEndE 0].
Theorem C73_error_hangs_ingestion_refuted : exists l, let c := run (join_step 1 2 to_both (fun _ => []) fail_first calm_k) (join_start (fun _ => [1; 2; 3])) l in
  stuck (join_step 1 2 to_both (fun _ => []) fail_first calm_k) c /\ ppc (prods c 0) = PBrk /\ pfound (prods c 0) = [[x65]] /\ closes c = 0 /\
  wpc (wstages c 0) = WDone /\ wpc (wstages c 1) = WWork /\ fwds c 0 = FSend 2 true false.
Proof.
  exists jam_schedule. cbv zeta. split; [|vm_compute; repeat split; reflexivity]. intros a. destruct a as [i|i|i|i|i|i|i|i| |k|k|k i|k|k|];
    try (destruct i as [|[|i]]); try (destruct k as [|[|[|k]]]); vm_compute; reflexivity.
Qed.
(** In general: from any reachable state in which a goroutine has a certificate for a stage that has stopped, whatever happens, the channels are
    never closed, and every stage of the database half that is still working and does not fail waits for ever. *)
Theorem C73_jam : forall (D : Type) C K (route : D -> nat * nat) own fails fails_end (work : nat -> list D) l0 i k l,
  (forall d, fst (route d) < K /\ snd (route d) < K) ->
  let step := join_step C K route own fails fails_end in
  let c := run step (join_start work) l0 in
  i < C -> waits route c i k -> wpc (wstages c k) <> WWork ->
  let c' := run step c l in
  closes c' = 0 /\ waits route c' i k /\ forall j, wpc (wstages c j) = WWork -> (forall h, fails j h = None) -> wpc (wstages c' j) = WWork.
Proof.
  intros D C K route own fails fails_end work l0 i k l R step c Hi Hw Hk c'.
  assert (J : jam C K route own fails fails_end i k c) by (split; [exact Hi|]; split; [exact (jinv_run C K route own fails fails_end R work l0)|]; split; assumption).
  destruct (join_jam C K route own fails fails_end R i k c l J) as [J' E]. split; [exact E|]. split; [exact (proj1 (proj2 (proj2 J')))|].
  intros j Hj Hf. exact (join_jam_others C K route own fails fails_end R i k c l j J Hj Hf).
Qed.
(** If no other stage fails, a producing stage that closed its channel and is to hear nothing more from the stopped one waits for ever, so the
    pipeline never returns. *)
Theorem C73_never_returns : forall (D : Type) C K (route : D -> nat * nat) own fails fails_end (work : nat -> list D) l0 i0 i k l,
  (forall d, fst (route d) < K /\ snd (route d) < K) -> (exists j, j < K /\ j <> k) -> (forall j h, j <> k -> fails j h = None) ->
  let step := join_step C K route own fails fails_end in
  let c := run step (join_start work) l0 in
  i < C -> waits route c i k -> wpc (wstages c k) = WDone -> (forall j, j < K -> j <> k -> wpc (wstages c j) = WWork) ->
  ppc (prods c i0) = PBrk -> (forall k' e p, k' < K -> readers c k' = ESend e p -> p i0 = false) ->
  ppc (prods (run step c l) i0) = PBrk.
Proof.
  intros D C K route own fails fails_end work l0 i0 i k l R Hj Hf step c Hi Hw Hk Ho Hp Hr.
  assert (J : jam C K route own fails fails_end i k c) by (split; [exact Hi|]; split; [exact (jinv_run C K route own fails fails_end R work l0)|]; split; [exact Hw | rewrite Hk; discriminate]).
  assert (DF : deaf C K route own fails fails_end i0 i k c) by (split; [exact J|]; split; [exact Ho|]; split; [exact Hk|]; split; assumption).
  destruct (join_deaf C K route own fails fails_end R i0 i k c l Hj Hf DF) as (_ & _ & _ & X & _). exact X.
Qed.
(** The state of the witness meets these hypotheses. *)
Example C73_never_returns_case : let c := run (join_step 1 2 to_both (fun _ => []) fail_first calm_k) (join_start (fun _ => [1; 2; 3])) jam_schedule in
  waits to_both c 0 0 /\ wpc (wstages c 0) = WDone /\ wpc (wstages c 1) = WWork /\ ppc (prods c 0) = PBrk /\ map (fun k => readers c k) [0; 1] = [EDone; EWait].
Proof. cbv zeta. split; [exists 2, true, false; split; [vm_compute; reflexivity | left; auto] | vm_compute; repeat split; reflexivity]. Qed.

Print Assumptions C73_closed_once_after_all.
Print Assumptions C73_no_such_channel_refuted.
Print Assumptions C73_received_is_sent.
Print Assumptions C73_everybody_ends.
Print Assumptions C73_everything_arrives.
Print Assumptions C73_one_producer.
Print Assumptions C73_error_hangs_ingestion_refuted.
Print Assumptions C73_jam.
Print Assumptions C73_never_returns.
