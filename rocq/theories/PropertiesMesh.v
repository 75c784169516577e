(** C92: the mesh between the domain extractors and the domain batchers. *)
From Verif Require Import Base BaseLemmas SysModel SysProofs PipeModel PipeProofs PipeErrors JoinModel JoinProofs MeshModel MeshProofs MeshEnds.

(** In every run: a batcher receives only domains extracted for it, each at most as often as it was extracted for it ([p] selects any set of domains). *)
Theorem C92_never_wrong : forall (D : Type) N fails fails_end (work : nat -> list (list (D * nat))) l p j, j < N ->
  length (filter p (brcvd (bats (run (mesh_step N fails fails_end) (mesh_start work) l) j))) <= extracted N work p j.
Proof. intros D N fails fails_end work l p j. exact (received_le N fails fails_end work l p j). Qed.

(** In every run: an error that an extractor has found is the one of a batcher for exactly what this batcher received. *)
Theorem C92_no_invented_error : forall (D : Type) N fails fails_end (work : nat -> list (list (D * nat))) l i e,
  let c := run (mesh_step N fails fails_end) (mesh_start work) l in
  In e (xfound (exts c i)) -> exists j, j < N /\ (fails j (brcvd (bats c j)) = Some e \/ fails_end j (brcvd (bats c j)) = Some e).
Proof.
  intros D N fails fails_end work l i e c He. destruct (safe_run N fails fails_end work l) as (_ & _ & _ & _ & _ & X & _).
  destruct (X i e He) as (j & Hj & _ & F). exists j. split; [exact Hj|]. fold c in F. destruct (bend (bats c j)); auto.
Qed.

(** Every step makes progress: no run is longer than a bound that depends on the work only. *)
Theorem C92_no_livelock : forall (D : Type) N fails fails_end (work : nat -> list (list (D * nat))),
  exists bound, forall (f : nat -> mesh_act) n, (forall k, k < n -> mesh_step N fails fails_end (run (mesh_step N fails fails_end) (mesh_start work) (prefix f k)) (f k) <> None) -> n <= bound.
Proof.
  intros D N fails fails_end work. exists (rank N (mesh_start work)). intros f n.
  enough (X : (forall k, k < n -> mesh_step N fails fails_end (run (mesh_step N fails fails_end) (mesh_start work) (prefix f k)) (f k) <> None) ->
    rank N (run (mesh_step N fails fails_end) (mesh_start work) (prefix f n)) + n <= rank N (mesh_start work)) by (intros H; specialize (X H); lia).
  induction n as [|n IH]; intros H; [cbn; lia|]. specialize (IH ltac:(intros k Hk; apply H; lia)). specialize (H n ltac:(lia)).
  cbn [prefix]. rewrite run_app. cbn [run fold_left]. unfold do at 1. fold (run (mesh_step N fails fails_end) (mesh_start work) (prefix f n)).
  destruct (mesh_step N fails fails_end (run (mesh_step N fails fails_end) (mesh_start work) (prefix f n)) (f n)) as [c'|] eqn:E; [|contradiction H; reflexivity].
  apply step_trans in E. apply rank_step in E. lia.
Qed.

(** If no batcher fails before its inputs are closed: all extractors and all batchers end, whatever the schedule. *)
Theorem C92_ends : forall (D : Type) N fails fails_end (work : nat -> list (list (D * nat))),
  (forall i d j, i < N -> In (d, j) (concat (work i)) -> j < N) -> (forall j h, j < N -> fails j h = None) ->
  forall f, fair f -> exists n, let c := run (mesh_step N fails fails_end) (mesh_start work) (prefix f n) in
    (forall i, i < N -> xpc (exts c i) = XDone) /\ (forall j, j < N -> bpc (bats c j) = BDone).
Proof. intros D N fails fails_end work R E f F. exact (ends N fails fails_end work R E f F). Qed.

(** ... and then every batcher has received exactly what was extracted for it, *)
Theorem C92_all_arrived : forall (D : Type) N fails fails_end (work : nat -> list (list (D * nat))),
  (forall j h, j < N -> fails j h = None) -> forall l, let c := run (mesh_step N fails fails_end) (mesh_start work) l in
    (forall i, i < N -> xpc (exts c i) = XDone) -> (forall j, j < N -> bpc (bats c j) = BDone) ->
    forall p j, j < N -> length (filter p (brcvd (bats c j))) = extracted N work p j.
Proof.
  intros D N fails fails_end work E l c O1 O2 p j Hj. unfold extracted. rewrite <- sumb_list. exact (all_arrived N fails fails_end work E l c eq_refl (conj O1 O2) p j Hj).
Qed.

(** ... and if a batcher fails on its last batch, some extractor reports an error. *)
Theorem C92_late_errors : forall (D : Type) N fails fails_end (work : nat -> list (list (D * nat))),
  (forall j h, j < N -> fails j h = None) -> forall l, let c := run (mesh_step N fails fails_end) (mesh_start work) l in
    (forall i, i < N -> xpc (exts c i) = XDone) -> (forall j, j < N -> bpc (bats c j) = BDone) ->
    forall j e, j < N -> fails_end j (brcvd (bats c j)) = Some e -> exists i e', i < N /\ In e' (xfound (exts c i)).
Proof. intros D N fails fails_end work E l c O1 O2 j e Hj He. exact (late_reported N fails fails_end work E l c eq_refl (conj O1 O2) j e Hj He). Qed.

(** An extractor that has been told of an error reads no further certificate, also if it was told while it was sending. *)
Theorem C92_stops : forall (D : Type) N fails fails_end (work : nat -> list (list (D * nat))) l l' i,
  let c := run (mesh_step N fails fails_end) (mesh_start work) l in
  xfound (exts c i) <> [] -> xleft (exts (run (mesh_step N fails fails_end) c l') i) = xleft (exts c i).
Proof. intros D N fails fails_end work l l' i. exact (stops_run N fails fails_end work l l' i). Qed.

(** Once a batcher has stopped with an error that another extractor has read, an extractor with a domain for it in the hands of the goroutine that carries
    and one more to send never ends, if all other batchers work: nobody tells it. *)
Theorem C92_jam : forall (D : Type) N (fails fails_end : nat -> list D -> option bytes) i j c l, i < N ->
  (forall b h, b < N -> b <> j -> fails b h = None /\ fails_end b h = None) -> (exists b, b < N /\ b <> j) ->
  xpc (exts c i) = XSend -> (exists d, In (d, j) (xpend (exts c i))) -> (exists d, carries c j i = FHold d) -> bpc (bats c j) = BDone ->
  (tells c i j = TIdle \/ tells c i j = TDone) -> (forall b, b < N -> b <> j -> bpc (bats c b) = BWork /\ tells c i b = TIdle /\ carries c b i <> FEnd) ->
  xpc (exts (run (mesh_step N fails fails_end) c l) i) = XSend.
Proof.
  intros D N fails fails_end i j c l Hi O T J1 J2 J3 J4 J5 J6. apply (jam_forever N fails fails_end i j O T Hi c l). exact (conj J1 (conj J2 (conj J3 (conj J4 (conj J5 J6))))).
Qed.

(** The statement without the condition about failures is false: one batcher fails with its first domain, and the ingestion hangs. *)
Definition fails_first (j : nat) (h : list nat) : option bytes := match j, h with O, _ :: _ => Some [x65] | _, _ => None end.
Definition two_works (i : nat) : list (list (nat * nat)) := match i with O => [[(10, 0)]] | S O => [[(11, 0)]; [(12, 0)]] | _ => [] end.
Definition to_jam : list mesh_act :=
  [ARead 0; ASend 0 0; ACarry 0 0; ATake 0 0; AHear 0 0; ATellEnd 0 0; ATellEnd 1 0; ARead 1; ASend 1 0; ARead 1; ACarryEnd 0 0; ACarryEnd 1 0].
Theorem C92_ends_refuted : exists N (fails fails_end : nat -> list nat -> option bytes) (work : nat -> list (list (nat * nat))) l,
  (forall i d j, i < N -> In (d, j) (concat (work i)) -> j < N) /\ (forall j h, j <> 0 -> fails j h = None) /\ (forall j h, fails_end j h = None) /\
  let c := run (mesh_step N fails fails_end) (mesh_start work) l in
  (forall a, mesh_step N fails fails_end c a = None) /\ (forall i, i < N -> xpc (exts c i) <> XDone) /\ xpc (exts c 1) = XSend.
Proof.
  exists 2, fails_first, (fun _ _ => None), two_works, to_jam. split; [|split; [|split; [|split; [|split]]]].
  - intros i d j Hi H. destruct i as [|[|i]]; cbn in H; [| |lia]; [destruct H as [H|[]] | destruct H as [H|[H|[]]]]; injection H as <- <-; lia.
  - intros [|j] h H; [contradiction H; reflexivity | reflexivity].
  - reflexivity.
  - intros a. destruct a as [[|[|i]]|[|[|i]]|[|[|i]] [|[|k]]|[|[|i]] [|[|j]]|[|[|i]] [|[|j]] [|[|k]]|[|[|i]]|[|[|i]] [|[|k]]|[|[|j]] [|[|i]]|[|[|j]] [|[|i]]|[|[|j]]|[|[|i]] [|[|j]]|[|[|i]] [|[|j]]]; vm_compute; reflexivity.
  - intros i Hi. destruct i as [|[|i]]; [vm_compute; discriminate | vm_compute; discriminate | lia].
  - reflexivity.
Qed.

(** Two extractors, two batchers, three rounds: the conditions of the positive theorems, and a run to the end in which the second batcher fails with its last batch *)
Example C92_example : let work := fun i => match i with O => [[(1, 0); (2, 1)]; []] | S O => [[(3, 1)]] | _ => [] end in
  let last := fun (j : nat) (_ : list nat) => match j with S O => Some [x66] | _ => None end in
  let c := run (mesh_step 2 (fun _ _ => None) last) (mesh_start work)
    [ARead 0; ASend 0 1; ASend 0 0; ARead 0; AEnd 0; ARead 1; ACarry 0 0; ACarry 1 0; ASend 1 0; ACarry 1 1; AEnd 1; ACarryEnd 0 0; ACarryEnd 0 1; ACarryEnd 1 0; ACarryEnd 1 1;
     ABatEnd 0; ABatEnd 1; ATake 1 1; AHear 1 1; ATellEnd 0 0; ATellEnd 0 1; AClosed 0] in
  (xpc (exts c 0), xpc (exts c 1), bpc (bats c 0), bpc (bats c 1)) = (XDone, XDone, BDone, BDone) /\
  (brcvd (bats c 0), brcvd (bats c 1)) = ([1], [2; 3]) /\ (xfound (exts c 0), xfound (exts c 1)) = ([], [[x66]]) /\
  extracted 2 work (fun _ => true) 1 = 2 /\ extracted 2 work (fun d => d =? 1) 0 = 1.
Proof. repeat split; reflexivity. Qed.
(** Told while it sends the second of three rounds: the third one stays *)
Example C92_stops_example : let work := fun i => match i with O => [[(10, 0)]; [(20, 0); (21, 1)]; [(22, 1)]] | _ => [] end in
  let s := run (mesh_step 2 fails_first (fun _ _ => None)) (mesh_start work) [ARead 0; ASend 0 0; ACarry 0 0; ARead 0; ATake 0 0; AHearSend 0 0 0] in
  (xpc (exts s 0), xfound (exts s 0), xleft (exts s 0)) = (XSend, [[x65]], [[(22, 1)]]) /\
  xpc (exts (run (mesh_step 2 fails_first (fun _ _ => None)) s [ASend 0 0; ARead 0]) 0) = XBrk.
Proof. repeat split; reflexivity. Qed.
(** The run of the refutation reaches the state of C92_jam *)
Example C92_jam_example : let c := run (mesh_step 2 fails_first (fun _ _ => None)) (mesh_start two_works) to_jam in
  xpc (exts c 1) = XSend /\ xpend (exts c 1) = [(12, 0)] /\ carries c 0 1 = FHold 11 /\ bpc (bats c 0) = BDone /\ tells c 1 0 = TDone /\ bpc (bats c 1) = BWork /\
  tells c 1 1 = TIdle /\ carries c 1 1 = FIdle /\ xfound (exts c 0) = [[x65]] /\ xpc (exts c 0) = XBrk.
Proof. repeat split; reflexivity. Qed.

Print Assumptions C92_never_wrong.
Print Assumptions C92_no_invented_error.
Print Assumptions C92_no_livelock.
Print Assumptions C92_ends.
Print Assumptions C92_all_arrived.
Print Assumptions C92_late_errors.
Print Assumptions C92_stops.
Print Assumptions C92_jam.
Print Assumptions C92_ends_refuted.
