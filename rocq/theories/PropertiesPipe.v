(** C34, C38, C39: a linear pipeline. *)
From Verif Require Import Base BaseLemmas SysModel SysProofs PipeModel PipeSpec PipeProofs PipeData PipeQuiet PipeErrors PipeChain.
From Coq Require Import Permutation.

(** ** C38. *)
(** The plain case: items from a slice, functions applied one after the other, a sink. Every fair schedule ends, Wait returns nil and
    the sink got the images in order. [expected] is not used in this statement. *)
Theorem C38_chain_of_functions : forall (D : Type) (tick : D) (items : list D) (fs : list (D -> D)) (f : nat -> pipe_act),
  fair f -> exists m, let p := run (pipe_step tick (chain items fs)) (pipe_start (S (S (length fs)))) (prefix f m) in
    waited p = Some [] /\
    exists s, nth_error (stages p) (S (length fs)) = Some s /\ pc s = Done /\ rcvd s = map (fun x => fold_left (fun y g => g y) fs x) items.
Proof. exact @chain_delivers. Qed.
(** The same after any finite schedule at whose end Wait has returned. *)
Theorem C38_chain_of_functions_any_schedule : forall (D : Type) (tick : D) (items : list D) (fs : list (D -> D)) l,
  let p := run (pipe_step tick (chain items fs)) (pipe_start (S (S (length fs)))) l in waited p <> None ->
  waited p = Some [] /\ forall s, nth_error (stages p) (S (length fs)) = Some s -> rcvd s = map (fun x => fold_left (fun y g => g y) fs x) items.
Proof. exact @chain_delivers_any. Qed.

(** Stages with several or no outputs per item, with outputs at the end, with streaming. *)
Theorem C38_delivers_partial : forall (D : Type) (tick : D) (bs : nat -> behaviour) N n f,
  source_items tick (bs 0) N -> (forall k, 0 < k -> never_fails (bs k)) -> (forall k, orderly (bs k)) -> 0 < n -> fair f ->
  exists m, let p := run (pipe_step tick bs) (pipe_start n) (prefix f m) in
    waited p = Some [] /\ forall k s, nth_error (stages p) k = Some s ->
      pc s = Done /\ rcvd s = expected tick bs N k /\ sent s = expected tick bs N (S k).
Proof.
  intros D tick bs N n f H1 H2 H3 Hn Hf. destruct (pipe_terminates tick bs N (source_ends tick bs N H1) n f Hn Hf) as [m [Hw (_ & _ & HD)]].
  exists m. destruct (quiet_delivers tick bs N H1 H2 n (prefix f m) H3 Hn Hw) as [Ha Hb]. split; [exact Ha|].
  intros k s Hk. split; [exact (HD k s Hk) | exact (Hb k s Hk)].
Qed.
(** Nothing is lost or doubled whatever the order in which a stage sends: the outputs are those for what was received, and the next
    stage received what was sent. *)
Theorem C38_exactly_once : forall (D : Type) (tick : D) (bs : nat -> behaviour) N n l,
  source_items tick (bs 0) N -> (forall k, 0 < k -> never_fails (bs k)) -> 0 < n ->
  let p := run (pipe_step tick bs) (pipe_start n) l in waited p <> None ->
  waited p = Some [] /\
  (forall s, nth_error (stages p) 0 = Some s -> rcvd s = repeat tick (S N) /\ Permutation (sent s) (images (bs 0) (rcvd s))) /\
  (forall k s, 0 < k -> nth_error (stages p) k = Some s -> Permutation (sent s) (images (bs k) (rcvd s) ++ last_outs (bs k) (rcvd s))) /\
  (forall k s s', nth_error (stages p) k = Some s -> nth_error (stages p) (S k) = Some s' -> rcvd s' = sent s).
Proof.
  intros D tick bs N n l H1 H2 Hn p Hw. destruct (quiet_exactly_once tick bs N H1 H2 n l Hn Hw) as (A & B & C & E).
  split; [exact A|]. split; [intros s Hs; destruct (B s Hs) as (X & Y & _); split; assumption|]. split; [|exact E]. intros k s Hk Hs. apply (C k s Hk Hs).
Qed.
(** At every moment of every run, also with errors: a stage has received what the one before sent. *)
Theorem C38_links : forall (D : Type) (tick : D) (bs : nat -> behaviour) n l k s s',
  let p := run (pipe_step tick bs) (pipe_start n) l in
  nth_error (stages p) k = Some s -> nth_error (stages p) (S k) = Some s' -> rcvd s' = sent s.
Proof. exact @run_links. Qed.
(** And what it sent is a prefix of the outputs for what it received. *)
Theorem C38_prefix : forall (D : Type) (tick : D) (bs : nat -> behaviour) n l k s,
  let p := run (pipe_step tick bs) (pipe_start n) l in orderly (bs k) -> nth_error (stages p) k = Some s ->
  exists rest, images (bs k) (rcvd s) ++ (if ended s then last_outs (bs k) (rcvd s) else []) = sent s ++ rest.
Proof. exact @run_prefix. Qed.
(** No schedule deadlocks, whatever the functions return. *)
Theorem C38_no_deadlock : forall (D : Type) (tick : D) (bs : nat -> behaviour) n l, 0 < n ->
  let p := run (pipe_step tick bs) (pipe_start n) l in waited p = None -> exists a, pipe_step tick bs p a <> None.
Proof. exact @pipe_no_deadlock. Qed.
(** If the source says NoMoreData or fails at some call, then no schedule makes steps for ever, and every fair one gets to the end of
    Wait with all goroutines gone, whatever the other functions return. *)
Theorem C38_no_infinite_run : forall (D : Type) (tick : D) (bs : nat -> behaviour) N n f,
  match snd (proc (bs 0) (repeat tick (S N))) with RNoMore | RErr _ => True | _ => False end ->
  ~ forall m, pipe_step tick bs (run (pipe_step tick bs) (pipe_start n) (prefix f m)) (f m) <> None.
Proof. intros D tick bs N n f H. exact (pipe_no_infinite_run tick bs N H n f). Qed.
Theorem C38_terminates : forall (D : Type) (tick : D) (bs : nat -> behaviour) N n f,
  match snd (proc (bs 0) (repeat tick (S N))) with RNoMore | RErr _ => True | _ => False end -> 0 < n -> fair f ->
  exists m, let p := run (pipe_step tick bs) (pipe_start n) (prefix f m) in
    waited p <> None /\ pump p = PumpDone /\ drained p = true /\ forall k s, nth_error (stages p) k = Some s -> pc s = Done.
Proof.
  intros D tick bs N n f H Hn Hf. destruct (pipe_terminates tick bs N H n f Hn Hf) as [m [Hw HD]]. exists m. split; [exact Hw | exact HD].
Qed.

(** Two items, a stage that adds one, a stage that doubles, a sink; one schedule of it. *)
Definition round2 : list pipe_act :=
  [ATick; AOut 0 0; AGo 0; ATick; AOut 1 0; AGo 1; AOut 0 0; AOut 2 0; AGo 0; ATick; AGo 0; AGo 2; AOut 1 0; AGo 3; AGo 1; AOut 2 0; AGo 3; AGo 2;
   AEnd 1; AGo 1; AEnd 2; AGo 2; AEnd 3; AGo 3; ADrain; AHear 3 0; AHear 2 0; AHear 1 0; AHear 0 0; ATop; AWait].
Example C38_two_items : let p := run (pipe_step 0 (chain [5; 7] [S; Nat.mul 2])) (pipe_start 4) round2 in
  waited p = Some [] /\ map rcvd (stages p) = [[0; 0; 0]; [5; 7]; [6; 8]; [12; 16]].
Proof. vm_compute. split; reflexivity. Qed.
(** A source with two outputs for one call, and a stage that gives each item twice and a last one at the end. *)
Definition burst (m : mode) : behaviour (D := nat) :=
  {| proc := fun h => if length h =? 1 then ([1; 2], ROk) else ([], RNoMore); nomore := fun _ => ([], ROk); stream := fun _ => []; how := m |}.
Definition twice : behaviour (D := nat) :=
  {| proc := fun h => ([last h 0], RStream); nomore := fun _ => ([9], ROk); stream := fun h => [([last h 0], RNoMore)]; how := MConc |}.
Definition burst_pipe (m : mode) (k : nat) : behaviour := match k with 0 => burst m | 1 => twice | _ => fun_sink (fun _ => ROk) end.
Example C38_hypotheses_met : source_items 0 (burst_pipe MSeq 0) 1 /\ (forall k, 0 < k -> never_fails (burst_pipe MSeq k)) /\ (forall k, orderly (burst_pipe MSeq k)) /\
  expected 0 (burst_pipe MSeq) 1 2 = [1; 1; 2; 2; 9].
Proof.
  split; [split; [intros m Hm; assert (m = 1) as -> by lia; left; reflexivity | reflexivity]|]. split; [|split; [|reflexivity]].
  - intros [|[|k]] Hk; [lia| |]; (split; [intros h; unfold fine; cbn; auto | intros h e; discriminate]).
  - intros [|[|k]]; [left; reflexivity| |]; right; intros h; cbn; repeat split; try lia; intros o Ho; try contradiction Ho. destruct Ho as [<-|[]]. cbn. lia.
Qed.
(** The order is lost with the sending mode that is the default (stage.go:50), when one call gives several outputs. *)
Theorem C38_order_refuted : exists bs l, source_items 0 (bs 0) 1 /\ (forall k, 0 < k -> never_fails (bs k)) /\ how (bs 0) = MConc /\
  let p := run (pipe_step 0 bs) (pipe_start 2) l in waited p = Some [] /\
  images (bs 0) [0; 0] = [1; 2] /\ map rcvd (stages p) = [[0; 0]; [2; 1]].
Proof.
  exists (fun k => match k with 0 => burst MConc | _ => fun_sink (fun _ => ROk) end),
    [ATick; AOut 0 1; AGo 1; AOut 0 0; AGo 0; AGo 1; ATick; AGo 0; AEnd 1; AGo 1; ADrain; AHear 1 0; AHear 0 0; ATop; AWait].
  split; [split; [intros m Hm; assert (m = 1) as -> by lia; left; reflexivity | reflexivity]|].
  split; [intros [|k] Hk; [lia|]; split; [intros h; unfold fine; cbn; auto | intros h e; discriminate]|]. vm_compute. auto.
Qed.

(** ** C39. Under the hypothesis that no stage goes on sending after it heard an error. *)
Theorem C39_errors_reach_wait_partial : forall (D : Type) (tick : D) (bs : nat -> behaviour) n l, 0 < n -> (forall k, stops_at_error (bs k)) ->
  let p := run (pipe_step tick bs) (pipe_start n) l in
  forall k s e es, nth_error (stages p) k = Some s -> raised (bs k) s e -> waited p = Some es -> In e es.
Proof. exact @errors_reach. Qed.
(** Conversely, and without that hypothesis: what Wait returns was returned by a processing function. *)
Theorem C39_nothing_invented : forall (D : Type) (tick : D) (bs : nat -> behaviour) n l es e,
  let p := run (pipe_step tick bs) (pipe_start n) l in waited p = Some es -> In e es ->
  exists k s, nth_error (stages p) k = Some s /\ raised (bs k) s e.
Proof. intros D tick bs n l es e p. exact (errors_real tick bs n l es e). Qed.
(** When Wait has returned, all goroutines of the pipeline have ended, also after errors. *)
Theorem C39_all_stop : forall (D : Type) (tick : D) (bs : nat -> behaviour) n l, 0 < n ->
  let p := run (pipe_step tick bs) (pipe_start n) l in waited p <> None ->
  pump p = PumpDone /\ drained p = true /\ forall k s, nth_error (stages p) k = Some s -> pc s = Done.
Proof. exact @pipe_stops. Qed.

(** Three items, the sink fails at the second one. *)
Definition sink_fails (k : nat) : behaviour (D := nat) :=
  match k with 0 => slice_source [1; 2; 3] (fun _ => ROk) | _ => fun_sink (fun h => if length h =? 2 then RErr [x62] else ROk) end.
Example C39_sink_fails : (forall k, stops_at_error (sink_fails k)) /\
  let p := run (pipe_step 0 sink_fails) (pipe_start 2)
             [ATick; AOut 0 0; AGo 0; AGo 1; ATick; AOut 0 0; AGo 0; ATick; ADrain; AHear 1 0; AHear 0 0; AGo 0; AHear 0 0; ATop; AWait] in
  waited p = Some [[x62]] /\ map rcvd (stages p) = [[0; 0; 0]; [1; 2]].
Proof.
  split; [|vm_compute; split; reflexivity]. intros [|k]; right; intros h; cbn.
  - destruct (nth_error [1; 2; 3] (pred (length h))); cbn; repeat split; try lia; intros o [].
  - repeat split; try lia; intros o [].
Qed.
(** Two stages fail independently: both errors are returned. *)
Definition both_fail (k : nat) : behaviour (D := nat) :=
  match k with 0 => slice_source [1; 2] (fun x => if x =? 2 then RErr [x61] else ROk) | _ => fun_sink (fun _ => RErr [x62]) end.
Example C39_both : let p := run (pipe_step 0 both_fail) (pipe_start 2) [ATick; AOut 0 0; AGo 0; ATick; ADrain; AHear 1 0; AHear 0 0; ATop; AWait] in
  waited p = Some [[x61]; [x62]].
Proof. vm_compute. reflexivity. Qed.

(** Without the hypothesis it fails, in both other sending modes (the default is MConc): the source has three outputs, the sink
    fails at the first; the source reads the error instead of sending the second output, and nil from the closed error channel instead
    of sending the third. Wait returns nil. *)
Definition triple (m : mode) : behaviour (D := nat) :=
  {| proc := fun h => if length h =? 1 then ([1; 2; 3], ROk) else ([], RNoMore); nomore := fun _ => ([], ROk); stream := fun _ => []; how := m |}.
Definition lost (m : mode) (k : nat) : behaviour := match k with 0 => triple m | _ => fun_sink (fun _ => RErr [x62]) end.
Theorem C39_refuted : forall m, m = MSeq \/ m = MConc -> exists l,
  let p := run (pipe_step 0 (lost m)) (pipe_start 2) l in
  waited p = Some [] /\ exists s, nth_error (stages p) 1 = Some s /\ raised (lost m 1) s [x62].
Proof.
  intros m Hm. exists [ATick; AOut 0 0; ADrain; AHear 1 0; AHear 0 0; AHear 0 0; AGo 0; AHear 0 0; ATop; AWait].
  destruct Hm as [-> | ->]; (split; [vm_compute; reflexivity|]); eexists; (split; [vm_compute; reflexivity|]); left; exists [1], []; repeat split; discriminate.
Qed.

(** ** C34. False: whatever a streaming function returns, it is not seen by Wait; only what ProcessFunc and onNoMoreData return is. *)
Theorem C34_stream_errors_invisible : forall (D : Type) (tick : D) (bs : nat -> behaviour) n l es,
  (forall k h e, snd (proc (bs k) h) <> RErr e /\ snd (nomore (bs k) h) <> RErr e) ->
  let p := run (pipe_step tick bs) (pipe_start n) l in waited p = Some es -> es = [].
Proof.
  intros D tick bs n l es Hno p Hw. destruct es as [|e es]; [reflexivity|]. exfalso.
  destruct (errors_real tick bs n l (e :: es) e Hw (or_introl eq_refl)) as (k & s & _ & [(h & t & _ & _ & H)|[_ H]]).
  - exact (proj1 (Hno k h e) H).
  - exact (proj2 (Hno k (rcvd s) e) H).
Qed.
(** A source that streams two outputs and then fails: the sink gets the two outputs and Wait returns nil. *)
Definition failing_stream (k : nat) : behaviour (D := nat) :=
  match k with
  | 0 => {| proc := fun h => if length h =? 1 then ([], RStream) else ([], RNoMore); nomore := fun _ => ([], ROk);
            stream := fun _ => [([1], RStream); ([2], RStream); ([], RErr [x62])]; how := MConc |}
  | _ => fun_sink (fun _ => ROk)
  end.
Theorem C34_refuted : exists l, In ([], RErr [x62]) (stream (failing_stream 0) [0]) /\
  let p := run (pipe_step 0 failing_stream) (pipe_start 2) l in
  waited p = Some [] /\ map rcvd (stages p) = [[0; 0]; [1; 2]].
Proof.
  exists [ATick; AGo 0; AOut 0 0; AGo 0; AGo 1; AOut 0 0; AGo 0; AGo 0; AGo 1; ATick; AGo 0; AEnd 1; AGo 1; ADrain; AHear 1 0; AHear 0 0; ATop; AWait].
  split; [cbn; auto|]. vm_compute. split; reflexivity.
Qed.
(** Nor can the pipeline be saved by what comes after: the run with the error is the run in which the stream just ended. *)
Theorem C34_like_the_end : forall (D : Type) (tick : D) (bs bs' : nat -> behaviour) n l, (forall k, same_but_stream_error (bs k) (bs' k)) ->
  let p := run (pipe_step tick bs) (pipe_start n) l in let p' := run (pipe_step tick bs') (pipe_start n) l in
  waited p' = waited p /\ map rcvd (stages p') = map rcvd (stages p) /\ map sent (stages p') = map sent (stages p).
Proof. intros D tick bs bs' n l H. exact (stream_error_same tick bs bs' H n l). Qed.

Print Assumptions C38_chain_of_functions.
Print Assumptions C38_chain_of_functions_any_schedule.
Print Assumptions C38_delivers_partial.
Print Assumptions C38_exactly_once.
Print Assumptions C38_links.
Print Assumptions C38_prefix.
Print Assumptions C38_no_deadlock.
Print Assumptions C38_no_infinite_run.
Print Assumptions C38_terminates.
Print Assumptions C38_order_refuted.
Print Assumptions C39_errors_reach_wait_partial.
Print Assumptions C39_nothing_invented.
Print Assumptions C39_all_stop.
Print Assumptions C39_refuted.
Print Assumptions C34_stream_errors_invisible.
Print Assumptions C34_refuted.
Print Assumptions C34_like_the_end.
