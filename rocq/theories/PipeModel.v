(** Model of a linear pipeline: /repo/pkg/pipeline/stage.go, source.go, sink.go, pipeline.go. Stage 0 is the source, the last one
    the sink, stage k is linked to stage k+1 with LinkStagesAt (stage.go:121). Channels are unbuffered: sending and receiving are one
    step of both sides. Simplifications: a processing function is a function of what its stage received so far (it may have a state,
    but it returns, it does not panic and it shares nothing with other stages), so receiving and processing are one step; all output
    indices are 0; the data of all stages has one type; StopCh (StopAndWait), tracing and the hooks are left out (the hooks are in
    SyncModel). No proofs here. *)
From Verif Require Import Base SysModel UtilModel.

(** An error value: the messages of the coalesced error; nil is the empty list. *)
Definition err : Type := list bytes.
Definition as_error (e : err) : option error :=
  match e with [] => None | _ => Some (Coalesced (map (fun m => Some (Plain m)) e)) end.
Definition coalesce (a b : err) : err := match errors_coalesce [as_error a; as_error b] with None => [] | Some l => l end.

(** What ProcessFunc, onNoMoreData and streamFunc return as error. *)
Inductive ret : Type := ROk | RNoMore | RErr (e : bytes) | RStream.
Definition is_stream (r : ret) : bool := match r with RStream => true | _ => false end.

Inductive mode : Type := MSeq | MConc | MCyc.

Section Pipe.
  Context {D : Type}.

  (** The functions of a stage, in terms of all the inputs received, the current one last. [stream h] lists what the calls of
      streamFunc give after the last input of [h]; after these it gives nothing and NoMoreData. *)
  Record behaviour : Type := {
    proc : list D -> list D * ret;
    nomore : list D -> list D * ret;
    stream : list D -> list (list D * ret);
    how : mode }.

  (** Where a stage is in processThisStage (stage.go:391). *)
  Inductive stage_pc : Type :=
  | Recv                                               (* in the select, line 422 *)
  | Send (outs : list D) (streaming : bool) (more : list (list D * ret)) (brk serr : bool)
      (* in the loop of line 482: outputs not sent yet, err = StreamOutput, what streamFunc will give,
         shouldBreakReadingIncoming, sendingError *)
  | Brk                                                (* breakPipelineAndWait: output closed, waiting for the next stage's error *)
  | SendErr (e : err)                                  (* sending on ErrCh, line 374 *)
  | Done.                                              (* ErrCh closed *)
  Record stage : Type := {
    pc : stage_pc;
    found : err;                                       (* foundError *)
    rcvd : list D;                                     (* what was received, in order *)
    sent : list D;                                     (* what was sent, in order *)
    ended : bool }.                                    (* it saw the end of its input *)

  (** Lines 448-482: after processing. *)
  Definition processed (s : stage) (h : list D) (fin : bool) (o : list D * ret) (more : list (list D * ret)) : stage :=
    let (outs, r) := o in
    let at_pc p e := {| pc := p; found := e; rcvd := h; sent := sent s; ended := fin |} in
    match r with
    | ROk => at_pc (Send outs false more fin false) (found s)
    | RStream => at_pc (Send outs true more fin false) (found s)
    | RNoMore => at_pc (Send outs false more true false) (found s)
    | RErr e => at_pc Brk [e]
    end.
  Definition receive (b : behaviour) (s : stage) (x : D) : stage :=
    let h := rcvd s ++ [x] in processed s h false (proc b h) (stream b h).
  Definition see_end (b : behaviour) (s : stage) : stage := processed s (rcvd s) true (nomore b (rcvd s)) (stream b (rcvd s)).

  Definition with_pc (s : stage) (p : stage_pc) (e : err) : stage :=
    {| pc := p; found := e; rcvd := rcvd s; sent := sent s; ended := ended s |}.
  Definition remove {A} (i : nat) (l : list A) : list A := firstn i l ++ skipn (S i) l.

  (** The [i]-th of the outputs left can be sent: one after the other in sendOutputsSequential (line 518), in any order in
      sendOutputsConcurrent (line 561) and in sendOutputsCyclesAllowed (line 618). *)
  Definition can_send (m : mode) (i : nat) : bool := match m with MSeq => i =? 0 | _ => true end.
  Definition offer (b : behaviour) (s : stage) (i : nat) : option D :=
    match pc s with
    | Send outs _ _ _ _ => if can_send (how b) i then nth_error outs i else None
    | _ => None
    end.
  Definition did_send (s : stage) (i : nat) (x : D) : stage :=
    match pc s with
    | Send outs st more brk serr =>
        {| pc := Send (remove i outs) st more brk serr; found := found s; rcvd := rcvd s; sent := sent s ++ [x]; ended := ended s |}
    | _ => s
    end.

  (** Reading [e] from NextStagesAggregatedErrCh: in the select (line 428), instead of sending output [i] (lines 540, 592, 652),
      in breakPipelineAndWait (line 362). *)
  Definition hear (b : behaviour) (s : stage) (i : nat) (e : err) : option stage :=
    match pc s with
    | Recv => Some (with_pc s Brk e)
    | Send outs st more brk _ =>
        if can_send (how b) i && (i <? length outs)
        then Some (with_pc s (Send (match how b with MCyc => [] | _ => remove i outs end) st more brk true) e)
        else None
    | Brk => let e' := coalesce (found s) e in Some (with_pc s (match e' with [] => Done | _ => SendErr e' end) e')
    | _ => None
    end.

  (** All outputs are sent (lines 494-511). *)
  Definition go_on (s : stage) : option stage :=
    match pc s with
    | Send [] st more brk serr =>
        if brk || serr then Some (with_pc s Brk (found s))
        else if st then
          match more with
          | [] => Some (with_pc s (Send [] false [] brk serr) (found s))
          | (outs, r) :: more' => Some (with_pc s (Send outs (is_stream r) more' brk serr) (found s))
          end
        else Some (with_pc s Recv (found s))
    | _ => None
    end.

  Definition closed_out (s : stage) : bool := match pc s with Brk | SendErr _ | Done => true | _ => false end.

  (** source.go:156 the goroutine feeding the source; pipeline.go:144 and source.go:147 Wait. *)
  Inductive pump_st : Type := Pumping | Telling (e : err) | PumpDone.
  Record pipe : Type := {
    stages : list stage;
    pump : pump_st;
    drained : bool;                                    (* sink.go:60 the sink's goroutine has closed the error channel *)
    waited : option err }.                             (* what Wait returned *)

  Inductive pipe_act : Type :=
  | ATick                                              (* the source gets a None *)
  | AOut (k i : nat)                                   (* stage k hands output i to stage k+1 *)
  | AEnd (k : nat)                                     (* stage k sees that its input is closed *)
  | AHear (k i : nat)                                  (* stage k reads the error channel of stage k+1 *)
  | AGo (k : nat)
  | ADrain                                             (* the goroutine of the sink sees the end *)
  | ATop                                               (* the goroutine of the source reads its error channel *)
  | AWait.                                             (* Wait reads TopErrCh *)

  Variable tick : D.                                   (* None{} *)
  Variable bs : nat -> behaviour.

  Definition with_stages (p : pipe) (l : list stage) : pipe :=
    {| stages := l; pump := pump p; drained := drained p; waited := waited p |}.
  (** Reading an error channel: the error, or nil if it is closed. *)
  Definition err_of (s : stage) : option err := match pc s with SendErr e => Some e | Done => Some [] | _ => None end.
  Definition finished (s : stage) : stage := with_pc s Done (found s).

  Definition pipe_step (p : pipe) (a : pipe_act) : option pipe :=
    match a with
    | ATick =>
        match pump p, nth_error (stages p) 0 with
        | Pumping, Some s => match pc s with Recv => Some (with_stages p (set_nth 0 (receive (bs 0) s tick) (stages p))) | _ => None end
        | _, _ => None
        end
    | AOut k i =>
        match nth_error (stages p) k with
        | None => None
        | Some s =>
            match offer (bs k) s i with
            | None => None
            | Some x =>
                let l := set_nth k (did_send s i x) (stages p) in
                match nth_error (stages p) (S k) with
                | Some s' => match pc s' with Recv => Some (with_stages p (set_nth (S k) (receive (bs (S k)) s' x) l)) | _ => None end
                | None => if drained p then None else Some (with_stages p l)
                end
            end
        end
    | AEnd k =>
        match k with
        | O => None
        | S j =>
            match nth_error (stages p) j, nth_error (stages p) k with
            | Some s', Some s =>
                match pc s with
                | Recv => if closed_out s' then Some (with_stages p (set_nth k (see_end (bs k) s) (stages p))) else None
                | _ => None
                end
            | _, _ => None
            end
        end
    | AHear k i =>
        match nth_error (stages p) k with
        | None => None
        | Some s =>
            match nth_error (stages p) (S k) with
            | Some s' =>
                match err_of s' with
                | None => None
                | Some e =>
                    match hear (bs k) s i e with
                    | None => None
                    | Some t => Some (with_stages p (set_nth k t (set_nth (S k) (finished s') (stages p))))
                    end
                end
            | None =>
                if drained p then
                  match hear (bs k) s i [] with None => None | Some t => Some (with_stages p (set_nth k t (stages p))) end
                else None
            end
        end
    | AGo k =>
        match nth_error (stages p) k with
        | None => None
        | Some s => match go_on s with None => None | Some t => Some (with_stages p (set_nth k t (stages p))) end
        end
    | ADrain =>
        match nth_error (stages p) (pred (length (stages p))) with
        | None => None
        | Some s =>
            if closed_out s && negb (drained p)
            then Some {| stages := stages p; pump := pump p; drained := true; waited := waited p |} else None
        end
    | ATop =>
        match pump p, nth_error (stages p) 0 with
        | Pumping, Some s =>
            match err_of s with
            | None => None
            | Some e => Some {| stages := set_nth 0 (finished s) (stages p); pump := match e with [] => PumpDone | _ => Telling e end;
                                drained := drained p; waited := waited p |}
            end
        | _, _ => None
        end
    | AWait =>
        match waited p, pump p with
        | None, Telling e => Some {| stages := stages p; pump := PumpDone; drained := drained p; waited := Some e |}
        | None, PumpDone => Some {| stages := stages p; pump := PumpDone; drained := drained p; waited := Some [] |}
        | _, _ => None
        end
    end.

  Definition stage_start : stage := {| pc := Recv; found := []; rcvd := []; sent := []; ended := false |}.
  Definition pipe_start (n : nat) : pipe := {| stages := repeat stage_start n; pump := Pumping; drained := false; waited := None |}.
End Pipe.

(** source.go:107 WithSourceSlice: item [i] on call [i], NoMoreData afterwards. The processing function of the slice gives the error. *)
Definition slice_source {D} (items : list D) (check : D -> ret) : behaviour (D := D) :=
  {| proc := fun h => match nth_error items (pred (length h)) with Some x => ([x], check x) | None => ([], RNoMore) end;
     nomore := fun _ => ([], ROk); stream := fun _ => []; how := MConc |}.
(** sink.go:43 WithSinkFunction *)
Definition fun_sink {D} (f : list D -> ret) : behaviour (D := D) :=
  {| proc := fun h => ([], f h); nomore := fun _ => ([], ROk); stream := fun _ => []; how := MConc |}.
