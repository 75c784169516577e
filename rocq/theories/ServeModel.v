(** Model of the life of the map server command: /repo/cmd/mapserver/main.go run and runWithConfig, /repo/pkg/util/signal_handler.go
    ContextWithCancelOnSignal, /repo/pkg/mapserver/mapserver.go NewMapServer (its goroutine), listen, PruneAndUpdate,
    PruneAndUpdateIfPossible, and /repo/pkg/util/ticker.go RunWhen as far as it makes the calls. Six goroutines; a step is a call to the
    outside, a channel operation, or a cancellation.
    Simplifications: what comes before the goroutine in NewMapServer is one call, an update (pruneAndUpdate without its sends) is one
    call of any duration, so is the reload of the root (C59, RoundModel, SmtModel); the timer and the ticker fire at any time
    (SchedModel has the times; the interval is positive); a call that gets a cancelled context may fail or not. Signals: those that the
    command asks for. No proofs here. *)
From Verif Require Import Base SysModel.

Inductive sig : Type := SigInt | SigTerm.
(** Why a process ends: os.Exit; a panic; the default action of a signal. *)
Inductive why : Type := Watchdog | ClosedSend.
Inductive fin : Type := Exit (code : nat) | Crash (w : why) | Killed (g : sig).

(** main.go:155 run, :173 runWithConfig *)
Inductive main : Type :=
| MNotify                                              (* :161 *)
| MConf                                                (* :164 *)
| MNew                                                 (* :180 *)
| MRoot                                                (* :184, :188 *)
| MSend                                                (* mapserver.go:224 *)
| MWait                                                (* mapserver.go:227 *)
| MSchedule                                            (* main.go:207 *)
| MListen                                              (* mapserver.go:190 *)
| MReturn (err : bool).                                (* main.go:74 manageError, :27 os.Exit *)
(** mapserver.go:123 *)
Inductive loop : Type :=
| LOff
| LSelect                                              (* :126 *)
| LWork                                                (* :131 *)
| LSend1 (err : bool)                                  (* :306, :310 *)
| LReload                                              (* :132 *)
| LSend2                                               (* :134 *)
| LEnd.
(** ticker.go:20 with the function of main.go:208 *)
Inductive timer : Type :=
| TOff
| TSleep                                               (* ticker.go:23 *)
| TCall                                                (* mapserver.go:212 *)
| TWait                                                (* mapserver.go:214 *)
| TSelect                                              (* ticker.go:27 *)
| TEnd.
(** signal_handler.go:47 *)
Inductive siggo : Type := SOff | SWait | SCancel | SStop | SEnd.
(** signal_handler.go:60 *)
Inductive watch : Type := WOff | WWait | WSleep (d : nat).

Record srv : Type := mk_srv {
  mn : main; lp : loop; tm : timer; sg : siggo; wd : watch;
  armed : bool;                                        (* the signals go to the channel [stop] *)
  queue : list sig;                                    (* the channel [stop], for 2 signals *)
  canc : option nat;                                   (* the context is cancelled, and since when *)
  uclosed : bool;                                      (* updateChan is closed *)
  stop_sent : bool;                                    (* apiStopServerChan *)
  down : bool;                                         (* the HTTP server was shut down *)
  clock : nat;
  answered : list nat;                                 (* the times of the requests that were answered *)
  updates : list bool;                                 (* the updates that came to their end, [true]: without error *)
  ended : option fin }.

Definition set_mn (x : main) (s : srv) := mk_srv x (lp s) (tm s) (sg s) (wd s) (armed s) (queue s) (canc s) (uclosed s) (stop_sent s) (down s) (clock s) (answered s) (updates s) (ended s).
Definition set_lp (x : loop) (s : srv) := mk_srv (mn s) x (tm s) (sg s) (wd s) (armed s) (queue s) (canc s) (uclosed s) (stop_sent s) (down s) (clock s) (answered s) (updates s) (ended s).
Definition set_tm (x : timer) (s : srv) := mk_srv (mn s) (lp s) x (sg s) (wd s) (armed s) (queue s) (canc s) (uclosed s) (stop_sent s) (down s) (clock s) (answered s) (updates s) (ended s).
Definition set_sg (x : siggo) (s : srv) := mk_srv (mn s) (lp s) (tm s) x (wd s) (armed s) (queue s) (canc s) (uclosed s) (stop_sent s) (down s) (clock s) (answered s) (updates s) (ended s).
Definition set_wd (x : watch) (s : srv) := mk_srv (mn s) (lp s) (tm s) (sg s) x (armed s) (queue s) (canc s) (uclosed s) (stop_sent s) (down s) (clock s) (answered s) (updates s) (ended s).
Definition set_armed (x : bool) (s : srv) := mk_srv (mn s) (lp s) (tm s) (sg s) (wd s) x (queue s) (canc s) (uclosed s) (stop_sent s) (down s) (clock s) (answered s) (updates s) (ended s).
Definition set_queue (x : list sig) (s : srv) := mk_srv (mn s) (lp s) (tm s) (sg s) (wd s) (armed s) x (canc s) (uclosed s) (stop_sent s) (down s) (clock s) (answered s) (updates s) (ended s).
Definition set_canc (x : option nat) (s : srv) := mk_srv (mn s) (lp s) (tm s) (sg s) (wd s) (armed s) (queue s) x (uclosed s) (stop_sent s) (down s) (clock s) (answered s) (updates s) (ended s).
Definition set_uclosed (x : bool) (s : srv) := mk_srv (mn s) (lp s) (tm s) (sg s) (wd s) (armed s) (queue s) (canc s) x (stop_sent s) (down s) (clock s) (answered s) (updates s) (ended s).
Definition set_down (x : bool) (s : srv) := mk_srv (mn s) (lp s) (tm s) (sg s) (wd s) (armed s) (queue s) (canc s) (uclosed s) (stop_sent s) x (clock s) (answered s) (updates s) (ended s).
Definition set_clock (x : nat) (s : srv) := mk_srv (mn s) (lp s) (tm s) (sg s) (wd s) (armed s) (queue s) (canc s) (uclosed s) (stop_sent s) (down s) x (answered s) (updates s) (ended s).
Definition set_answered (x : list nat) (s : srv) := mk_srv (mn s) (lp s) (tm s) (sg s) (wd s) (armed s) (queue s) (canc s) (uclosed s) (stop_sent s) (down s) (clock s) x (updates s) (ended s).
Definition set_updates (x : list bool) (s : srv) := mk_srv (mn s) (lp s) (tm s) (sg s) (wd s) (armed s) (queue s) (canc s) (uclosed s) (stop_sent s) (down s) (clock s) (answered s) x (ended s).
Definition finish (x : fin) (s : srv) := mk_srv (mn s) (lp s) (tm s) (sg s) (wd s) (armed s) (queue s) (canc s) (uclosed s) (stop_sent s) (down s) (clock s) (answered s) (updates s) (Some x).

Inductive action : Type :=
| AMain (ok : bool)                                    (* [ok]: the call succeeds *)
| ALoop (ok : bool)
| ATimer (ch : bool)                                   (* the choice of a select *)
| ASigGo
| AWatch
| AStop                                                (* mapserver.go:179 *)
| ASignal (g : sig)                                    (* the operating system sends it *)
| ATime (d : nat)
| AReq.                                                (* a request of a client *)

Section Serve.
  (** The flag updateNow; main.go:24 waitForExitBeforePanicTime *)
  Variable now : bool.
  Variable wait : nat.

  Definition main_step (s : srv) (ok : bool) : option srv :=
    match mn s with
    | MNotify => Some (set_mn MConf (set_armed true (set_sg SWait (set_wd WWait s))))
    | MConf => Some (set_mn (if ok then MNew else MReturn true) s)
    | MNew => Some (if ok then set_mn MRoot (set_lp LSelect s) else set_mn (MReturn true) s)
    | MRoot => Some (set_mn (if ok then if now then MSend else MSchedule else MReturn true) s)
    | MSend =>
        if uclosed s then Some (finish (Crash ClosedSend) s)
        else match lp s with LSelect => Some (set_mn MWait (set_lp LWork s)) | _ => None end
    | MWait => None                                    (* the sender takes the step *)
    | MSchedule => Some (set_mn MListen (set_tm TSleep s))
    | MListen => if down s then Some (set_mn (MReturn false) s) else if ok then None else Some (set_mn (MReturn true) s)
    | MReturn e => Some (finish (Exit (if e then 1 else 0)) s)
    end.

  (** updateErrChan <- err: one who waits for it takes it. *)
  Definition give (err : bool) (s : srv) : option srv :=
    match mn s, tm s with
    | MWait, _ => Some (set_mn (if err then MReturn true else MSchedule) s)
    | _, TWait => Some (set_tm TSelect s)
    | _, _ => None
    end.
  Definition loop_step (s : srv) (ok : bool) : option srv :=
    match lp s with
    | LOff | LEnd => None
    | LSelect => match canc s with Some _ => Some (set_uclosed true (set_lp LEnd s)) | None => None end
    | LWork => Some (set_updates (updates s ++ [ok]) (set_lp (LSend1 (negb ok)) s))
    | LSend1 e => option_map (set_lp LReload) (give e s)
    | LReload => Some (set_lp (if ok then LSelect else LSend2) s)
    | LSend2 => option_map (set_lp LSelect) (give true s)
    end.

  (** The select of PruneAndUpdateIfPossible takes the default if the loop is not yet waiting. *)
  Definition timer_step (s : srv) (ch : bool) : option srv :=
    match tm s with
    | TOff | TWait | TEnd => None
    | TSleep => Some (set_tm TCall s)
    | TCall =>
        if uclosed s then Some (finish (Crash ClosedSend) s)
        else match lp s with
             | LSelect => Some (if ch then set_tm TWait (set_lp LWork s) else set_tm TSelect s)
             | _ => Some (set_tm TSelect s)
             end
    | TSelect => if ch then Some (set_tm TCall s) else match canc s with Some _ => Some (set_tm TEnd s) | None => None end
    end.

  Definition sig_step (s : srv) : option srv :=
    match sg s with
    | SOff | SEnd => None
    | SWait =>
        match queue s with
        | _ :: q => Some (set_sg SCancel (set_queue q s))
        | [] => match canc s with Some _ => Some (set_sg SStop s) | None => None end
        end
    | SCancel => Some (set_sg SStop (set_canc (match canc s with Some t => Some t | None => Some (clock s) end) s))
    | SStop => Some (set_sg SEnd (set_armed false s))
    end.

  Definition watch_step (s : srv) : option srv :=
    match wd s with
    | WOff => None
    | WWait => match canc s with Some _ => Some (set_wd (WSleep (clock s + wait)) s) | None => None end
    | WSleep d => if d <=? clock s then Some (finish (Crash Watchdog) s) else None
    end.

  Definition serve_step (s : srv) (a : action) : option srv :=
    match ended s with
    | Some _ => None
    | None =>
        match a with
        | AMain ok => main_step s ok
        | ALoop ok => loop_step s ok
        | ATimer ch => timer_step s ch
        | ASigGo => sig_step s
        | AWatch => watch_step s
        | AStop => if stop_sent s then Some (set_down true s) else None
        | ASignal g =>
            if armed s then Some (if length (queue s) <? 2 then set_queue (queue s ++ [g]) s else s)
            else Some (finish (Killed g) s)
        | ATime d => Some (set_clock (clock s + d) s)
        | AReq => match mn s with MListen => if down s then None else Some (set_answered (answered s ++ [clock s]) s) | _ => None end
        end
    end.

  Definition serve_start : srv := mk_srv MNotify LOff TOff SOff WOff false [] None false false false 0 [] [] None.
End Serve.
