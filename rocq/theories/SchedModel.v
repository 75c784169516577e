(** Model of /repo/pkg/util/ticker.go RunWhen: the goroutine that runs the updates of the map server (cmd/mapserver/main.go:207). One step per
    statement that can take time or wait; between two steps any time can pass. Times are nanoseconds of the monotonic clock.
    Not modelled: jumps of the wall clock (time.Until is taken once), times that do not fit in 64 bits. The ticker is that of Go 1.23 and later
    (go.mod:3 has 1.25): a tick is ready as soon as its time has come, several missed ticks are one, the next one is the first point of the grid
    after the present. No proofs here. *)
From Verif Require Import Base.

Inductive place : Type :=
| Begin                                                (* the goroutine was started; about to execute line 21 *)
| Arming (w : Z)                                       (* waiting = w; about to execute line 22 *)
| Sleeping (d : Z)                                     (* line 23: the timer fires at d *)
| Woken                                                (* about to execute line 24 *)
| Calling                                              (* about to execute line 26 *)
| Running                                              (* inside whenTick *)
| Selecting                                            (* about to execute line 27 *)
| Blocked                                              (* parked in the select: nothing was ready *)
| Stopped                                              (* line 32 *)
| Panicked.                                            (* NewTicker panics if the interval is not positive *)
Record sched : Type := {
  clock : Z; pc : place;
  next : Z;                                            (* time of the next tick *)
  cancelled : bool;                                    (* ctx.Done() is closed *)
  runs : list (Z * option Z) }.                        (* calls of whenTick in their order: beginning, end *)

Inductive act : Type :=
| Time (d : Z)                                         (* d nanoseconds pass *)
| Cancel
| Go (tick : bool).                                    (* the goroutine does its next step; [tick]: the choice of the select if both are ready *)

Definition set_pc (s : sched) (p : place) : sched :=
  {| clock := clock s; pc := p; next := next s; cancelled := cancelled s; runs := runs s |}.
(** runtime/time.go: next = when + period*(1 + delta/period) for delta = now - when. *)
Definition take_tick (repeat : Z) (s : sched) : sched :=
  {| clock := clock s; pc := Calling; next := (next s + repeat * (1 + (clock s - next s) / repeat))%Z; cancelled := cancelled s; runs := runs s |}.
Definition end_run (now : Z) (l : list (Z * option Z)) : list (Z * option Z) :=
  match rev l with (b, _) :: l' => rev l' ++ [(b, Some now)] | [] => [] end.

Section RunWhen.
  Variable when repeat : Z.

  Definition step (s : sched) (a : act) : option sched :=
    match a with
    | Time d => if (0 <=? d)%Z then Some {| clock := (clock s + d)%Z; pc := pc s; next := next s; cancelled := cancelled s; runs := runs s |} else None
    | Cancel => Some {| clock := clock s; pc := match pc s with Blocked => Stopped | p => p end; next := next s; cancelled := true; runs := runs s |}
    | Go tick =>
        match pc s with
        | Begin => Some (set_pc s (Arming (when - clock s)))
        | Arming w => Some (set_pc s (Sleeping (clock s + Z.max 0 w)))
        | Sleeping d => if (d <=? clock s)%Z then Some (set_pc s Woken) else None
        | Woken =>
            if (repeat <=? 0)%Z then Some (set_pc s Panicked)
            else Some {| clock := clock s; pc := Calling; next := (clock s + repeat)%Z; cancelled := cancelled s; runs := runs s |}
        | Calling => Some {| clock := clock s; pc := Running; next := next s; cancelled := cancelled s; runs := runs s ++ [(clock s, None)] |}
        | Running => Some {| clock := clock s; pc := Selecting; next := next s; cancelled := cancelled s; runs := end_run (clock s) (runs s) |}
        | Selecting =>
            match (next s <=? clock s)%Z, cancelled s with
            | true, true => if tick then Some (take_tick repeat s) else Some (set_pc s Stopped)
            | true, false => Some (take_tick repeat s)
            | false, true => Some (set_pc s Stopped)
            | false, false => Some (set_pc s Blocked)
            end
        | Blocked => if (next s <=? clock s)%Z then Some (take_tick repeat s) else None
        | Stopped | Panicked => None
        end
    end.

  Definition begin_at (now : Z) : sched := {| clock := now; pc := Begin; next := 0; cancelled := false; runs := [] |}.
  Fixpoint run (s : sched) (l : list act) : option sched :=
    match l with [] => Some s | a :: l' => match step s a with Some s' => run s' l' | None => None end end.

  (** A machine without delays: time passes only while the goroutine sleeps or waits for a tick, and not beyond, while the function runs, and
      after the end. *)
  Definition on_time (s : sched) (a : act) : bool :=
    match a with
    | Time d =>
        match pc s with
        | Sleeping t => (clock s + d <=? t)%Z
        | Blocked => (clock s + d <=? next s)%Z
        | Running | Stopped | Panicked => true
        | _ => (d =? 0)%Z
        end
    | _ => true
    end.
  Fixpoint prompt (s : sched) (l : list act) : bool :=
    match l with [] => true | a :: l' => on_time s a && match step s a with Some s' => prompt s' l' | None => false end end.
End RunWhen.
