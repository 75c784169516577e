(** Model of the hand-made synchronisation: /repo/pkg/sync/spin.go, /repo/pkg/cache/presence_cache.go, the update loop of
    /repo/pkg/mapserver/mapserver.go and WithStallStages of /repo/pkg/pipeline/stall_resume.go. Every atomic access, lock
    operation and channel hand-over is one step; a step function per system, to be used with SysModel. No proofs here. *)
From Verif Require Import Base SysModel.

(** ** spin.go SpinLock. -1 is [None]; the ids fit in int32. [rounds] uses of the same lock: the main goroutine does Start and
    Wait [rounds] times, worker [i] does Lock(i), its work, UnLock(i) as often. *)
Inductive starter : Type :=
| Storing (w : nat)                                    (* about to store activeID = w; finished when w is the worker count *)
| Spinning (w : nat).                                  (* waiting for finishedID = w *)
Record spin : Type := {
  active : option nat; finished : option nat;
  starters : list starter;                             (* the goroutines started by Start *)
  to_start : nat; waiting : bool;                      (* main: calls of Start left, inside Wait *)
  wk : list (nat * bool);                              (* worker: uses left, inside its critical section *)
  entered : list nat }.                                (* who entered, in order *)

Inductive spin_act : Type := AMain | AStarter (k : nat) | AWorker (i : nat).

Definition pred_id (w : nat) : option nat := match w with O => None | S k => Some k end.
Definition oeqb (a b : option nat) : bool :=
  match a, b with Some x, Some y => x =? y | None, None => true | _, _ => false end.

Definition spin_step (n : nat) (s : spin) (a : spin_act) : option spin :=
  match a with
  | AMain =>
      if waiting s then                                (* spin.go:37 Wait *)
        if oeqb (finished s) (pred_id n)
        then Some {| active := active s; finished := finished s; starters := starters s; to_start := to_start s;
                     waiting := false; wk := wk s; entered := entered s |}
        else None
      else match to_start s with                       (* spin.go:24 Start *)
      | O => None
      | S k => Some {| active := active s; finished := finished s; starters := starters s ++ [Storing 0]; to_start := k;
                       waiting := true; wk := wk s; entered := entered s |}
      end
  | AStarter k =>
      match nth_error (starters s) k with
      | Some (Storing w) =>
          if w <? n
          then Some {| active := Some w; finished := finished s; starters := set_nth k (Spinning w) (starters s);
                       to_start := to_start s; waiting := waiting s; wk := wk s; entered := entered s |}
          else None
      | Some (Spinning w) =>
          if oeqb (finished s) (Some w)
          then Some {| active := active s; finished := finished s; starters := set_nth k (Storing (S w)) (starters s);
                       to_start := to_start s; waiting := waiting s; wk := wk s; entered := entered s |}
          else None
      | None => None
      end
  | AWorker i =>
      match nth_error (wk s) i with
      | Some (r, true) =>                              (* spin.go:49 UnLock *)
          Some {| active := active s; finished := Some i; starters := starters s; to_start := to_start s; waiting := waiting s;
                  wk := set_nth i (r, false) (wk s); entered := entered s |}
      | Some (S r, false) =>                           (* spin.go:43 Lock *)
          if oeqb (active s) (Some i)
          then Some {| active := active s; finished := finished s; starters := starters s; to_start := to_start s;
                       waiting := waiting s; wk := set_nth i (r, true) (wk s); entered := entered s ++ [i] |}
          else None
      | _ => None
      end
  end.

Definition spin_start (n rounds : nat) : spin :=
  {| active := None; finished := None; starters := []; to_start := rounds; waiting := false;
     wk := repeat (rounds, false) n; entered := [] |}.
Definition inside (s : spin) (i : nat) : Prop := exists r, nth_error (wk s) i = Some (r, true).

(** ** presence_cache.go. The index of the current set is a bool, [false] for 0. *)
Inductive cache_op : Type := Contains (id : bytes) | AddIDs (ids : list bytes).
Inductive cache_pc : Type :=
| Idle
(* Contains, lines 35-50 *)
| RLoad (id : bytes)                                   (* about to load currentIdx *)
| RInc (id : bytes) (idx : bool)                       (* about to increment readerCount[idx] *)
| RCheck (id : bytes) (idx : bool)                     (* about to load currentIdx again *)
| RBack (id : bytes) (idx : bool)                      (* about to decrement and repeat *)
| RRead (id : bytes) (idx : bool)                      (* about to read sets[idx] *)
| RDec (id : bytes) (idx : bool) (r : bool)            (* about to decrement and return r *)
(* AddIDs, lines 53-86 *)
| WLock (ids : list bytes)
| WShadow (ids : list bytes)                           (* waiting for readerCount[1] = 0 *)
| WAdd1 (ids rest : list bytes)                        (* writing sets[1] *)
| WSwitch (ids : list bytes)                           (* about to store currentIdx = 1 *)
| WWait (ids : list bytes)                             (* waiting for readerCount[0] = 0 *)
| WAdd0 (ids rest : list bytes)                        (* writing sets[0] *)
| WBack (ids : list bytes)                             (* about to store currentIdx = 0 *)
| WUnlock (ids : list bytes).
Record thread : Type := { pc : cache_pc; prog : list cache_op }.

(** The history of calls and returns; an operation is identified by its thread and the number of operations left after it. *)
Inductive event : Type :=
| Called (t k : nat) (o : cache_op)
| Returned (t k : nat) (o : cache_op) (r : bool).      (* r is meaningless for AddIDs *)

Record cache : Type := {
  set0 : list bytes; set1 : list bytes; cur : bool; rc0 : nat; rc1 : nat; mu : bool;
  threads : list thread; events : list event }.

Definition get_set (c : cache) (idx : bool) : list bytes := if idx then set1 c else set0 c.
Definition mem (id : bytes) (l : list bytes) : bool := existsb (beqb id) l.

Definition with_thread (c : cache) (t : nat) (p : cache_pc) (pr : list cache_op) : cache :=
  {| set0 := set0 c; set1 := set1 c; cur := cur c; rc0 := rc0 c; rc1 := rc1 c; mu := mu c;
     threads := set_nth t {| pc := p; prog := pr |} (threads c); events := events c |}.
Definition with_rc (c : cache) (idx : bool) (f : nat -> nat) : cache :=
  {| set0 := set0 c; set1 := set1 c; cur := cur c; rc0 := if idx then rc0 c else f (rc0 c);
     rc1 := if idx then f (rc1 c) else rc1 c; mu := mu c; threads := threads c; events := events c |}.
Definition with_event (c : cache) (e : event) : cache :=
  {| set0 := set0 c; set1 := set1 c; cur := cur c; rc0 := rc0 c; rc1 := rc1 c; mu := mu c; threads := threads c;
     events := events c ++ [e] |}.
Definition with_cur (c : cache) (i : bool) : cache :=
  {| set0 := set0 c; set1 := set1 c; cur := i; rc0 := rc0 c; rc1 := rc1 c; mu := mu c; threads := threads c; events := events c |}.
Definition with_mu (c : cache) (m : bool) : cache :=
  {| set0 := set0 c; set1 := set1 c; cur := cur c; rc0 := rc0 c; rc1 := rc1 c; mu := m; threads := threads c; events := events c |}.
Definition with_added (c : cache) (idx : bool) (id : bytes) : cache :=
  {| set0 := if idx then set0 c else id :: set0 c; set1 := if idx then id :: set1 c else set1 c; cur := cur c; rc0 := rc0 c;
     rc1 := rc1 c; mu := mu c; threads := threads c; events := events c |}.

Definition cache_step (c : cache) (t : nat) : option cache :=
  match nth_error (threads c) t with
  | None => None
  | Some th =>
      let pr := prog th in
      let k := length pr in
      match pc th with
      | Idle =>
          match pr with
          | [] => None
          | o :: pr' =>
              let c' := with_thread c t (match o with Contains id => RLoad id | AddIDs ids => WLock ids end) pr' in
              Some (with_event c' (Called t (length pr') o))
          end
      | RLoad id => Some (with_thread c t (RInc id (cur c)) pr)
      | RInc id idx => Some (with_rc (with_thread c t (RCheck id idx) pr) idx S)
      | RCheck id idx => Some (with_thread c t (if Bool.eqb (cur c) idx then RRead id idx else RBack id idx) pr)
      | RBack id idx => Some (with_rc (with_thread c t (RLoad id) pr) idx pred)
      | RRead id idx => Some (with_thread c t (RDec id idx (mem id (get_set c idx))) pr)
      | RDec id idx r => Some (with_event (with_rc (with_thread c t Idle pr) idx pred) (Returned t k (Contains id) r))
      | WLock ids => if mu c then None else Some (with_mu (with_thread c t (WShadow ids) pr) true)
      | WShadow ids => if rc1 c =? 0 then Some (with_thread c t (WAdd1 ids ids) pr) else None
      | WAdd1 ids [] => Some (with_thread c t (WSwitch ids) pr)
      | WAdd1 ids (x :: rest) => Some (with_added (with_thread c t (WAdd1 ids rest) pr) true x)
      | WSwitch ids => Some (with_cur (with_thread c t (WWait ids) pr) true)
      | WWait ids => if rc0 c =? 0 then Some (with_thread c t (WAdd0 ids ids) pr) else None
      | WAdd0 ids [] => Some (with_thread c t (WBack ids) pr)
      | WAdd0 ids (x :: rest) => Some (with_added (with_thread c t (WAdd0 ids rest) pr) false x)
      | WBack ids => Some (with_cur (with_thread c t (WUnlock ids) pr) false)
      | WUnlock ids => Some (with_event (with_mu (with_thread c t Idle pr) false) (Returned t k (AddIDs ids) true))
      end
  end.

Definition cache_start (progs : list (list cache_op)) : cache :=
  {| set0 := []; set1 := []; cur := false; rc0 := 0; rc1 := 0; mu := false;
     threads := map (fun p => {| pc := Idle; prog := p |}) progs; events := [] |}.

(** Between locking and unlocking addingMu. *)
Definition critical (p : cache_pc) : bool :=
  match p with WShadow _ | WAdd1 _ _ | WSwitch _ | WWait _ | WAdd0 _ _ | WBack _ | WUnlock _ => true | _ => false end.
Definition all_returned (c : cache) : Prop := forall t th, nth_error (threads c) t = Some th -> pc th = Idle /\ prog th = [].

(** ** mapserver.go: the goroutine of NewMapServer (lines 118-140) and its callers. [outcome i] is what the i-th served update
    gives: the error of prune/update and the error of ReloadRootAndSignTreeHead. The error of pruneAndUpdate goes through
    updateErrChan, and so does the one of the reload if it is not nil. *)
Section UpdateLoop.
  Context {E : Type}.
  Variable outcome : nat -> option E * option E.

  Inductive server : Type :=
  | Listening                                          (* in the select, line 121 *)
  | Updating
  | SendingResult (r : option E)                       (* blocked on updateErrChan, lines 297-302 *)
  | Reloading
  | SendingReload (e : E)                              (* blocked on updateErrChan, line 130 *)
  | Closed.                                            (* the context is done: updateChan is closed *)
  (** What a caller still has to call ([true]: PruneAndUpdate, [false]: PruneAndUpdateIfPossible), whether it waits for an answer
      (with the number of the update it triggered) and what it got. *)
  Record caller : Type := {
    calls : list bool; pending : option nat; got : list (nat * option E); refused : nat; crashed : bool }.
  Record mapserver : Type := { srv : server; served : nat; callers : list caller }.

  Inductive ms_act : Type := ActServer | ActCancel | ActCaller (c : nat).

  Definition set_caller (m : mapserver) (s : server) (n c : nat) (k : caller) : mapserver :=
    {| srv := s; served := n; callers := set_nth c k (callers m) |}.

  Definition ms_step (m : mapserver) (a : ms_act) : option mapserver :=
    match a with
    | ActServer =>
        match srv m with
        | Updating => Some {| srv := SendingResult (fst (outcome (served m))); served := served m; callers := callers m |}
        | Reloading =>
            Some {| srv := match snd (outcome (served m)) with None => Listening | Some e => SendingReload e end;
                    served := S (served m); callers := callers m |}
        | _ => None
        end
    | ActCancel =>
        match srv m with
        | Listening => Some {| srv := Closed; served := served m; callers := callers m |}
        | _ => None
        end
    | ActCaller c =>
        match nth_error (callers m) c with
        | None => None
        | Some k =>
            if crashed k then None else
            match pending k with
            | Some n =>                                (* <-s.updateErrChan *)
                match srv m with
                | SendingResult r =>
                    Some (set_caller m Reloading (served m) c
                      {| calls := calls k; pending := None; got := got k ++ [(n, r)]; refused := refused k; crashed := false |})
                | SendingReload e =>
                    Some (set_caller m Listening (served m) c
                      {| calls := calls k; pending := None; got := got k ++ [(n, Some e)]; refused := refused k; crashed := false |})
                | _ => None
                end
            | None =>
                match calls k with
                | [] => None
                | b :: rest =>
                    match srv m with
                    | Listening =>                     (* s.updateChan <- ctx *)
                        Some (set_caller m Updating (served m) c
                          {| calls := rest; pending := Some (served m); got := got k; refused := refused k; crashed := false |})
                    | Closed =>                        (* send on a closed channel *)
                        Some (set_caller m Closed (served m) c
                          {| calls := rest; pending := None; got := got k; refused := refused k; crashed := true |})
                    | s =>
                        if b then None
                        else Some (set_caller m s (served m) c
                          {| calls := rest; pending := None; got := got k; refused := S (refused k); crashed := false |})
                    end
                end
            end
        end
    end.

  (** The system without the context being cancelled: [None] is the server goroutine. *)
  Definition ms_run_step (m : mapserver) (a : option nat) : option mapserver :=
    ms_step m (match a with None => ActServer | Some c => ActCaller c end).

  Definition ms_start (progs : list (list bool)) : mapserver :=
    {| srv := Listening; served := 0;
       callers := map (fun p => {| calls := p; pending := None; got := []; refused := 0; crashed := false |}) progs |}.
End UpdateLoop.

(** ** stall_resume.go:107 WithStallStages. A stage loops through its hooks (stage.go:411-487): onBeforeData, receiving,
    onReceivedData, processing, onProcessed, sending. *)
Inductive stage_pc : Type :=
| PEval                                                (* evaluateAt stages: about to lock stallMu (line 138) *)
| PEvalHold                                            (* holding stallMu, calling shouldStallPipeline *)
| PGate                                                (* stalled stages: about to lock stallMu (line 181) *)
| PGateHold                                            (* about to unlock it again (line 184) *)
| PRecv                                                (* waiting for data *)
| PJoin                                                (* stalled stages: about to lock workingStagesWgMu (line 196) *)
| PJoinHold                                            (* about to Add(1) and unlock it *)
| PProcess                                             (* processing *)
| PSend                                                (* processed; sending *)
| PDone.                                               (* out of the loop *)
Inductive releaser_pc : Type :=                        (* the goroutine of lines 149-168 *)
| LWant                                                (* about to lock workingStagesWgMu *)
| LWait                                                (* waiting for the group *)
| LRun                                                 (* running whenStalled *)
| LUnstall                                             (* about to unlock stallMu *)
| LUngroup.                                            (* about to unlock workingStagesWgMu *)
Record stage_st : Type := { evaluates : bool; stalls : bool; spc : stage_pc }.
Record stall : Type := {
  stall_mu : bool; group_mu : bool; group : nat;
  stages : list stage_st; releasers : list releaser_pc;
  runs : nat }.                                        (* how often whenStalled was run to its end *)

Inductive stall_act : Type :=
| ActStage (s : nat) (decide : bool)                   (* stage s goes on; [decide] is what shouldStallPipeline returns *)
| ActData (s : nat)                                    (* data (or the end of it) arrives at stage s *)
| ActEnd (s : nat)                                     (* stage s leaves its loop: told to stop, an error, or no more data *)
| ActReleaser (r : nat).

Definition with_stage (x : stall) (s : nat) (st : stage_st) (p : stage_pc) : stall :=
  {| stall_mu := stall_mu x; group_mu := group_mu x; group := group x;
     stages := set_nth s {| evaluates := evaluates st; stalls := stalls st; spc := p |} (stages x);
     releasers := releasers x; runs := runs x |}.
Definition with_locks (x : stall) (sm gm : bool) (g : nat) : stall :=
  {| stall_mu := sm; group_mu := gm; group := g; stages := stages x; releasers := releasers x; runs := runs x |}.
Definition with_releasers (x : stall) (l : list releaser_pc) (n : nat) : stall :=
  {| stall_mu := stall_mu x; group_mu := group_mu x; group := group x; stages := stages x; releasers := l; runs := n |}.

Definition after_eval (st : stage_st) : stage_pc := if stalls st then PGate else PRecv.
Definition loop_top (st : stage_st) : stage_pc := if evaluates st then PEval else after_eval st.

Definition stall_step (x : stall) (a : stall_act) : option stall :=
  match a with
  | ActData s =>
      match nth_error (stages x) s with
      | Some st => match spc st with PRecv => Some (with_stage x s st (if stalls st then PJoin else PProcess)) | _ => None end
      | None => None
      end
  | ActEnd s =>
      match nth_error (stages x) s with
      | Some st => match spc st with PRecv | PSend => Some (with_stage x s st PDone) | _ => None end
      | None => None
      end
  | ActStage s decide =>
      match nth_error (stages x) s with
      | None => None
      | Some st =>
          match spc st with
          | PEval => if stall_mu x then None else Some (with_locks (with_stage x s st PEvalHold) true (group_mu x) (group x))
          | PEvalHold =>
              if decide
              then Some (with_releasers (with_stage x s st (after_eval st)) (releasers x ++ [LWant]) (runs x))
              else Some (with_locks (with_stage x s st (after_eval st)) false (group_mu x) (group x))
          | PGate => if stall_mu x then None else Some (with_locks (with_stage x s st PGateHold) true (group_mu x) (group x))
          | PGateHold => Some (with_locks (with_stage x s st PRecv) false (group_mu x) (group x))
          | PRecv => None
          | PJoin => if group_mu x then None else Some (with_locks (with_stage x s st PJoinHold) (stall_mu x) true (group x))
          | PJoinHold => Some (with_locks (with_stage x s st PProcess) (stall_mu x) false (S (group x)))
          | PProcess => Some (with_locks (with_stage x s st PSend) (stall_mu x) (group_mu x)
                               (if stalls st then pred (group x) else group x))
          | PSend => Some (with_stage x s st (loop_top st))
          | PDone => None
          end
      end
  | ActReleaser r =>
      match nth_error (releasers x) r with
      | None => None
      | Some p =>
          match p with
          | LWant => if group_mu x then None
                     else Some (with_locks (with_releasers x (set_nth r LWait (releasers x)) (runs x)) (stall_mu x) true (group x))
          | LWait => if group x =? 0 then Some (with_releasers x (set_nth r LRun (releasers x)) (runs x)) else None
          | LRun => Some (with_releasers x (set_nth r LUnstall (releasers x)) (S (runs x)))
          | LUnstall => Some (with_locks (with_releasers x (set_nth r LUngroup (releasers x)) (runs x)) false (group_mu x) (group x))
          | LUngroup =>
              Some (with_locks (with_releasers x (firstn r (releasers x) ++ skipn (S r) (releasers x)) (runs x))
                      (stall_mu x) false (group x))
          end
      end
  end.

Definition stall_start (kinds : list (bool * bool)) : stall :=
  {| stall_mu := false; group_mu := false; group := 0;
     stages := map (fun k => let st := {| evaluates := fst k; stalls := snd k; spc := PRecv |} in
                             {| evaluates := fst k; stalls := snd k; spc := loop_top st |}) kinds;
     releasers := []; runs := 0 |}.

(** Every stage waits for data or has ended, and nothing is stalled. *)
Definition resting (x : stall) : Prop :=
  releasers x = [] /\ forall s st, nth_error (stages x) s = Some st -> spc st = PRecv \/ spc st = PDone.

(** What the stages and the releasing goroutines do by themselves, without new data. *)
Definition stall_internal (x : stall) (a : stall_act) : option stall :=
  match a with ActStage _ _ | ActReleaser _ => stall_step x a | _ => None end.
