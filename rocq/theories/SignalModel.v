(** Model of an interruption of the ingest command: /repo/cmd/ingest/main.go:59 mainFunction with the goroutine of startIngestSignalHandler (:284-346), the
    journal that both use (/repo/cmd/ingest/journal/journal.go:143 CommitProgress, :190 PendingFiles, :306 Close, :375 registerShutdownHook), the shutdown functions
    (/repo/pkg/util/atexit.go) and runIngest (/repo/cmd/ingest/run.go:66) with ingestFilesInBatches (:185), for the strategies that ingest files.
    A state is one of the process; two goroutines take steps, and the operating system sends signals. The state begins after signal.Notify (main.go:140). What
    BeforeBatch, RunBatch, Coalesce and UpdateSMT do is one step each that succeeds or not, and so is every write of the journal. The mutex of the journal is a
    field: a write takes it in one step and changes the file and gives it back in another one. stopProfiles and createDiagnostics are a step each. Left out: the
    statistics goroutine, the estimation of the numbers of certificates (a step that may fail), a signal before signal.Notify, the coalescing of equal pending
    signals by the Go runtime, and a directory that cannot be synced after the rename (journal.go:368). No proofs here. *)
From Verif Require Import Base UtilModel JournalModel SysModel.

Inductive sig : Type := SigInt | SigTerm | SigUsr1.
(** main.go:317 *)
Definition is_term (s : sig) : bool := match s with SigUsr1 => false | _ => true end.
(** main.go:348 signalExitCode *)
Definition sig_code (s : sig) : nat := match s with SigTerm => 143 | _ => 130 end.
(** How a process ends by the default action of a signal (the number as shells report it). *)
Definition kill_code (s : sig) : nat := match s with SigInt => 130 | SigTerm => 143 | SigUsr1 => 138 end.

Inductive ierr : Type := ECanceled | EOther.
(** The handler, main.go:311-344. *)
Inductive hand : Type :=
| HWait                                                (* :314 range signals *)
| HTook (s : sig)
| HProfiles (s : sig)                                  (* :326 *)
| HDiag (s : sig)                                      (* :331 *)
| HStore                                               (* :340 *)
| HCancel                                              (* :341 *)
| HExit (s : sig)                                      (* in util.Exit, before the hook *)
| HClosing (s : sig)                                   (* in Close, with the mutex *)
| HEnd (s : sig).                                      (* before os.Exit *)
(** The main goroutine. *)
Inductive place : Type := PRun (* the deferred Close of runIngest, run.go:83 *) | PDefer (* the deferred ShutdownFunction, main.go:62 *) | PExit (* util.Exit(1), main.go:55 *).
Inductive mpc : Type :=
| MOpen                                                (* NewJournal up to its write *)
| MHook                                                (* registerShutdownHook *)
| MStart                                               (* run.go:194 *)
| MList                                                (* PendingFiles *)
| MLoop (size : nat) (rest : list bytes)               (* the check before a batch *)
| MWork (n : nat) (b : list bytes) (size : nat) (rest : list bytes)     (* n external calls left *)
| MCommit (b : list bytes) (size : nat) (rest : list bytes)
| MWrite (b : list bytes) (size : nat) (rest : list bytes)              (* in CommitProgress, with the mutex *)
| MClose (p : place) (r : option ierr)                 (* before Close *)
| MClosing (p : place) (r : option ierr)               (* in Close, with the mutex *)
| MStop (r : option ierr)                              (* the deferred signal.Stop, main.go:141 *)
| MLeave (r : option ierr)                             (* mainFunction has returned *)
| MBye.                                                (* before os.Exit(1) *)

Record proc : Type := mk_proc {
  pend : option sig;                                   (* the buffer of the channel signals *)
  hd : hand;
  asked : bool;                                        (* terminationRequested *)
  inter : bool;                                        (* interrupted *)
  canc : bool;                                         (* the context is cancelled *)
  mn : mpc;
  jr : journal;
  jclosed : bool;
  hook : bool;                                         (* the hook is registered *)
  locked : bool;                                       (* the mutex of the journal *)
  heard : bool;                                        (* signals go to the channel *)
  gone : option nat;                                   (* the process has ended with this code *)
  (* for the statements only: *)
  sent : list sig;                                     (* signals sent while they went to the channel *)
  took : list sig;                                     (* signals the handler received *)
  todo : list bytes;                                   (* what PendingFiles returned *)
  begun : nat;                                         (* batches that began *)
  worked : list bytes;                                 (* files of batches for which all external calls succeeded *)
  acked : list bytes }.                                (* files of batches whose CommitProgress succeeded *)

Definition with_hand (h : hand) (s : proc) : proc :=
  mk_proc (pend s) h (asked s) (inter s) (canc s) (mn s) (jr s) (jclosed s) (hook s) (locked s) (heard s) (gone s) (sent s) (took s) (todo s) (begun s) (worked s) (acked s).
Definition with_main (m : mpc) (s : proc) : proc :=
  mk_proc (pend s) (hd s) (asked s) (inter s) (canc s) m (jr s) (jclosed s) (hook s) (locked s) (heard s) (gone s) (sent s) (took s) (todo s) (begun s) (worked s) (acked s).
Definition with_journal (j : journal) (cl lk : bool) (s : proc) : proc :=
  mk_proc (pend s) (hd s) (asked s) (inter s) (canc s) (mn s) j cl (hook s) lk (heard s) (gone s) (sent s) (took s) (todo s) (begun s) (worked s) (acked s).
Definition with_end (code : nat) (s : proc) : proc :=
  mk_proc (pend s) (hd s) (asked s) (inter s) (canc s) (mn s) (jr s) (jclosed s) (hook s) (locked s) (heard s) (Some code) (sent s) (took s) (todo s) (begun s) (worked s) (acked s).
Definition with_ghosts (t : list bytes) (n : nat) (w a : list bytes) (s : proc) : proc :=
  mk_proc (pend s) (hd s) (asked s) (inter s) (canc s) (mn s) (jr s) (jclosed s) (hook s) (locked s) (heard s) (gone s) (sent s) (took s) t n w a.
Definition lock (s : proc) : proc := with_journal (jr s) (jclosed s) true s.

(** A signal arrives: into the channel if there is room (the Go runtime does not wait), or the default action after signal.Stop. *)
Definition deliver (g : sig) (s : proc) : proc :=
  if heard s
  then mk_proc (match pend s with None => Some g | Some p => Some p end) (hd s) (asked s) (inter s) (canc s) (mn s) (jr s) (jclosed s) (hook s) (locked s) (heard s)
         (gone s) (sent s ++ [g]) (took s) (todo s) (begun s) (worked s) (acked s)
  else with_end (kill_code g) s.

(** journal.go:306 Close, with the mutex: [ok] tells if the write succeeds. *)
Definition close_write (ok : bool) (s : proc) : proc := let (j, r) := write ok (jr s) in with_journal j (jclosed s || r) false s.

(** One step of the handler. [None]: it has to wait. *)
Definition hand_step (ok : bool) (s : proc) : option proc :=
  match hd s with
  | HWait => match pend s with
             | None => None
             | Some g => Some (mk_proc None (HTook g) (asked s) (inter s) (canc s) (mn s) (jr s) (jclosed s) (hook s) (locked s) (heard s) (gone s)
                                 (sent s) (took s ++ [g]) (todo s) (begun s) (worked s) (acked s))
             end
  | HTook g =>
      if is_term g then
        if asked s then Some (with_hand (HExit g) s)
        else Some (mk_proc (pend s) (HProfiles g) true (inter s) (canc s) (mn s) (jr s) (jclosed s) (hook s) (locked s) (heard s) (gone s)
                     (sent s) (took s) (todo s) (begun s) (worked s) (acked s))
      else Some (with_hand (HDiag g) s)
  | HProfiles g => Some (with_hand (HDiag g) s)
  | HDiag g => Some (with_hand (if is_term g then HStore else HWait) s)
  | HStore => Some (mk_proc (pend s) HCancel (asked s) true (canc s) (mn s) (jr s) (jclosed s) (hook s) (locked s) (heard s) (gone s)
                      (sent s) (took s) (todo s) (begun s) (worked s) (acked s))
  | HCancel => Some (mk_proc (pend s) HWait (asked s) (inter s) true (mn s) (jr s) (jclosed s) (hook s) (locked s) (heard s) (gone s)
                       (sent s) (took s) (todo s) (begun s) (worked s) (acked s))
  | HExit g => if negb (hook s) then Some (with_hand (HEnd g) s)
               else if locked s then None
               else if jclosed s then Some (with_hand (HEnd g) s) else Some (with_hand (HClosing g) (lock s))
  | HClosing g => Some (with_hand (HEnd g) (close_write ok s))
  | HEnd g => Some (with_end (sig_code g) s)
  end.

Section Main.
  Variables (key : bytes) (listed : list bytes) (batch : Z) (co sm : bool).
  (** the external calls of a batch: BeforeBatch, RunBatch and, as configured, Coalesce and UpdateSMT *)
  Definition calls : nat := 2 + (if co then 1 else 0) + (if sm then 1 else 0).
  (** run.go:226 *)
  Definition batch_of (files : list bytes) : nat := if (batch <=? 0)%Z then length files else Nat.min (Z.to_nat batch) (length files).
  Definition after_close (p : place) (r : option ierr) : mpc := match p with PRun => MStop r | PDefer => MLeave r | PExit => MBye end.
  (** an error of an external call is the one of the context only if this is cancelled *)
  Definition may_fail (e : ierr) (s : proc) : bool := match e with ECanceled => canc s | EOther => true end.

  (** One step of the main goroutine; [ok] and [e]: how the external call or the write ends. *)
  Definition main_step (ok : bool) (e : ierr) (s : proc) : option proc :=
    match mn s with
    | MOpen => match open_journal ok (disk (jr s)) with
               | None => Some (with_main (MStop (Some EOther)) s)
               | Some (j, r) => Some (with_main (if r then MHook else MStop (Some EOther)) (with_journal j (jclosed s) (locked s) s))
               end
    | MHook => Some (mk_proc (pend s) (hd s) (asked s) (inter s) (canc s) MStart (jr s) (jclosed s) true (locked s) (heard s) (gone s)
                       (sent s) (took s) (todo s) (begun s) (worked s) (acked s))
    | MStart => Some (with_main (if canc s then MClose PRun (Some ECanceled) else MList) s)
    | MList =>
        if locked s then None
        else if jclosed s then Some (with_main (MClose PRun (Some EOther)) s)
        else if ok then
          match pending_files key listed (j_completed (last_job (mem (jr s)))) with
          | None => Some (with_main (MClose PRun (Some EOther)) s)
          | Some fs => Some (with_main (MLoop (batch_of fs) fs) (with_ghosts fs (begun s) (worked s) (acked s) s))
          end
        else if may_fail e s then Some (with_main (MClose PRun (Some e)) s) else None
    | MLoop size [] => Some (with_main (MClose PRun None) s)
    | MLoop size rest =>
        if canc s then Some (with_main (MClose PRun (Some ECanceled)) s)
        else Some (with_main (MWork calls (firstn size rest) size (skipn size rest)) (with_ghosts (todo s) (S (begun s)) (worked s) (acked s) s))
    | MWork n b size rest =>
        if ok then
          match n with
          | S (S n') => Some (with_main (MWork (S n') b size rest) s)
          | _ => Some (with_main (MCommit b size rest) (with_ghosts (todo s) (begun s) (worked s ++ b) (acked s) s))
          end
        else if may_fail e s then Some (with_main (MClose PRun (Some e)) s) else None
    | MCommit b size rest =>
        if locked s then None
        else if jclosed s then Some (with_main (MClose PRun (Some EOther)) s)
        else Some (with_main (MWrite b size rest) (lock s))
    | MWrite b size rest =>
        let (j, r) := commit_progress ok key b co sm (jr s) in
        if r then Some (with_main (MLoop size rest) (with_ghosts (todo s) (begun s) (worked s) (acked s ++ b) (with_journal j (jclosed s) false s)))
        else Some (with_main (MClose PRun (Some EOther)) (with_journal j (jclosed s) false s))
    | MClose p r =>
        if match p with PRun => false | _ => negb (hook s) end then Some (with_main (after_close p r) s)
        else if locked s then None
        else if jclosed s then Some (with_main (after_close p r) s) else Some (with_main (MClosing p r) (lock s))
    | MClosing p r => Some (with_main (after_close p r) (close_write ok s))
    | MStop r => Some (mk_proc (pend s) (hd s) (asked s) (inter s) (canc s) (MClose PDefer r) (jr s) (jclosed s) (hook s) (locked s) false (gone s)
                         (sent s) (took s) (todo s) (begun s) (worked s) (acked s))
    | MLeave None => Some (with_end 0 s)
    | MLeave (Some e) => Some (with_main (MClose PExit (Some e)) s)
    | MBye => Some (with_end 1 s)
    end.

  Inductive act : Type := ASend (g : sig) | AHand (ok : bool) | AMain (ok : bool) (e : ierr).
  Definition proc_step (s : proc) (a : act) : option proc :=
    match gone s with
    | Some _ => None
    | None => match a with ASend g => Some (deliver g s) | AHand ok => hand_step ok s | AMain ok e => main_step ok e s end
    end.
End Main.
(** The process after signal.Notify, with the file [d] of the journal. *)
Definition proc_start (d : list disk_job) : proc :=
  mk_proc None HWait false false false MOpen (mk_journal [] d) false false false true None [] [] [] 0 [] [].
