(** Model of LinkStagesCrissCross, /repo/pkg/pipeline/stage.go:182 (LinkStagesDistribute, line 164, is the case of one sender):
    N stages send to M stages over one shared channel. A sending stage is what is left of processThisStage (stage.go:391) and
    breakPipelineAndWait (stage.go:350): the outputs it has if nobody stops it, one after the other, and its own error. A receiving
    stage fails or not depending on what it received; what it does with its own outputs is left out (they are always taken, and its
    next stage gives no error). Channels are unbuffered. The loop closing the error channels (line 259) is one step. No proofs here. *)
From Verif Require Import Base SysModel PipeModel.

Inductive snd_pc : Type :=
| SWork                                                (* sending, or waiting for input: it also listens for errors *)
| SReq                                                 (* about to call closeOutChannel *)
| SClose                                               (* line 237: it was the last one, about to close *)
| SBrk                                                 (* reading NextErrChs[0] *)
| SDone.
Inductive rcv_pc : Type := RWork | RFail (e : bytes) (* sending on ErrCh *) | RDone (* ErrCh closed *).
Inductive col_pc : Type := CWait | CFwd (e : bytes) (* line 272 *) | CDone.
Inductive dist_pc : Type :=
| DRead                                                (* line 247 *)
| DSend (e : bytes) (pending : list bool)              (* line 255, one goroutine per sender *)
| DClosed.                                             (* the error channels of the senders are closed *)

Section Criss.
  Context {D : Type}.
  Record sender : Type := { spc : snd_pc; sfound : err; sleft : list D; ssent : list D }.
  Record receiver : Type := { rpc : rcv_pc; rrcvd : list D; rend : bool }.
  Record criss : Type := {
    snds : list sender;
    rcvs : list receiver;
    cols : list col_pc;
    dist : dist_pc;
    rounds : nat;                                      (* errors passed on to all senders; not in the code *)
    requests : nat;                                    (* dataChCloseRequests *)
    closes : nat;                                      (* how often the channel was closed *)
    panicked : bool }.                                 (* send on a closed channel *)

  Inductive criss_act : Type :=
  | ASend (i j : nat) | AStop (i : nat) | AReq (i : nat) | AClose (i : nat) | AHearEnd (i : nat)
  | AEnd (j : nat) | AFail (j : nat) | ACol (j : nat) | ATake (j : nat) | AGive (i : nat) | ANext | AErrClosed.

  (** The own error of sender [i]; the error of receiver [j] after some inputs, and at the end. *)
  Variable own : nat -> err.
  Variable fails : nat -> list D -> option bytes.
  Variable fails_end : nat -> list D -> option bytes.

  Definition with_snd (c : criss) (i : nat) (s : sender) : criss :=
    {| snds := set_nth i s (snds c); rcvs := rcvs c; cols := cols c; dist := dist c; rounds := rounds c; requests := requests c; closes := closes c; panicked := panicked c |}.
  Definition with_rcv (c : criss) (j : nat) (r : receiver) : criss :=
    {| snds := snds c; rcvs := set_nth j r (rcvs c); cols := cols c; dist := dist c; rounds := rounds c; requests := requests c; closes := closes c; panicked := panicked c |}.
  Definition with_col (c : criss) (j : nat) (x : col_pc) : criss :=
    {| snds := snds c; rcvs := rcvs c; cols := set_nth j x (cols c); dist := dist c; rounds := rounds c; requests := requests c; closes := closes c; panicked := panicked c |}.
  Definition with_dist (c : criss) (d : dist_pc) (k : nat) : criss :=
    {| snds := snds c; rcvs := rcvs c; cols := cols c; dist := d; rounds := k; requests := requests c; closes := closes c; panicked := panicked c |}.
  Definition with_requests (c : criss) (n : nat) : criss :=
    {| snds := snds c; rcvs := rcvs c; cols := cols c; dist := dist c; rounds := rounds c; requests := n; closes := closes c; panicked := panicked c |}.
  Definition with_close (c : criss) : criss :=
    {| snds := snds c; rcvs := rcvs c; cols := cols c; dist := dist c; rounds := rounds c; requests := requests c; closes := S (closes c); panicked := panicked c |}.
  Definition with_panic (c : criss) : criss :=
    {| snds := snds c; rcvs := rcvs c; cols := cols c; dist := dist c; rounds := rounds c; requests := requests c; closes := closes c; panicked := true |}.

  Definition at_pc (s : sender) (p : snd_pc) (e : err) : sender := {| spc := p; sfound := e; sleft := sleft s; ssent := ssent s |}.
  (** Reading an error (or nil) from NextErrChs[0]: stage.go:428, 540, 362. *)
  Definition listen (s : sender) (e : err) : option sender :=
    match spc s with
    | SWork => Some (at_pc s SReq e)
    | SBrk => Some (at_pc s SDone (coalesce (sfound s) e))
    | _ => None
    end.
  Definition got (j : nat) (r : receiver) (x : D) : receiver :=
    let h := rrcvd r ++ [x] in
    {| rpc := match fails j h with None => RWork | Some e => RFail e end; rrcvd := h; rend := false |}.
  Definition got_end (j : nat) (r : receiver) : receiver :=
    {| rpc := match fails_end j (rrcvd r) with None => RDone | Some e => RFail e end; rrcvd := rrcvd r; rend := true |}.
  Definition is_cdone (c : col_pc) : bool := match c with CDone => true | _ => false end.

  Definition criss_step (c : criss) (a : criss_act) : option criss :=
    if panicked c then None else
    match a with
    | ASend i j =>
        match nth_error (snds c) i, nth_error (rcvs c) j with
        | Some s, Some r =>
            match spc s, sleft s with
            | SWork, x :: rest =>
                if 0 <? closes c then Some (with_panic c) else
                match rpc r with
                | RWork => Some (with_rcv (with_snd c i {| spc := SWork; sfound := sfound s; sleft := rest; ssent := ssent s ++ [x] |}) j (got j r x))
                | _ => None
                end
            | _, _ => None
            end
        | _, _ => None
        end
    | AStop i =>
        match nth_error (snds c) i with
        | Some s => match spc s, sleft s with SWork, [] => Some (with_snd c i (at_pc s SReq (own i))) | _, _ => None end
        | None => None
        end
    | AReq i =>
        match nth_error (snds c) i with
        | Some s =>
            match spc s with
            | SReq => let now := S (requests c) in
                Some (with_requests (with_snd c i (at_pc s (if now =? length (snds c) then SClose else SBrk) (sfound s))) now)
            | _ => None
            end
        | None => None
        end
    | AClose i =>
        match nth_error (snds c) i with
        | Some s =>
            match spc s with
            | SClose => if 0 <? closes c then Some (with_panic c) else Some (with_close (with_snd c i (at_pc s SBrk (sfound s))))
            | _ => None
            end
        | None => None
        end
    | AHearEnd i =>
        match nth_error (snds c) i, dist c with
        | Some s, DClosed => match listen s [] with Some s' => Some (with_snd c i s') | None => None end
        | _, _ => None
        end
    | AEnd j =>
        match nth_error (rcvs c) j with
        | Some r => match rpc r with RWork => if 0 <? closes c then Some (with_rcv c j (got_end j r)) else None | _ => None end
        | None => None
        end
    | AFail j =>
        match nth_error (rcvs c) j, nth_error (cols c) j with
        | Some r, Some CWait =>
            match rpc r with
            | RFail e => Some (with_col (with_rcv c j {| rpc := RDone; rrcvd := rrcvd r; rend := rend r |}) j (CFwd e))
            | _ => None
            end
        | _, _ => None
        end
    | ACol j =>
        match nth_error (rcvs c) j, nth_error (cols c) j with
        | Some r, Some CWait => match rpc r with RDone => Some (with_col c j CDone) | _ => None end
        | _, _ => None
        end
    | ATake j =>
        match nth_error (cols c) j, dist c with
        | Some (CFwd e), DRead => Some (with_dist (with_col c j CWait) (DSend e (repeat true (length (snds c)))) (rounds c))
        | _, _ => None
        end
    | AGive i =>
        match nth_error (snds c) i, dist c with
        | Some s, DSend e pending =>
            match nth_error pending i with
            | Some true => match listen s [e] with Some s' => Some (with_dist (with_snd c i s') (DSend e (set_nth i false pending)) (rounds c)) | None => None end
            | _ => None
            end
        | _, _ => None
        end
    | ANext =>
        match dist c with
        | DSend e pending => if forallb negb pending then Some (with_dist c DRead (S (rounds c))) else None
        | _ => None
        end
    | AErrClosed =>
        match dist c with
        | DRead => if forallb is_cdone (cols c) then Some (with_dist c DClosed (rounds c)) else None
        | _ => None
        end
    end.

  Definition snd_start (items : list D) : sender := {| spc := SWork; sfound := []; sleft := items; ssent := [] |}.
  Definition rcv_start : receiver := {| rpc := RWork; rrcvd := []; rend := false |}.
  Definition criss_start (work : list (list D)) (m : nat) : criss :=
    {| snds := map snd_start work; rcvs := repeat rcv_start m; cols := repeat CWait m; dist := DRead; rounds := 0; requests := 0; closes := 0; panicked := false |}.
End Criss.
