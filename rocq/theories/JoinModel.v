(** Model of the link between the two halves of the ingestion, /repo/cmd/ingest/processor.go:328 getNewLinkFunction: C stages that produce
    certificates (chainToCertWorker) and the first stages of the database half, batchers and domain extractors, one channel for each. For every
    producing stage a goroutine takes its certificates and sends each to two of the channels (line 416, over util/channels.go:7
    SendToAllChannels). Errors of the database half go to all producing stages (line 371).
    A producing stage is what is left of processThisStage (pipeline/stage.go:391) and breakPipelineAndWait (stage.go:350): the certificates it has if nobody
    stops it, one after the other, and its own error. A stage of the database half fails or not depending on what it received; the stages after it are
    left out. Channels are unbuffered. The loops closing all channels (lines 383, 451) are one step each. No proofs here. *)
From Verif Require Import Base SysModel PipeModel.

Definition upd {A} (f : nat -> A) (i : nat) (x : A) : nat -> A := fun j => if j =? i then x else f j.

Inductive prod_pc : Type :=
| PWork                                                (* sending, or waiting for input: it also listens for errors *)
| PStop                                                (* about to close its channel *)
| PBrk                                                 (* closed; reading its error channel *)
| PDone.
Inductive work_pc : Type := WWork | WFail (e : bytes) (* sending on ErrCh *) | WDone (* ErrCh closed *).

Section Join.
  Context {D : Type}.
  (** line 416: the goroutine of a producing stage; the flags: still to be sent to the first, the second channel *)
  Inductive fwd : Type := FWait | FSend (d : D) (a b : bool) | FDone.
  (** line 373: the goroutine that reads the errors of one stage of the database half; the stages still to be told *)
  Inductive reader : Type := EWait | ESend (e : bytes) (pending : nat -> bool) | EDone.
  Record prod : Type := mk_prod { ppc : prod_pc; pfound : err; pleft : list D; psent : list D }.
  Record wstage : Type := mk_wstage { wpc : work_pc; wrcvd : list D; wend : bool }.
  Record join : Type := mk_join {
    prods : nat -> prod;
    fwds : nat -> fwd;
    wstages : nat -> wstage;
    readers : nat -> reader;
    closes : nat;                                      (* how often the data channels were closed *)
    eclosed : bool;                                    (* the error channels of the producing stages are closed *)
    panicked : bool }.

  Inductive join_act : Type :=
  | ASend (i : nat) | AStop (i : nat) | ACloseP (i : nat) | AHear (i : nat)
  | AFirst (i : nat) | ASecond (i : nat) | ANext (i : nat) | AEndF (i : nat) | AClose
  | AEnd (k : nat) | AFail (k : nat) | AGive (k i : nat) | ANextE (k : nat) | AEndE (k : nat) | ACloseE.

  Variable C K : nat.                                  (* NumToCerts, 2 * NumDBWriters *)
  (** SourceProcessFunc: the indices of the two channels (updater/manager.go:85) *)
  Variable route : D -> nat * nat.
  Variable own : nat -> err.                           (* the own error of a producing stage *)
  Variable fails : nat -> list D -> option bytes.      (* the error of a stage of the database half after some certificates *)
  Variable fails_end : nat -> list D -> option bytes.  (* and at the end *)

  Definition with_prod (c : join) (i : nat) (p : prod) : join := mk_join (upd (prods c) i p) (fwds c) (wstages c) (readers c) (closes c) (eclosed c) (panicked c).
  Definition with_fwd (c : join) (i : nat) (f : fwd) : join := mk_join (prods c) (upd (fwds c) i f) (wstages c) (readers c) (closes c) (eclosed c) (panicked c).
  Definition with_wstage (c : join) (k : nat) (w : wstage) : join := mk_join (prods c) (fwds c) (upd (wstages c) k w) (readers c) (closes c) (eclosed c) (panicked c).
  Definition with_reader (c : join) (k : nat) (r : reader) : join := mk_join (prods c) (fwds c) (wstages c) (upd (readers c) k r) (closes c) (eclosed c) (panicked c).
  Definition with_close (c : join) : join := mk_join (prods c) (fwds c) (wstages c) (readers c) (S (closes c)) (eclosed c) (panicked c).
  Definition with_eclosed (c : join) : join := mk_join (prods c) (fwds c) (wstages c) (readers c) (closes c) true (panicked c).
  Definition with_panic (c : join) : join := mk_join (prods c) (fwds c) (wstages c) (readers c) (closes c) (eclosed c) true.

  Definition at_pc (p : prod) (x : prod_pc) (e : err) : prod := mk_prod x e (pleft p) (psent p).
  (** Reading an error, or nil, from the error channel: stage.go:428, 540, 362 *)
  Definition listen (p : prod) (e : err) : option prod :=
    match ppc p with
    | PWork => Some (at_pc p PStop e)
    | PBrk => Some (at_pc p PDone (coalesce (pfound p) e))
    | _ => None
    end.
  Definition got (k : nat) (w : wstage) (d : D) : wstage :=
    let h := wrcvd w ++ [d] in mk_wstage (match fails k h with None => WWork | Some e => WFail e end) h false.
  Definition got_end (k : nat) (w : wstage) : wstage :=
    mk_wstage (match fails_end k (wrcvd w) with None => WDone | Some e => WFail e end) (wrcvd w) true.
  (** One of the two sends of line 437 to the channel [k] *)
  Definition give (c : join) (i k : nat) (d : D) (f : fwd) : option join :=
    if negb (k <? K) || (0 <? closes c) then Some (with_panic c)
    else match wpc (wstages c k) with
         | WWork => Some (with_wstage (with_fwd c i f) k (got k (wstages c k) d))
         | _ => None
         end.
  Definition all_below (n : nat) (f : nat -> bool) : bool := forallb f (seq 0 n).
  Definition f_done (f : fwd) : bool := match f with FDone => true | _ => false end.
  Definition e_done (r : reader) : bool := match r with EDone => true | _ => false end.

  Definition join_step (c : join) (a : join_act) : option join :=
    if panicked c then None else
    match a with
    (* the producing stages *)
    | ASend i =>
        let p := prods c i in
        match ppc p, pleft p, fwds c i with
        | PWork, d :: rest, FWait =>
            if i <? C then Some (with_fwd (with_prod c i (mk_prod PWork (pfound p) rest (psent p ++ [d]))) i (FSend d true true)) else None
        | _, _, _ => None
        end
    | AStop i =>
        let p := prods c i in
        match ppc p, pleft p with PWork, [] => if i <? C then Some (with_prod c i (at_pc p PStop (own i))) else None | _, _ => None end
    | ACloseP i => let p := prods c i in match ppc p with PStop => if i <? C then Some (with_prod c i (at_pc p PBrk (pfound p))) else None | _ => None end
    | AHear i => if eclosed c && (i <? C) then match listen (prods c i) [] with Some p => Some (with_prod c i p) | None => None end else None
    (* the goroutines in between *)
    | AFirst i =>
        match fwds c i with FSend d true b => if i <? C then give c i (fst (route d)) d (FSend d false b) else None | _ => None end
    | ASecond i =>
        match fwds c i with FSend d a true => if i <? C then give c i (snd (route d)) d (FSend d a false) else None | _ => None end
    | ANext i => match fwds c i with FSend d false false => if i <? C then Some (with_fwd c i FWait) else None | _ => None end
    | AEndF i =>
        match fwds c i, ppc (prods c i) with
        | FWait, (PBrk | PDone) => if i <? C then Some (with_fwd c i FDone) else None
        | _, _ => None
        end
    | AClose => if all_below C (fun i => f_done (fwds c i)) && (closes c =? 0) then Some (with_close c) else None
    (* the stages of the database half *)
    | AEnd k =>
        match wpc (wstages c k) with WWork => if (0 <? closes c) && (k <? K) then Some (with_wstage c k (got_end k (wstages c k))) else None | _ => None end
    | AFail k =>
        let w := wstages c k in
        match wpc w, readers c k with
        | WFail e, EWait => if k <? K then Some (with_reader (with_wstage c k (mk_wstage WDone (wrcvd w) (wend w))) k (ESend e (fun i => i <? C))) else None
        | _, _ => None
        end
    (* the goroutines for the errors *)
    | AGive k i =>
        match readers c k with
        | ESend e pending =>
            if pending i && (i <? C) && (k <? K) then
              match listen (prods c i) [e] with Some p => Some (with_reader (with_prod c i p) k (ESend e (upd pending i false))) | None => None end
            else None
        | _ => None
        end
    | ANextE k =>
        match readers c k with ESend e pending => if all_below C (fun i => negb (pending i)) && (k <? K) then Some (with_reader c k EWait) else None | _ => None end
    | AEndE k =>
        match readers c k, wpc (wstages c k) with EWait, WDone => if k <? K then Some (with_reader c k EDone) else None | _, _ => None end
    | ACloseE => if all_below K (fun k => e_done (readers c k)) && negb (eclosed c) then Some (with_eclosed c) else None
    end.

  Definition join_start (work : nat -> list D) : join :=
    mk_join (fun i => mk_prod PWork [] (work i) []) (fun _ => FWait) (fun _ => mk_wstage WWork [] false) (fun _ => EWait) 0 false false.
End Join.
