(** Model of how the stages of one ingestion are wired: /repo/cmd/ingest/processor.go:42 NewProcessor, :167 createFilesToCertsPipeline, :328 getNewLinkFunction,
    /repo/pkg/mapserver/updater/manager.go:135 createPipeline, /repo/pkg/pipeline/join.go:12 JoinPipelinesRaw, pipeline.go:134 Resume (up to resuming the stages),
    stage.go:118 LinkStagesAt, :139 LinkStagesFanOut, :182 LinkStagesCrissCross, :290 prepareStage, source.go:160 Prepare, sink.go:50 PrepareSink.
    Only the wiring: which channel is in which field of which stage, which goroutine reads and closes which channel. What goes over the channels is in
    PipeModel, CrissModel and JoinModel. A channel is named by the place of the code that makes it: each of them is executed once for each loop index, and
    Resume once for each Processor (main.go:160). A stage is named by its role and index instead of its address; a type assertion on a stage
    (pipeline.go:112) looks at the role. [None] as a result is a panic. No proofs here. *)
From Verif Require Import Base.

Inductive sid : Type :=
| FSrc | Split (i : nat) | Parse (i : nat) | Dechain (i : nat) | FSink                                  (* processor.go:174, 191, 197, 203, 208 *)
| DSrc | Batcher (i : nat) | Extractor (i : nat)                                                        (* manager.go:137, 143, 152 *)
| CertCsv (i : nat) | CertIns (i : nat) | CertRem (i : nat)                                             (* manager.go:161, 169, 177 *)
| DomBatcher (i : nat) | DomCsv (i : nat) | DomIns (i : nat) | DomRem (i : nat).                        (* manager.go:185, 193, 201, 210 *)
Definition sid_dec : forall a b : sid, {a = b} + {a <> b}. Proof. decide equality; apply Nat.eq_dec. Defined.
Definition is_source (s : sid) : bool := match s with FSrc | DSrc => true | _ => false end.
Definition is_sink (s : sid) : bool := match s with FSink | CertRem _ | DomRem _ => true | _ => false end.

Inductive chan : Type :=
| CIn (s : sid) (i : nat) | CErr (s : sid)             (* stage.go:298, 292 *)
| CTop (s : sid)                                       (* source.go:164 *)
| CDrain (s : sid) | CDrainErr (s : sid)               (* sink.go:57, 58 *)
| CShared (k : nat)                                    (* stage.go:200, of the k-th call of LinkStagesCrissCross *)
| CAgg (k : nat)                                       (* stage.go:240 *)
| CBack (s : sid)                                      (* stage.go:244 *)
| CNewErr (i : nat) | CNewData (i : nat).              (* processor.go:363, 394 *)
Definition chan_dec : forall a b : chan, {a = b} + {a <> b}. Proof. decide equality; try apply Nat.eq_dec; apply sid_dec. Defined.

(** closeOutChannel of a stage: the default (stage.go:109, processor.go:409), or the one shared by [n] stages (stage.go:226) *)
Inductive closer : Type := CloseOwn | CloseShared (k n : nat).
(** The goroutines started before the stages are resumed. *)
Inductive gor : Type :=
| GPump (s : sid)                                      (* source.go:171: until ErrCh is closed; closes TopErrCh *)
| GDrain (out err : chan)                              (* sink.go:59: until [out] is closed; closes [err] *)
| GDist (k : nat) (prevs : list sid)                   (* stage.go:246: reads CAgg k; sends to NextErrChs[0] of [prevs], and closes them *)
| GCol (k : nat) (s : sid)                             (* stage.go:268: reads ErrCh of [s], sends to CAgg k *)
| GAggClose (k : nat) (nexts : list sid)               (* stage.go:276: closes CAgg k when the ErrCh of all [nexts] are closed *)
| GErr (from : option chan) (to : list chan)           (* processor.go:373: reads [from], sends to all [to] *)
| GErrClose (from : list (option chan)) (to : list chan)      (* processor.go:381: when all [from] are closed, closes all [to] *)
| GFwd (from : chan) (to : list (option chan))         (* processor.go:416: reads [from], sends to two of [to] *)
| GFwdClose (from : list chan) (to : list (option chan)).     (* processor.go:449 *)

Record net : Type := mk_net {
  inc : sid -> list (option chan);                     (* IncomingChs *)
  out : sid -> list (option chan);                     (* OutgoingChs *)
  nerr : sid -> list (option chan);                    (* NextErrChs *)
  err : sid -> option chan;                            (* ErrCh *)
  close_of : sid -> closer;
  gos : list gor }.

Definition upd {A} (f : sid -> A) (s : sid) (x : A) : sid -> A := fun t => if sid_dec t s then x else f t.
Definition set_inc (n : net) s x := mk_net (upd (inc n) s x) (out n) (nerr n) (err n) (close_of n) (gos n).
Definition set_out (n : net) s x := mk_net (inc n) (upd (out n) s x) (nerr n) (err n) (close_of n) (gos n).
Definition set_nerr (n : net) s x := mk_net (inc n) (out n) (upd (nerr n) s x) (err n) (close_of n) (gos n).
Definition set_err (n : net) s x := mk_net (inc n) (out n) (nerr n) (upd (err n) s x) (close_of n) (gos n).
Definition set_close (n : net) s x := mk_net (inc n) (out n) (nerr n) (err n) (upd (close_of n) s x) (gos n).
Definition spawn (n : net) g := mk_net (inc n) (out n) (nerr n) (err n) (close_of n) (gos n ++ [g]).

(** NewStage (stage.go:90) with the options of the stages: [w] is the number of database writers. manager.go:86, certsWorker.go:100, domainWorker.go:46 *)
Definition new_inc (w : nat) (s : sid) : list (option chan) := match s with DomBatcher _ => repeat None w | _ => [None] end.
Definition new_out (w : nat) (s : sid) : list (option chan) := match s with DSrc => repeat None (2 * w) | Extractor _ => repeat None w | _ => [None] end.
Definition new_net (w : nat) : net := mk_net (new_inc w) (new_out w) (fun _ => []) (fun _ => None) (fun _ => CloseOwn) [].

(** stage.go:290 *)
Definition prepare_stage (n : net) (s : sid) : net :=
  let n1 := set_err n s (Some (CErr s)) in
  let n2 := set_inc n1 s (map (fun i => Some (CIn s i)) (seq 0 (length (inc n s)))) in
  set_nerr n2 s (repeat None (length (out n s))).
(** sink.go:50 *)
Definition prepare_sink (n : net) (s : sid) : net := spawn (set_nerr (set_out n s [Some (CDrain s)]) s [Some (CDrainErr s)]) (GDrain (CDrain s) (CDrainErr s)).
(** stage.go:314, source.go:160, sink.go:70 *)
Definition prepare (n : net) (s : sid) : net :=
  let n1 := prepare_stage n s in
  if is_source s then spawn n1 (GPump s) else if is_sink s then prepare_sink n1 s else n1.

Definition bind {A B} (x : option A) (f : A -> option B) : option B := match x with Some a => f a | None => None end.
Definition fold_opt {A B} (f : A -> B -> option A) (l : list B) (a : option A) : option A := fold_left (fun x b => bind x (fun y => f y b)) l a.

(** stage.go:118 *)
Definition link_at (n : net) (q : sid * nat * sid * nat) : option net :=
  let '(p, o, t, i) := q in
  match nth_error (inc n t) i, nth_error (out n p) o, nth_error (nerr n p) o with
  | Some c, Some _, Some _ => Some (set_nerr (set_out n p (set_nth o c (out n p))) p (set_nth o (err n t) (nerr n p)))
  | _, _, _ => None
  end.
(** stage.go:139 *)
Definition fan_out (n : net) (p : sid) (ts : list sid) : option net :=
  if length (out n p) =? length ts then fold_opt link_at (map (fun it => (p, fst it, snd it, 0)) (combine (seq 0 (length ts)) ts)) (Some n) else None.
(** stage.go:182 *)
Definition criss (k : nat) (n : net) (ps ts : list sid) : option net :=
  if forallb (fun p => length (out n p) =? 1) ps && forallb (fun t => length (inc n t) =? 1) ts then
    let n1 := fold_left (fun m p => set_out m p (set_nth 0 (Some (CShared k)) (out m p))) ps n in
    let n2 := fold_left (fun m t => set_inc m t (set_nth 0 (Some (CShared k)) (inc m t))) ts n1 in
    let n3 := fold_left (fun m p => set_close m p (CloseShared k (length ps))) ps n2 in
    let n4 := fold_left (fun m p => set_nerr m p (set_nth 0 (Some (CBack p)) (nerr m p))) ps n3 in
    let n5 := spawn n4 (GDist k ps) in
    let n6 := fold_left (fun m t => spawn m (GCol k t)) ts n5 in
    Some (spawn n6 (GAggClose k ts))
  else None.

Section Processor.
  Variable S W C N : nat.                              (* NumFileReaders, NumToChain, NumToCerts, NumDBWriters *)
  Definition each (f : nat -> sid) (k : nat) : list sid := map f (seq 0 k).

  (** processor.go:210 *)
  Definition file_stages : list sid := [FSrc] ++ each Split S ++ each Parse W ++ each Dechain C ++ [FSink].
  (** manager.go:217 *)
  Definition db_stages : list sid :=
    [DSrc] ++ each Batcher N ++ each Extractor N ++ each CertCsv N ++ each CertIns N ++ each CertRem N ++
    each DomBatcher N ++ each DomCsv N ++ each DomIns N ++ each DomRem N.
  (** pipeline.go:171: check; the source and the sink, the first ones *)
  Definition check (l : list sid) : option (sid * sid) := bind (find is_source l) (fun a => bind (find is_sink l) (fun b => Some (a, b))).

  (** pipeline.go:112: StageAtIndex with the type of the stages b, c, d *)
  Definition as_split (s : sid) : bool := match s with Split _ => true | _ => false end.
  Definition as_parse (s : sid) : bool := match s with Parse _ => true | _ => false end.
  Definition as_dechain (s : sid) : bool := match s with Dechain _ => true | _ => false end.
  Definition stage_at (is : sid -> bool) (l : list sid) (i : nat) : option sid := bind (nth_error l i) (fun s => if is s then Some s else None).
  Fixpoint all_some {A} (l : list (option A)) : option (list A) :=
    match l with [] => Some [] | x :: r => bind x (fun a => bind (all_some r) (fun q => Some (a :: q))) end.
  Definition stages_from (is : sid -> bool) (l : list sid) (base k : nat) : option (list sid) := all_some (map (fun i => stage_at is l (base + i)) (seq 0 k)).
  Definition source_stage (l : list sid) : option sid := bind (nth_error l 0) (fun s => match s with FSrc => Some s | _ => None end).
  Definition sink_stage (l : list sid) : option sid := bind (nth_error l (length l - 1)) (fun s => match s with FSink => Some s | _ => None end).

  (** processor.go:224 *)
  Definition link_files (n : net) : option net :=
    let l := file_stages in
    bind (source_stage l) (fun a =>
    bind (stages_from as_split l 1 S) (fun b =>
    bind (stages_from as_parse l (1 + S) W) (fun c =>
    bind (stages_from as_dechain l (1 + S + W) C) (fun d =>
    bind (sink_stage l) (fun e =>
    bind (criss 0 n [a] b) (fun n =>
    bind (criss 1 n b c) (fun n =>
    bind (criss 2 n c d) (fun n => criss 3 n d [e])))))))).

  (** manager.go:235: the loops one after the other *)
  Definition source_links : list (sid * nat * sid * nat) :=
    map (fun i => (DSrc, i, Batcher i, 0)) (seq 0 N) ++ map (fun i => (DSrc, i + N, Extractor i, 0)) (seq 0 N).
  Definition domain_links : list (sid * nat * sid * nat) :=
    flat_map (fun i => map (fun j => (Extractor i, j, DomBatcher j, i)) (seq 0 N)) (seq 0 N).
  Definition fan_each (f g : nat -> sid) (n : option net) : option net := fold_opt (fun m i => fan_out m (f i) [g i]) (seq 0 N) n.
  Definition link_db (n : net) : option net :=
    let n := fold_opt link_at source_links (Some n) in
    let n := fan_each Batcher CertCsv n in
    let n := fan_each CertCsv CertIns n in
    let n := fan_each CertIns CertRem n in
    let n := fold_opt link_at domain_links n in
    let n := fan_each DomBatcher DomCsv n in
    let n := fan_each DomCsv DomIns n in
    fan_each DomIns DomRem n.

  (** processor.go:332 *)
  Definition new_link (n : net) : option net :=
    bind (link_files n) (fun n =>
    bind (link_db n) (fun n =>
    let to_certs := filter as_dechain file_stages in
    if (length to_certs =? C) && (length (out n DSrc) =? 2 * N) then
      let errs := map CNewErr (seq 0 C) in
      let chans := map CNewData (seq 0 C) in
      let n := fold_left (fun m ip => set_nerr m (snd ip) (set_nth 0 (Some (CNewErr (fst ip))) (nerr m (snd ip)))) (combine (seq 0 C) to_certs) n in
      let n := fold_left (fun m c => spawn m (GErr c errs)) (nerr n DSrc) n in
      let n := spawn n (GErrClose (nerr n DSrc) errs) in
      let n := fold_left (fun m ip => set_close (set_out m (snd ip) (set_nth 0 (Some (CNewData (fst ip))) (out m (snd ip)))) (snd ip) CloseOwn) (combine (seq 0 C) to_certs) n in
      let n := fold_left (fun m c => spawn m (GFwd c (out n DSrc))) chans n in
      Some (spawn n (GFwdClose chans (out n DSrc)))
    else None)).

  (** join.go:12, two pipelines *)
  Definition joined : list sid := filter (fun s => negb (is_sink s)) file_stages ++ filter (fun s => negb (is_source s)) db_stages.
  Definition skipped : list sid := filter is_sink file_stages ++ filter is_source db_stages.
  Definition prepare_joined (n : net) : net := fold_left prepare_stage skipped (fold_left prepare joined n).

  Inductive made : Type := Refused | Panicked | Wired (n : net).
  (** processor.go:64, 81: the errors of NewManager and createFilesToCertsPipeline; then pipeline.go:134 *)
  Definition processor_resume : made :=
    match check db_stages with
    | None => Refused
    | Some _ =>
        match check file_stages with
        | None => Refused
        | Some _ => match new_link (prepare_joined (new_net N)) with None => Panicked | Some n => Wired n end
        end
    end.
  (** pipeline.go:144: the channel Wait reads *)
  Definition wait_chan (n : net) : option chan :=
    match joined with s :: _ => if is_source s then Some (CTop s) else err n s | [] => None end.
End Processor.
