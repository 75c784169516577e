(** What a wiring means: who gets the outputs and the errors of whom, and which stages, channels and goroutines come to an end. No proofs here. *)
From Verif Require Import Base WireModel.

(** What is sent on [a] comes out of [b]: the same channel, or a goroutine of processor.go:416 between them. *)
Definition passes (n : net) (a b : chan) : Prop := a = b \/ exists to, In (GFwd a to) (gos n) /\ In (Some b) to.
(** Output [o] of stage [s] goes to input [i] of stage [t]. *)
Definition delivers (n : net) (s : sid) (o : nat) (t : sid) (i : nat) : Prop :=
  exists a b, nth_error (out n s) o = Some (Some a) /\ nth_error (inc n t) i = Some (Some b) /\ passes n a b.
(** The errors of stage [t] come to NextErrChs[o] of stage [s]: directly, over the goroutines of a criss-cross (stage.go:246, 268), or over one of
    processor.go:373. *)
Definition hears (n : net) (s : sid) (o : nat) (t : sid) : Prop :=
  exists a, err n t = Some a /\
  (nth_error (nerr n s) o = Some (Some a) \/
   (exists k ps, In (GCol k t) (gos n) /\ In (GDist k ps) (gos n) /\ In s ps /\ o = 0) \/
   (exists to b, In (GErr (Some a) to) (gos n) /\ In b to /\ nth_error (nerr n s) o = Some (Some b))).

Section Ends.
  Variable n : net.
  Variable live : sid -> Prop.                         (* the stages that are resumed *)
  Variable source_ends : Prop.                         (* the source has come to the end of its own input *)
  (** If no stage fails: a stage leaves processThisStage (stage.go:391) when its inputs are closed, or when it is told so by its next stages, all of whose error
      channels are closed. It then closes its outputs, waits for the error channels of its next stages and closes its own (stage.go:350). *)
  Inductive stopped : sid -> Prop :=
  | st_source s : live s -> is_source s = true -> source_ends -> stopped s
  | st_input s : live s -> is_source s = false -> inc n s <> [] -> ~ In None (inc n s) -> (forall c, In (Some c) (inc n s) -> closed c) -> stopped s
  | st_told s : live s -> nerr n s <> [] -> ~ In None (nerr n s) -> (forall c, In (Some c) (nerr n s) -> closed c) -> stopped s
  with closed : chan -> Prop :=
  | cl_own s c : stopped s -> close_of n s = CloseOwn -> In (Some c) (out n s) -> closed c
  (** stage.go:235: the last of [m] stages closes the channel *)
  | cl_shared s k m l c : In s l -> close_of n s = CloseShared k m -> In (Some c) (out n s) -> NoDup l -> length l = m ->
      (forall p, In p l -> close_of n p = CloseShared k m) -> (forall p, In p l -> stopped p) -> closed c
  | cl_err s c : stopped s -> ~ In None (nerr n s) -> (forall b, In (Some b) (nerr n s) -> closed b) -> err n s = Some c -> closed c
  | cl_top s c : In (GPump s) (gos n) -> err n s = Some c -> closed c -> closed (CTop s)
  | cl_drain a b : In (GDrain a b) (gos n) -> closed a -> closed b
  | cl_agg k ts : In (GAggClose k ts) (gos n) -> (forall t, In t ts -> err n t <> None) -> (forall t c, In t ts -> err n t = Some c -> closed c) -> closed (CAgg k)
  | cl_back k ps s c : In (GDist k ps) (gos n) -> closed (CAgg k) -> In s ps -> nth_error (nerr n s) 0 = Some (Some c) -> closed c
  | cl_newerr from to c : In (GErrClose from to) (gos n) -> ~ In None from -> (forall b, In (Some b) from -> closed b) -> In c to -> closed c
  | cl_data from to c : In (GFwdClose from to) (gos n) -> (forall b, In b from -> closed b) -> In (Some c) to -> closed c.

  (** A goroutine that was started returns. *)
  Definition returns (g : gor) : Prop :=
    match g with
    | GPump s => exists c, err n s = Some c /\ closed c
    | GDrain a _ => closed a
    | GDist k _ => closed (CAgg k)
    | GCol _ t => exists c, err n t = Some c /\ closed c
    | GAggClose _ ts => forall t, In t ts -> exists c, err n t = Some c /\ closed c
    | GErr from _ => exists c, from = Some c /\ closed c
    | GErrClose from _ => forall f, In f from -> exists c, f = Some c /\ closed c
    | GFwd from _ => closed from
    | GFwdClose from _ => forall c, In c from -> closed c
    end.

  (** Who closes a channel: a stage, the last one of a group of stages, or a goroutine. *)
  Inductive agent : Type := AStage (s : sid) | AGroup (k : nat) | AGo (g : gor).
  Definition closes (a : agent) (c : chan) : Prop :=
    match a with
    | AStage s => live s /\ ((close_of n s = CloseOwn /\ In (Some c) (out n s)) \/ err n s = Some c)
    | AGroup k => exists s m, live s /\ close_of n s = CloseShared k m /\ In (Some c) (out n s)
    | AGo g => In g (gos n) /\ returns g /\
        match g with
        | GPump s => c = CTop s \/ nth_error (inc n s) 0 = Some (Some c)          (* source.go:181, 187 *)
        | GDrain _ b => c = b
        | GDist _ ps => exists s, In s ps /\ nth_error (nerr n s) 0 = Some (Some c)
        | GAggClose k _ => c = CAgg k
        | GErrClose _ to => In c to
        | GFwdClose _ to => In (Some c) to
        | _ => False
        end
    end.
End Ends.

Section Topology.
  Variable S W C N : nat.
  (** The picture of processor.go:311 and manager.go:121: output [o] of a stage goes to input [i] of another one. *)
  Definition flow (s : sid) (o : nat) (t : sid) (i : nat) : Prop :=
    match s, t with
    | FSrc, Split b => o = 0 /\ i = 0 /\ b < S
    | Split a, Parse b => o = 0 /\ i = 0 /\ a < S /\ b < W
    | Parse a, Dechain b => o = 0 /\ i = 0 /\ a < W /\ b < C
    | Dechain a, Batcher b => o = 0 /\ i = 0 /\ a < C /\ b < N
    | Dechain a, Extractor b => o = 0 /\ i = 0 /\ a < C /\ b < N
    | Batcher a, CertCsv b => o = 0 /\ i = 0 /\ a = b /\ b < N
    | CertCsv a, CertIns b => o = 0 /\ i = 0 /\ a = b /\ b < N
    | CertIns a, CertRem b => o = 0 /\ i = 0 /\ a = b /\ b < N
    | Extractor a, DomBatcher b => o = b /\ i = a /\ a < N /\ b < N
    | DomBatcher a, DomCsv b => o = 0 /\ i = 0 /\ a = b /\ b < N
    | DomCsv a, DomIns b => o = 0 /\ i = 0 /\ a = b /\ b < N
    | DomIns a, DomRem b => o = 0 /\ i = 0 /\ a = b /\ b < N
    | _, _ => False
    end.
End Topology.
