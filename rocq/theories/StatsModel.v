(** Model of the statistics of the ingestion: the counters of /repo/pkg/statistics/stats.go as /repo/cmd/ingest/toChainWorker.go:66 parseLine and the sink of
    /repo/cmd/ingest/processor.go:273 count, the stages that run after /repo/pkg/pipeline/join.go:12 JoinPipelinesRaw, and what /repo/cmd/ingest/main.go:218 printStats
    loads. An addition to a counter is atomic; counters have no end (int64 in the code). The ticker, the numbers of files, TotalRows (NamesModel.v) and the
    format of the line are not modelled. The parsing itself is in CsvModel.v. No proofs here. *)
From Verif Require Import Base UtilModel BatchModel CsvModel.

Inductive counter := Rows | Certs | Bytes | Uncached | Expired.
Definition counter_eqb (a b : counter) : bool :=
  match a, b with Rows, Rows | Certs, Certs | Bytes, Bytes | Uncached, Uncached | Expired, Expired => true | _, _ => false end.
Definition addition : Type := counter * nat.
(** The value of a counter after additions *)
Fixpoint total (c : counter) (l : list addition) : nat :=
  match l with [] => 0 | (c', n) :: l' => (if counter_eqb c c' then n else 0) + total c l' end.

Section Parse.
  Variable H : bytes -> bytes.
  Variable b64 : bytes -> option bytes.
  Variable x509 : bytes -> option cert.
  Variable not_after : cert -> Z.
  Variable now : Z.
  Variable size : nat.
  (** toChainWorker.go:119-142, as chain_loop *)
  Fixpoint chain_adds (parts : list bytes) (cache : list bytes) : list addition :=
    match parts with
    | [] => []
    | s :: parts' =>
        match b64 s with
        | None => []
        | Some r =>
            (Bytes, length r) :: (Certs, 1) ::
            (if lru_contains cache (H r) then chain_adds parts' cache
             else match x509 r with
                  | None => []
                  | Some _ => (Uncached, 1) :: chain_adds parts' (lru_add size cache (H r))
                  end)
        end
    end.
  (** :66 parseLine, as to_chain *)
  Definition line_adds (p : parsed) (cache : list bytes) : list addition :=
    match get_expiration (p_exp p) with
    | None => []
    | Some n =>
        (Rows, 1) :: (Certs, 1) ::
        (if (n * 1000000000 <? now)%Z then [(Expired, 1)]
         else match b64 (p_cert p) with
              | None => []
              | Some r =>
                  (Bytes, length r) ::
                  (if lru_contains cache (H r) then []
                   else (Uncached, 1) ::
                        match x509 r with
                        | None => []
                        | Some c => if (not_after c <? now)%Z then [] else chain_adds (split_semicolon (p_chain p)) cache
                        end)
              end)
    end.
  (** The additions of one worker, in order; it stops at the first error. *)
  Fixpoint worker_adds (rows : list parsed) (cache : list bytes) : list addition :=
    match rows with
    | [] => []
    | p :: rows' =>
        line_adds p cache ++
        match to_chain H b64 x509 not_after now size p cache with
        | (Ok _, cache') => worker_adds rows' cache'
        | _ => []
        end
    end.
End Parse.
(** The value at a moment when the workers have done so many of their additions *)
Definition value_at (c : counter) (workers : list (list addition)) (done : list nat) : nat :=
  fold_right (fun wd s => total c (firstn (snd wd) (fst wd)) + s) 0 (combine workers done).

(** ** The sink *)
Inductive stage := FileSource | Splitter | Parser | Dechainer | CertSink | DbSource | DbStage | DbSink.
Definition is_source (s : stage) : bool := match s with FileSource | DbSource => true | _ => false end.
Definition is_sink (s : stage) : bool := match s with CertSink | DbSink => true | _ => false end.
(** processor.go:209-221 *)
Definition files_stages (s w c : nat) : list stage := FileSource :: repeat Splitter s ++ repeat Parser w ++ repeat Dechainer c ++ [CertSink].
(** join.go:12 for two or more pipelines: the stages that run *)
Definition join_raw (first : list stage) (middle : list (list stage)) (last : list stage) : list stage :=
  filter (fun s => negb (is_sink s)) first ++ flat_map (filter (fun s => negb (is_source s) && negb (is_sink s))) middle ++
  filter (fun s => negb (is_source s)) last.
(** WrittenCerts and WrittenBytes: the sink adds, if it runs (processor.go:277). *)
Definition is_cert_sink (s : stage) : bool := match s with CertSink => true | _ => false end.
Definition written (stages : list stage) (sent : list out_row) : nat * nat :=
  if existsb is_cert_sink stages then (length sent, fold_right (fun (r : out_row) s => length (raw (fst (fst (fst r)))) + s) 0 sent) else (0, 0).

(** ** printStats loads ReadRows, ReadCerts, UncachedCerts and ExpiredCerts one after the other (main.go:222-231). safeDivide in whole numbers *)
Definition percent (n d : nat) : nat := if d =? 0 then 0 else n * 100 / d.
Definition printed (workers : list (list addition)) (m1 m2 m3 m4 : list nat) : nat * nat :=
  let rows := value_at Rows workers m1 in
  let certs := value_at Certs workers m2 in
  let fresh := value_at Uncached workers m3 in
  let old := value_at Expired workers m4 in
  (percent fresh certs, percent old rows).
