(** Model of the estimate of rows at the begin of an ingestion, /repo/cmd/ingest/run.go:185 ingestFilesInBatches (the first loop), over the file
    name helpers of ListModel and the run of JournalModel. The command always passes statistics (cmd/ingest/main.go), so the loop is executed. *)
From Verif Require Import Base UtilModel JournalModel ListModel.

(** run.go:206 the total is an atomic.Int64; a name that is refused ends the run *)
Fixpoint total_rows (acc : Z) (files : list bytes) : option Z :=
  match files with
  | [] => Some acc
  | f :: fs =>
      match estimate f with
      | None => None
      | Some n => total_rows (int64_wrap (acc + int64_wrap (Z.of_N n))) fs
      end
  end.
Section Run.
  Variable ok : nat -> bool.
  Variable key : bytes.
  (** run_ingest of JournalModel with the estimate before the batches *)
  Definition run_counted (s : strategy) (go : nat -> bool) (batch_size : Z) (files : list bytes) (w : world) : world * bool :=
    let (w1, r) :=
      if st_ingest s then
        match pending_files key files (j_completed (last_job (mem (w_journal w)))) with
        | None => (w, false)
        | Some todo =>
            match total_rows 0 todo with
            | None => (w, false)
            | Some _ => ingest_in_batches go (run_batch ok key s) batch_size todo w
            end
        end
      else run_no_ingest ok key s w in
    (mk_world (fst (write (ok (length (w_trace w1))) (w_journal w1))) (w_trace w1), r).
End Run.
