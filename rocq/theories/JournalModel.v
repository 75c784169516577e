(** Model of /repo/cmd/ingest/journal and of the batch loop in /repo/cmd/ingest/run.go. uint is 64 bits wide.
    Not modelled: JSON text (the encoder is taken to be injective), times, command lines, the directory key
    filepath.Base(filepath.Clean(dir)), which is an argument [key]. *)
From Verif Require Import Base UtilModel.

(** ** Intervals. journal.go:68 *)
Record interval := mk_iv { iv_s : N; iv_e : N }.
Definition wrap64 (n : N) : N := (n mod 2 ^ 64)%N.
Definition iv0 : interval := mk_iv 0 0.

(** journal.go:613 canMerge: the sums wrap around. *)
Definition can_merge (a b : interval) : bool :=
  N.leb (iv_s a) (wrap64 (iv_e b + 1)) && N.leb (iv_s b) (wrap64 (iv_e a + 1)).
(** journal.go:618 mergeIntervals *)
Definition merge_iv (a b : interval) : interval := mk_iv (N.min (iv_s a) (iv_s b)) (N.max (iv_e a) (iv_e b)).

(** slices.BinarySearchFunc (Go standard library) with the comparison of journal.go:579 and 632. *)
Fixpoint bsearch (fuel : nat) (l : list interval) (t : N) (i j : nat) : nat :=
  match fuel with
  | O => i
  | S f =>
      if i <? j then
        let h := (i + j) / 2 in
        if N.ltb (iv_s (nth h l iv0)) t then bsearch f l t (S h) j else bsearch f l t i h
      else i
  end.
Definition search (l : list interval) (t : N) : nat * bool :=
  let i := bsearch (length l) l t 0 (length l) in
  (i, (i <? length l) && N.eqb (iv_s (nth i l iv0)) t).

Definition remove_at (i : nat) (l : list interval) : list interval := firstn i l ++ skipn (S i) l.
(** journal.go:599-602 *)
Fixpoint absorb (fuel : nat) (idx : nat) (iv : interval) (l : list interval) : interval * list interval :=
  match fuel with
  | O => (iv, l)
  | S f =>
      if (idx <? length l) && can_merge iv (nth idx l iv0)
      then absorb f idx (merge_iv iv (nth idx l iv0)) (remove_at idx l)
      else (iv, l)
  end.
(** journal.go:575 appendInterval *)
Definition append_interval (l : list interval) (iv : interval) : list interval :=
  let idx := fst (search l (iv_s iv)) in
  let '(idx, iv, l) :=
    if (0 <? idx) && can_merge (nth (idx - 1) l iv0) iv
    then (idx - 1, merge_iv (nth (idx - 1) l iv0) iv, remove_at (idx - 1) l)
    else (idx, iv, l) in
  let (iv, l) := absorb (length l) idx iv l in
  firstn idx l ++ iv :: skipn idx l.

(** ** Maps from directory keys, association lists. *)
Section Assoc.
  Context {V : Type}.
  Fixpoint get_key (k : bytes) (m : list (bytes * V)) : option V :=
    match m with
    | [] => None
    | (k', v) :: m' => if beqb k k' then Some v else get_key k m'
    end.
  Fixpoint set_key (k : bytes) (v : V) (m : list (bytes * V)) : list (bytes * V) :=
    match m with
    | [] => [(k, v)]
    | (k', v') :: m' => if beqb k k' then (k, v) :: m' else (k', v') :: set_key k v m'
    end.
End Assoc.
Definition completed := list (bytes * list interval).

(** journal.go:565 addCompletedInterval *)
Definition add_completed (c : completed) (k : bytes) (iv : interval) : completed :=
  set_key k (append_interval (match get_key k c with None => [] | Some l => l end) iv) c.
(** journal.go:627 containsCompletedInterval *)
Definition contains_completed (c : completed) (k : bytes) (iv : interval) : bool :=
  match get_key k c with
  | None => false
  | Some l =>
      let (idx, found) := search l (iv_s iv) in
      if found then N.leb (iv_e iv) (iv_e (nth idx l iv0))
      else if idx =? 0 then false
      else let c := nth (idx - 1) l iv0 in N.leb (iv_s c) (iv_s iv) && N.leb (iv_e iv) (iv_e c)
  end.

(** ** Text. journal.go:680 parseIntervalString: ^(\d+)-(\d+)$, both below 2^64, start <= end. *)
Fixpoint digit_prefix (s : bytes) : bytes * bytes :=
  match s with
  | [] => ([], [])
  | c :: s' => if is_digit c then let (p, r) := digit_prefix s' in (c :: p, r) else ([], s)
  end.
Definition parse_interval (s : bytes) : option interval :=
  let (a, r) := digit_prefix s in
  match a, r with
  | _ :: _, x2d :: b =>
      match b with
      | [] => None
      | _ =>
          if forallb is_digit b && N.ltb (dec_value a) (2 ^ 64) && N.ltb (dec_value b) (2 ^ 64) && N.leb (dec_value a) (dec_value b)
          then Some (mk_iv (dec_value a) (dec_value b)) else None
      end
  | _, _ => None
  end.
(** journal.go:483 *)
Definition show_interval (iv : interval) : bytes := dec_N (iv_s iv) ++ x2d :: dec_N (iv_e iv).

(** filepath.Base for a path without trailing slash: what follows the last slash. *)
Fixpoint base_name (s : bytes) : bytes :=
  match s with
  | [] => []
  | c :: s' => if existsb (Byte.eqb x2f) s' then base_name s' else if Byte.eqb c x2f then s' else s
  end.
(** filename[:len-len(ext)] if the name ends with [ext]. *)
Fixpoint strip_suffix (ext s : bytes) : option bytes :=
  if beqb s ext then Some []
  else match s with
       | [] => None
       | c :: s' => match strip_suffix ext s' with None => None | Some r => Some (c :: r) end
       end.
(** journal.go:667 parseFileInterval. filepath.Ext is the suffix from the last dot; it is ".gz" or ".csv" exactly if the name
    ends so, as neither contains a further dot. *)
Definition parse_file (f : bytes) : option interval :=
  let b := base_name f in
  parse_interval
    (match strip_suffix [x2e; x67; x7a] b with
     | Some r => r
     | None => match strip_suffix [x2e; x63; x73; x76] b with Some r => r | None => b end
     end).

(** ** Jobs. journal.go:51 (fields that matter). *)
Record job := mk_job { j_coalesced : bool; j_smt : bool; j_ctsize : Z; j_completed : completed }.
(** On disk: intervals as strings (journal.go:487 encodeCompletedIndices). *)
Record disk_job := mk_disk { d_coalesced : bool; d_smt : bool; d_ctsize : Z; d_completed : list (bytes * list bytes) }.
Definition encode_job (j : job) : disk_job :=
  mk_disk (j_coalesced j) (j_smt j) (j_ctsize j) (map (fun kv => (fst kv, map show_interval (snd kv))) (j_completed j)).
Fixpoint all_some {A} (l : list (option A)) : option (list A) :=
  match l with
  | [] => Some []
  | None :: _ => None
  | Some x :: l' => match all_some l' with None => None | Some r => Some (x :: r) end
  end.
(** journal.go:499 decodeCompletedIndices, then 519 normalizeCompletedIndices (parse_interval already refuses start > end). *)
Definition decode_completed (m : list (bytes * list bytes)) : option completed :=
  all_some (map (fun kv => match all_some (map parse_interval (snd kv)) with None => None | Some l => Some (fst kv, l) end) m).
Definition normalize_completed (c : completed) : option completed :=
  all_some (map (fun kv => match fst kv with
                           | [] => None
                           | _ => if forallb (fun iv => N.leb (iv_s iv) (iv_e iv)) (snd kv)
                                  then Some (fst kv, fold_left append_interval (snd kv) []) else None
                           end) c).
Definition decode_job (d : disk_job) : option job :=
  match decode_completed (d_completed d) with
  | None => None
  | Some c => match normalize_completed c with
              | None => None
              | Some c' => Some (mk_job (d_coalesced d) (d_smt d) (d_ctsize d) c')
              end
  end.

(** In memory: the jobs, the last one is current; on disk: the jobs as last written (none: no file). *)
Record journal := mk_journal { mem : list job; disk : list disk_job }.
(** journal.go:335 writeLocked; [ok] is whether the file operations succeed (see the crash model for why a failure keeps the old file). *)
Definition write (ok : bool) (j : journal) : journal * bool :=
  if ok then (mk_journal (mem j) (map encode_job (mem j)), true) else (j, false).
(** journal.go:75 NewJournal: read, append a copy of the latest job, write. *)
Definition last_job (l : list job) : job := last l (mk_job false false 0 []).
Definition open_journal (ok : bool) (d : list disk_job) : option (journal * bool) :=
  match all_some (map decode_job d) with
  | None => None
  | Some jobs => Some (write ok (mk_journal (jobs ++ [last_job jobs]) d))
  end.
Definition set_last (l : list job) (x : job) : list job := removelast l ++ [x].

Fixpoint add_files (key : bytes) (files : list bytes) (c : completed) : completed * bool :=
  match files with
  | [] => (c, true)
  | f :: fs => match parse_file f with
               | None => (c, false)
               | Some iv => add_files key fs (add_completed c key iv)
               end
  end.
(** journal.go:143 CommitProgress. On a bad file name the files before it stay added in memory. *)
Definition commit_progress (ok : bool) (key : bytes) (files : list bytes) (coalesced smt : bool) (j : journal) : journal * bool :=
  match mem j with
  | [] => (j, false)
  | _ =>
      let cur := last_job (mem j) in
      let (c, good) := add_files key files (j_completed cur) in
      if good
      then write ok (mk_journal (set_last (mem j) (mk_job (coalesced || smt) smt (j_ctsize cur) c)) (disk j))
      else (mk_journal (set_last (mem j) (mk_job (j_coalesced cur) (j_smt cur) (j_ctsize cur) c)) (disk j), false)
  end.
(** journal.go:170 CommitCTLogSize *)
Definition commit_ct_size (ok : bool) (size : Z) (j : journal) : journal * bool :=
  match mem j with
  | [] => (j, false)
  | _ => let cur := last_job (mem j) in
         write ok (mk_journal (set_last (mem j) (mk_job (j_coalesced cur) (j_smt cur) size (j_completed cur))) (disk j))
  end.
(** journal.go:190 PendingFiles; [files] is the sorted listing. *)
Fixpoint pending_files (key : bytes) (files : list bytes) (c : completed) : option (list bytes) :=
  match files with
  | [] => Some []
  | f :: fs => match parse_file f with
               | None => None
               | Some iv => match pending_files key fs c with
                            | None => None
                            | Some r => Some (if contains_completed c key iv then r else f :: r)
                            end
               end
  end.

(** run.go:289 completedCTLogSize: int64(End) + 1 *)
Definition completed_ct_size (c : completed) (key : bytes) : option Z :=
  match get_key key c with
  | None | Some [] => None
  | Some (iv :: _) => Some (int64_wrap (int64_wrap (Z.of_N (iv_e iv)) + 1))
  end.

(** ** run.go:185 ingestFilesInBatches. [go] stands for the context check and beforeBatch of batch number n, [each] for
    forEachBatch; both may fail. The estimate of rows before it is in NamesModel. *)
Section Batches.
  Context {St : Type}.
  Variable go : nat -> bool.
  Variable each : St -> list bytes -> St * bool.

  Fixpoint batch_loop (fuel : nat) (size : nat) (files : list bytes) (i : nat) (st : St) : St * bool :=
    match fuel with
    | O => (st, true)
    | S f =>
        if i <? length files then
          if go (i / size + 1) then
            let (st', ok) := each st (firstn size (skipn i files)) in
            if ok then batch_loop f size files (i + size) st' else (st', false)
          else (st, false)
        else (st, true)
    end.
  Definition ingest_in_batches (batch_size : Z) (files : list bytes) (st : St) : St * bool :=
    match files with
    | [] => (st, true)
    | _ =>
        let size := if Z.leb batch_size 0 then length files else Nat.min (Z.to_nat batch_size) (length files) in
        batch_loop (length files) size files 0 st
    end.
End Batches.

(** ** run.go:66 runIngest. Every external action asks the oracle whether it succeeds; actions are recorded. *)
Inductive action :=
| ARun (files : list bytes) (ok : bool)     (* RunBatch *)
| ACoalesce (ok : bool)
| AUpdate (ok : bool)                       (* UpdateSMT *)
| ACommit (files : list bytes) (ok : bool). (* CommitProgress; ok: it returned nil *)
Record strategy := mk_strategy { st_ingest : bool; st_coalesce : bool; st_smt : bool }.
(** journal.go:113 NewJobConfiguration: the strategies "onlyingest", "", "skipingest", "onlysmtupdate". *)
Definition only_ingest := mk_strategy true false false.
Definition full_run := mk_strategy true true true.
Definition skip_ingest := mk_strategy false true true.
Definition only_smt := mk_strategy false false true.

Record world := mk_world { w_journal : journal; w_trace : list action }.
Section Run.
  (** Outcome of the next external action or journal write, by the number of actions so far. *)
  Variable ok : nat -> bool.
  Variable key : bytes.

  Definition act (a : bool -> action) (w : world) : world * bool :=
    let r := ok (length (w_trace w)) in (mk_world (w_journal w) (w_trace w ++ [a r]), r).
  Definition commit (files : list bytes) (coalesced smt : bool) (w : world) : world * bool :=
    let (j, r) := commit_progress (ok (length (w_trace w))) key files coalesced smt (w_journal w) in
    (mk_world j (w_trace w ++ [ACommit files r]), r).
  Definition andThen (x : world * bool) (f : world -> world * bool) : world * bool :=
    let (w, r) := x in if r then f w else (w, false).
  Definition when (b : bool) (f : world -> world * bool) (w : world) : world * bool := if b then f w else (w, true).

  (** run.go:166-181 *)
  Definition run_batch (s : strategy) (w : world) (files : list bytes) : world * bool :=
    andThen (act (ARun files) w) (fun w1 =>
    andThen (when (st_coalesce s) (act ACoalesce) w1) (fun w2 =>
    andThen (when (st_smt s) (act AUpdate) w2) (fun w3 =>
    commit files (st_coalesce s) (st_smt s) w3))).
  (** run.go:121-145 *)
  Definition run_no_ingest (s : strategy) (w : world) : world * bool :=
    andThen (when (st_coalesce s) (fun w => andThen (act ACoalesce w) (commit [] true false)) w) (fun w1 =>
    when (st_smt s) (fun w => andThen (act AUpdate w) (commit [] (st_coalesce s) true)) w1).
  (** One run on an open journal with the directory listing [files]; the deferred Close writes the journal again. *)
  Definition run_ingest (s : strategy) (go : nat -> bool) (batch_size : Z) (files : list bytes) (w : world) : world * bool :=
    let (w1, r) :=
      if st_ingest s then
        match pending_files key files (j_completed (last_job (mem (w_journal w)))) with
        | None => (w, false)
        | Some todo => ingest_in_batches go (run_batch s) batch_size todo w
        end
      else run_no_ingest s w in
    (mk_world (fst (write (ok (length (w_trace w1))) (w_journal w1))) (w_trace w1), r).
End Run.

(** ** Several runs of the command, one after the other: what is on disk, and everything done so far with the directory key of the run.
    A kill of the process right before an action is the failure of that action with a failure of the write at the end; a signal, which
    makes the shutdown hook (journal.go:383) write the journal, is the failure of that action with a successful write at the end. *)
Inductive command :=
| CIngest (open_ok : bool) (ok : nat -> bool) (key : bytes) (s : strategy) (go : nat -> bool) (batch_size : Z) (files : list bytes)
| CCtSize (open_ok record_ok commit_ok close_ok : bool) (key : bytes). (* run.go:95, strategy "recordctsize" *)
Record past := mk_past { p_disk : list disk_job; p_history : list (bytes * action) }.
Definition exec (c : command) (p : past) : past :=
  match c with
  | CIngest open_ok ok key s go batch_size files =>
      match open_journal open_ok (p_disk p) with
      | None => p
      | Some (j, false) => mk_past (disk j) (p_history p)
      | Some (j, true) =>
          let (w, _) := run_ingest ok key s go batch_size files (mk_world j []) in
          mk_past (disk (w_journal w)) (p_history p ++ map (pair key) (w_trace w))
      end
  | CCtSize open_ok record_ok commit_ok close_ok key =>
      match open_journal open_ok (p_disk p) with
      | None => p
      | Some (j, false) => mk_past (disk j) (p_history p)
      | Some (j, true) =>
          let j' := match completed_ct_size (j_completed (last_job (mem j))) key with
                    | Some size => if record_ok then fst (commit_ct_size commit_ok size j) else j
                    | None => j
                    end in
          mk_past (disk (fst (write close_ok j'))) (p_history p)
      end
  end.
Definition exec_all (cs : list command) (p : past) : past := fold_left (fun p c => exec c p) cs p.
