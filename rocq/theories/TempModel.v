(** Model of the temporary files of an ingestion: /repo/pkg/util/noallocs/string.go, tempfile.go, file.go, ringcache.go, the writers of
    /repo/pkg/mapserver/updater/csv.go, and the three stages that create, insert and remove the files in certsWorker.go (one file per
    batch) and domainWorker.go (three files per batch). Any number of such lines of stages work at the same time in one folder; every
    system call is one step. The channels between the three stages are unbuffered, and a stage takes the next input when its output is
    taken (stage.go:391, one input channel: stage.go:742; see PipeModel), so handing over is one step of both stages.
    The names of the files are not copied: a name is a pointer into one of the [ring] buffers of its stage, and is read when it is used.
    Simplifications: a call of the database is one step, it loads the file or fails and loads nothing; other processes create files in the
    folder, but do not change or remove those of others; the batch is given as the rows of its files (LoadModel), all lines have the
    suffix ".csv"; a failed stage does nothing more, the others may go on (in Go they are told to stop, at any later time).
    No proofs here. *)
From Verif Require Import Base SysModel LoadModel.

(** ** noallocs: buffers *)
(** copy(dst, src) *)
Fixpoint copy_into (dst src : bytes) : bytes :=
  match dst, src with d :: dst', s :: src' => s :: copy_into dst' src' | _, _ => dst end.
(** copy(storage[k:], src), for k up to the length *)
Definition copy_at (k : nat) (storage src : bytes) : bytes := firstn k storage ++ copy_into (skipn k storage) src.
(** The name the kernel reads at the pointer: up to the first zero. *)
Fixpoint cstring (s : bytes) : bytes := match s with [] => [] | c :: s' => if Byte.eqb c x00 then [] else c :: cstring s' end.

(** string.go:5 StringToBytePtr, the storage afterwards. [same]: the two addresses are the same. The conversion []byte(str) is a copy,
    or no copy if the compiler finds that it is not needed; therefore [same] is a choice when [str] points to [storage]. *)
Definition string_to_byte_ptr (same : bool) (storage str : bytes) : res bytes :=
  match storage, str with
  | [], _ | _, [] => Panic
  | _, _ =>
      if same then Ok storage
      else if length str <? length storage then Ok (copy_into (set_nth (length str) x00 storage) str) else Panic
  end.

(** tempfile.go:11 *)
Definition char_map : bytes :=
  [x30; x31; x32; x33; x34; x35; x36; x37; x38; x39; x2d; x61; x62; x63; x64; x65; x66; x67; x68; x69; x6a; x6b; x6c; x6d; x6e; x6f; x70;
   x71; x72; x73; x74; x75; x76; x77; x78; x79; x7a].
(** :12 numberOfRandomChars *)
Definition random_count : nat := 10.
(** :30 *)
Definition max_attempts : nat := 10.
(** tempfile.go:17 CreateTempFile, lines 19-27: the storage before the first attempt. *)
Definition prepare (storage prefix suffix : bytes) : res bytes :=
  let k := length prefix + random_count in
  if length storage <? k then Panic
  else
    match string_to_byte_ptr false (copy_at k (copy_into storage prefix) suffix) prefix with
    | Ok s => if k + length suffix <? length s then Ok (set_nth (k + length suffix) x00 s) else Panic
    | x => x
    end.
(** :56 randomFilenameChar, :60 randomFilenameChars; [draw]: what rand.Intn gives. *)
Definition random_part (draw : list nat) : bytes := map (fun i => nth (nth i draw 0 mod length char_map) char_map x00) (seq 0 random_count).
Definition randomize (storage prefix : bytes) (draw : list nat) : bytes := copy_at (length prefix) storage (random_part draw).

(** ** csv.go:121 writeCSV, :164 writeCertCSV: the calls of Write (file.go:23) *)
Definition row_chunks (row : list bytes) : list bytes :=
  match row with [] => [[newline]] | f :: row' => f :: flat_map (fun g => [[comma]; g]) row' ++ [[newline]] end.
Definition chunks (rows : list (list bytes)) : list bytes := flat_map row_chunks rows.

(** A batch: for each file its rows. *)
Definition batch : Type := list (list (list bytes)).
Definition rows_of (b : batch) (j : nat) : list (list bytes) := nth j b [].

(** ** The system *)
(** The stage that creates the files: [n] the number of the batch, [j] that of the file, [f] the inode that is open. *)
Inductive creator : Type :=
| CIdle
| CTry (n : nat) (b : batch) (j att : nat)                 (* tempfile.go:31, the attempts so far *)
| CClose1 (n : nat) (b : batch) (j f : nat)                (* tempfile.go:36 *)
| COpen (n : nat) (b : batch) (j : nat)                    (* csv.go:128, :176 *)
| CWrite (n : nat) (b : batch) (j f : nat) (cs : list bytes)  (* what is not written yet; nothing: at the Close *)
| CSend (n : nat)
| CFail (n : nat).
Inductive inserter : Type := IIdle | IChmod (n j : nat) | ILoad (n j : nat) | ISend (n : nat) | IFail (n j : nat).
Inductive remover : Type := RIdle | RDo (n j : nat) (bad : bool) | RFail (n : nat).
Record line : Type := mk_line {
  todo : list batch;
  made : nat;                                              (* calls of Rotate *)
  cr : creator;
  ins : inserter;
  rem : remover;
  bufs : nat -> nat -> bytes;                              (* for each kind of file, its buffers *)
  loaded : list (nat * bytes) }.                           (* what the database loaded: kind and content *)
Record sys : Type := mk_sys {
  lines : nat -> line;
  fs : list (bytes * nat);                                 (* the folder: names and inodes *)
  ino : list bytes;                                        (* the contents of the inodes *)
  opened : list nat;                                       (* the inodes of the open descriptors of the process *)
  foreign : list (bytes * bytes);                          (* the files of others: not used by any step *)
  panicked : bool }.

Record choice : Type := mk_choice { draw : list nat; ok : bool; short : nat; same : bool }.
Inductive action : Type :=
| AMake (i : nat) (c : choice)
| AIns (i : nat) (good : bool)
| ARem (i : nat) (good : bool)
| AForeign (p w : bytes).

Definition lookup (p : bytes) (l : list (bytes * nat)) : option nat := match find (fun e => beqb p (fst e)) l with Some e => Some (snd e) | None => None end.
Definition unlink (p : bytes) (l : list (bytes * nat)) : list (bytes * nat) := filter (fun e => negb (beqb p (fst e))) l.
Definition close (f : nat) (l : list nat) : list nat := filter (fun g => negb (f =? g)) l.
Definition upd {A} (k : nat) (x : A) (f : nat -> A) : nat -> A := fun k' => if k' =? k then x else f k'.
Definition suffix : bytes := [x2e; x63; x73; x76].

Section Temp.
  (** csv.go:20 FilepathLen, :21 FilepathCacheSize (baseworker.go:5) *)
  Variable cap ring : nat.
  (** For each line: the prefixes of its kinds of files (csv.go:44, :59, :75, :91), and whether it skips empty batches
      (domainWorker.go:121). *)
  Variable kinds : nat -> list bytes.
  Variable skips : nat -> bool.

  Definition prefix_of (i j : nat) : bytes := nth j (kinds i) [].
  Definition name_len (i j : nat) : nat := length (prefix_of i j) + random_count + length suffix.
  Definition buf (l : line) (n j : nat) : bytes := bufs l j (n mod ring).
  (** The string that CreateTempFile returned for file [j] of batch [n], as it reads now. *)
  Definition name (i : nat) (l : line) (n j : nat) : bytes := firstn (name_len i j) (buf l n j).
  Definition put_buf (l : line) (n j : nat) (x : bytes) : line :=
    mk_line (todo l) (made l) (cr l) (ins l) (rem l) (upd j (upd (n mod ring) x (bufs l j)) (bufs l)) (loaded l).
  Definition set_cr (l : line) (c : creator) : line := mk_line (todo l) (made l) c (ins l) (rem l) (bufs l) (loaded l).
  Definition set_ins (l : line) (x : inserter) : line := mk_line (todo l) (made l) (cr l) x (rem l) (bufs l) (loaded l).
  Definition set_rem (l : line) (x : remover) : line := mk_line (todo l) (made l) (cr l) (ins l) x (bufs l) (loaded l).
  Definition set_line (s : sys) (i : nat) (l : line) : sys := mk_sys (upd i l (lines s)) (fs s) (ino s) (opened s) (foreign s) (panicked s).
  Definition set_os (s : sys) (fs' : list (bytes * nat)) (ino' : list bytes) (opened' : list nat) : sys :=
    mk_sys (lines s) fs' ino' opened' (foreign s) (panicked s).
  Definition panic (s : sys) : sys := mk_sys (lines s) (fs s) (ino s) (opened s) (foreign s) true.

  (** The begin of CreateTempFile for file [j]: the buffer of the ring, and its preparation. *)
  Definition begin_file (s : sys) (i : nat) (l : line) (n : nat) (b : batch) (j : nat) : sys :=
    match prepare (buf l n j) (prefix_of i j) suffix with
    | Ok x => set_line s i (set_cr (put_buf l n j x) (CTry n b j 0))
    | _ => panic s
    end.
  Definition empty_batch (b : batch) : bool := match rows_of b 0 with [] => true | _ => false end.

  (** certsWorker.go:156, domainWorker.go:117: each call of the process function takes one buffer of each ring (ringcache.go:29 Rotate, the
      rings of the domain worker turn together), creates the file (tempfile.go:30), opens it (file.go:10), writes and closes it. *)
  Definition make_step (s : sys) (i : nat) (c : choice) : option sys :=
    let l := lines s i in
    match cr l with
    | CIdle =>
        match todo l with
        | [] => None
        | b :: rest =>
            if skips i && empty_batch b then Some (set_line s i (mk_line rest (made l) CIdle (ins l) (rem l) (bufs l) (loaded l)))
            else Some (begin_file s i (mk_line rest (S (made l)) CIdle (ins l) (rem l) (bufs l) (loaded l)) (made l) b 0)
        end
    | CTry n b j att =>
        let x := randomize (buf l n j) (prefix_of i j) (draw c) in
        let l' := put_buf l n j x in
        if negb (ok c) then Some (set_line s i (set_cr l' (CFail n)))
        else
          match lookup (cstring x) (fs s) with
          | Some _ => Some (set_line s i (set_cr l' (if S att <? max_attempts then CTry n b j (S att) else CFail n)))
          | None =>
              let f := length (ino s) in
              Some (set_line (set_os s ((cstring x, f) :: fs s) (ino s ++ [[]]) (f :: opened s)) i (set_cr l' (CClose1 n b j f)))
          end
    | CClose1 n b j f =>
        Some (set_line (set_os s (fs s) (ino s) (close f (opened s))) i (set_cr l (if ok c then COpen n b j else CFail n)))
    | COpen n b j =>
        match string_to_byte_ptr (same c) (buf l n j) (name i l n j) with
        | Ok x =>
            let l' := put_buf l n j x in
            if negb (ok c) then Some (set_line s i (set_cr l' (CFail n)))
            else
              match lookup (cstring x) (fs s) with
              | Some f => Some (set_line (set_os s (fs s) (ino s) (f :: opened s)) i (set_cr l' (CWrite n b j f (chunks (rows_of b j)))))
              | None =>
                  let f := length (ino s) in
                  Some (set_line (set_os s ((cstring x, f) :: fs s) (ino s ++ [[]]) (f :: opened s)) i
                          (set_cr l' (CWrite n b j f (chunks (rows_of b j)))))
              end
        | _ => Some (panic s)
        end
    | CWrite n b j f (x :: cs) =>
        let x' := if ok c then x else firstn (short c) x in
        Some (set_line (set_os s (fs s) (set_nth f (nth f (ino s) [] ++ x') (ino s)) (opened s)) i
                (set_cr l (if ok c then CWrite n b j f cs else CFail n)))
    | CWrite n b j f [] =>
        let s' := set_os s (fs s) (ino s) (close f (opened s)) in
        if negb (ok c) then Some (set_line s' i (set_cr l (CFail n)))
        else if S j <? length (kinds i) then Some (begin_file s' i l n b (S j))
        else Some (set_line s' i (set_cr l (CSend n)))
    | CSend n => match ins l with IIdle => Some (set_line s i (set_ins (set_cr l CIdle) (IChmod n 0))) | _ => None end
    | CFail _ => None
    end.

  (** certsWorker.go:181, domainWorker.go:166: the calls of the database. Each sets the permissions (db/mysql/certs.go:384), then loads. *)
  Definition ins_step (s : sys) (i : nat) (good : bool) : option sys :=
    let l := lines s i in
    match ins l with
    | IIdle => None                                        (* CSend takes the step *)
    | IChmod n j =>
        match lookup (name i l n j) (fs s) with
        | Some _ => Some (set_line s i (set_ins l (if good then ILoad n j else IFail n j)))
        | None => Some (set_line s i (set_ins l (IFail n j)))
        end
    | ILoad n j =>
        match lookup (name i l n j) (fs s) with
        | Some f =>
            if good then
              Some (set_line s i (mk_line (todo l) (made l) (cr l) (if S j <? length (kinds i) then IChmod n (S j) else ISend n) (rem l) (bufs l)
                                    (loaded l ++ [(j, nth f (ino s) [])])))
            else Some (set_line s i (set_ins l (IFail n j)))
        | None => Some (set_line s i (set_ins l (IFail n j)))
        end
    | ISend n => match rem l with RIdle => Some (set_line s i (set_rem (set_ins l IIdle) (RDo n 0 false))) | _ => None end
    | IFail _ _ => None
    end.

  (** certsWorker.go:203, domainWorker.go:197: the errors are collected. *)
  Definition rem_step (s : sys) (i : nat) (good : bool) : option sys :=
    let l := lines s i in
    match rem l with
    | RDo n j bad =>
        let p := name i l n j in
        let gone := match lookup p (fs s) with Some _ => good | None => false end in
        let bad' := bad || negb gone in
        let s' := if gone then set_os s (unlink p (fs s)) (ino s) (opened s) else s in
        Some (set_line s' i (set_rem l (if S j <? length (kinds i) then RDo n (S j) bad' else if bad' then RFail n else RIdle)))
    | _ => None
    end.

  Definition sys_step (s : sys) (a : action) : option sys :=
    if panicked s then None
    else
      match a with
      | AMake i c => make_step s i c
      | AIns i good => ins_step s i good
      | ARem i good => rem_step s i good
      | AForeign p w =>
          match lookup p (fs s) with
          | Some _ => None
          | None => Some (mk_sys (lines s) ((p, length (ino s)) :: fs s) (ino s ++ [w]) (opened s) ((p, w) :: foreign s) false)
          end
      end.

  (** At the begin: the batches of each line, and the files in the folder. *)
  Definition new_line (bs : list batch) : line := mk_line bs 0 CIdle IIdle RIdle (fun _ _ => repeat x00 cap) [].
  Definition sys_start (work : nat -> list batch) (files : list (bytes * bytes)) : sys :=
    mk_sys (fun i => new_line (work i)) (combine (map fst files) (seq 0 (length files))) (map snd files) [] files false.

  (** The batches of a line that become files; what is loaded for a batch. *)
  Definition batches (i : nat) (work : list batch) : list batch := filter (fun b => negb (skips i && empty_batch b)) work.
  Definition expected (i : nat) (b : batch) : list (nat * bytes) := map (fun j => (j, raw_file (rows_of b j))) (seq 0 (length (kinds i))).
  Definition failed (l : line) : bool :=
    match cr l with CFail _ => true | _ => false end || match ins l with IFail _ _ => true | _ => false end ||
    match rem l with RFail _ => true | RDo _ _ bad => bad | _ => false end.
  Definition finished (l : line) : bool :=
    match todo l, cr l, ins l, rem l with [], CIdle, IIdle, RIdle => true | _, _, _, _ => false end.

  (** How many steps of line [i] a schedule really makes. *)
  Definition acts_on (i : nat) (a : action) : bool :=
    match a with AMake i' _ | AIns i' _ | ARem i' _ => i' =? i | AForeign _ _ => false end.
  Fixpoint steps_of (i : nat) (s : sys) (l : list action) : nat :=
    match l with
    | [] => 0
    | a :: l' => match sys_step s a with Some s' => (if acts_on i a then 1 else 0) + steps_of i s' l' | None => steps_of i s l' end
    end.
  (** The content of a file. *)
  Definition read (s : sys) (p : bytes) : option bytes := match lookup p (fs s) with Some f => Some (nth f (ino s) []) | None => None end.
End Temp.
