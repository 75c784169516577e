(** Model of /repo/pkg/mapserver/logfetcher (httplogfetcher.go: fetch, getRawEntriesInBatches, getRawEntries; locallogfetcher.go:
    Initialize, getGzFileChain, GetCurrentState, StartFetching) and of the loop of /repo/pkg/mapserver/mapserver.go:363 updateCerts with
    /repo/pkg/mapserver/updater/updater.go NextBatch, UpdateNextBatch and startNextFetcher, for one log. Indices are integers (no
    overflow). No proofs here. *)
From Verif Require Import Base SysModel.

(** * Downloading a range *)
Section Download.
  Variable E : Type.
  Variable dummy : E.
  (** The log server, a function of the number of the request, its first and its last index. [None] is an error. *)
  Variable srv : nat -> Z -> Z -> option (list E).

  (** leafEntries[offset+i] = rsp.Entries[i] for all i (httplogfetcher.go:340); [None] is the panic when out of range. *)
  Definition write (buf : list E) (k : nat) (l : list E) : option (list E) :=
    if k + length l <=? length buf then Some (firstn k buf ++ l ++ skipn (k + length l) buf)
    else match l with [] => Some buf | _ => None end.

  (** httplogfetcher.go:321 getRawEntries, the loop. The outer [None]: does not end within [fuel] rounds. [n] counts the requests.
      f.stopping is read in [fetch_step] only: when it is set here the caller throws away what this function returns. *)
  Fixpoint raw_loop (fuel : nat) (n : nat) (buf : list E) (a b offset : Z) : option (res (list E * nat)) :=
    match fuel with
    | O => None
    | S fuel' =>
        if (offset <? b - a + 1)%Z then
          match srv n (a + offset) b with
          | None => Some Err
          | Some l =>
              match write buf (Z.to_nat offset) l with
              | None => Some Panic
              | Some buf' => raw_loop fuel' (S n) buf' a b (offset + Z.of_nat (length l))
              end
          end
        else Some (Ok (buf, n))
    end.
  (** :327: leafEntries[end-start] must exist. *)
  Definition in_range (buf : list E) (i : Z) : bool := (0 <=? i)%Z && (i <? Z.of_nat (length buf))%Z.
  Definition raw_entries (fuel n : nat) (buf : list E) (a b : Z) : option (res (list E * nat)) :=
    if in_range buf (b - a) then raw_loop fuel n buf a b 0 else Some Panic.

  Variable sbs : Z. (* serverBatchSize *)

  (** :278-291 the whole batches, from number [i] on; the slice leafEntries[lo:hi] is cut out and put back. *)
  Definition on_slice (buf : list E) (lo hi : nat) (f : list E -> option (res (list E * nat))) : option (res (list E * nat)) :=
    match f (firstn (hi - lo) (skipn lo buf)) with
    | Some (Ok (sub, n)) => Some (Ok (firstn lo buf ++ sub ++ skipn hi buf, n))
    | r => r
    end.
  Fixpoint batches_loop (fuel : nat) (todo : nat) (i : Z) (n : nat) (buf : list E) (a : Z) : option (res (list E * nat)) :=
    match todo with
    | O => Some (Ok (buf, n))
    | S todo' =>
        let ba := (a + i * sbs)%Z in
        match on_slice buf (Z.to_nat (i * sbs)) (Z.to_nat ((i + 1) * sbs)) (fun sub => raw_entries fuel n sub ba (ba + sbs - 1)) with
        | Some (Ok (buf', n')) => batches_loop fuel todo' (i + 1) n' buf' a
        | r => r
        end
    end.
  (** :262 getRawEntriesInBatches; the asserts on the returned size always hold here. *)
  Definition in_batches (fuel n : nat) (buf : list E) (a b : Z) : option (res (list E * nat)) :=
    if (b <? a)%Z then Some Panic
    else if in_range buf (b - a) then
      let count := ((b - a + 1) / sbs)%Z in
      match batches_loop fuel (Z.to_nat count) 0 n buf a with
      | Some (Ok (buf', n')) =>
          let ra := (count * sbs + a)%Z in
          if (ra <=? b)%Z then on_slice buf' (Z.to_nat (count * sbs)) (Z.to_nat (b - a + 1)) (fun sub => raw_entries fuel n' sub ra b)
          else Some (Ok (buf', n'))
      | r => r
      end
    else Some Panic.
End Download.

(** * Fetching in the background, and the updater *)
Section Fetch.
  Variable E : Type.
  Variable log : Z -> E.
  Variable pbs : Z. (* processBatchSize *)

  (** The entries a, a+1, ..., b. *)
  Definition entries (a b : Z) : list E := map (fun j => log (a + Z.of_nat j)) (seq 0 (Z.to_nat (b - a + 1))).

  (** What is sent on chanResults: the certificates of a batch, or an error. *)
  Definition result : Type := option (list E).
  Record chan := mk_chan { buf : list result; closed : bool }.
  Definition preload : nat := 2.

  (** A goroutine running fetch (httplogfetcher.go:188). [own] is the channel of the deferred close. *)
  Inductive gor : Type :=
  | Fresh                                                            (* not begun *)
  | Loop (own : nat) (i count : Z)                                   (* at the head of the loop *)
  | Got (own : nat) (i count : Z) (r : result)                       (* downloaded *)
  | Ready (own : nat) (i count : Z) (r : result)                     (* stopping was not set; certificates parsed *)
  | Put (own : nat) (i count : Z) (r : result) (ch : nat)            (* sending on the channel [ch] *)
  | Ending (own : nat)                                               (* returning *)
  | Gone.

  (** The fetcher (fields start, end, stopping, chanResults), the channels made so far, the goroutines, the updater (running an update
      or not, lastState, targetState), and the database: the recorded size of the log and the certificates that were inserted.
      [dead]: the process panicked. *)
  Record sys := mk_sys {
    f_start : Z; f_end : Z; f_stop : bool; f_chan : nat; chans : list chan; gors : list gor;
    running : bool; last_size : Z; target : Z; dead : bool;
    recorded : Z; inserted : list E }.
  Definition sys0 : sys := mk_sys 0 0 false 0 [] [] false 0 0 false 0 [].

  Inductive act : Type :=
  | Go (k : nat) (ok : bool)        (* goroutine k does its next step; [ok]: a download in it succeeds and its certificates parse *)
  | Cycle (size : Z)                (* a new update starts; the log says it has this size *)
  | Recv (progress : bool)          (* NextBatch and UpdateNextBatch; [progress]: GetProgress succeeds *)
  | RecvFail                        (* the insertion into the database fails (atomically) *)
  | Cancel                          (* NextBatch sees the context cancelled *)
  | Crash.                          (* the process is restarted *)

  Definition with_gor (s : sys) (k : nat) (g : gor) : sys :=
    mk_sys (f_start s) (f_end s) (f_stop s) (f_chan s) (chans s) (set_nth k g (gors s)) (running s) (last_size s) (target s) (dead s)
      (recorded s) (inserted s).
  Definition with_chan (s : sys) (c : nat) (x : chan) : sys :=
    mk_sys (f_start s) (f_end s) (f_stop s) (f_chan s) (set_nth c x (chans s)) (gors s) (running s) (last_size s) (target s) (dead s)
      (recorded s) (inserted s).
  Definition with_stop (s : sys) (b : bool) : sys :=
    mk_sys (f_start s) (f_end s) b (f_chan s) (chans s) (gors s) (running s) (last_size s) (target s) (dead s) (recorded s) (inserted s).
  Definition idle (s : sys) : sys :=
    mk_sys (f_start s) (f_end s) (f_stop s) (f_chan s) (chans s) (gors s) false (last_size s) (target s) (dead s) (recorded s) (inserted s).
  Definition panics (s : sys) : sys :=
    mk_sys (f_start s) (f_end s) (f_stop s) (f_chan s) (chans s) (gors s) (running s) (last_size s) (target s) true (recorded s) (inserted s).

  Definition go_step (s : sys) (k : nat) (ok : bool) : option sys :=
    match nth_error (gors s) k with
    | None => None
    | Some g =>
        match g with
        | Fresh =>
            let own := f_chan s in
            Some (with_gor s k (if (f_end s <? f_start s)%Z then Ending own else Loop own 0 (1 + (f_end s - f_start s) / pbs)))
        | Loop own i count =>
            if (i <? count)%Z then
              let a := (f_start s + i * pbs)%Z in
              let b := Z.min (f_end s) (a + pbs - 1) in
              if (b <? a)%Z then Some (panics s)
              else Some (with_gor s k (Got own i count (if ok then Some (entries a b) else None)))
            else Some (with_gor s k (Ending own))
        | Got own i count None => Some (with_gor s k (Ready own i count None))
        | Got own i count (Some l) =>
            if f_stop s then Some (with_stop (with_gor s k (Ending own)) false) else Some (with_gor s k (Ready own i count (Some l)))
        | Ready own i count r => Some (with_gor s k (Put own i count r (f_chan s)))
        | Put own i count r ch =>
            match nth_error (chans s) ch with
            | None => None
            | Some c =>
                if closed c then Some (panics s)
                else if length (buf c) <? preload then
                  Some (with_gor (with_chan s ch (mk_chan (buf c ++ [r]) false)) k
                          (match r with None => Ending own | Some _ => Loop own (i + 1) count end))
                else None
            end
        | Ending own =>
            match nth_error (chans s) own with
            | None => None
            | Some c => if closed c then Some (panics s) else Some (with_gor (with_chan s own (mk_chan (buf c) true)) k Gone)
            end
        | Gone => None
        end
    end.

  (** updater.go:140 UpdateNextBatch after a successful insertion of [l]; an error of GetProgress is returned, unless the recording of
      the size overwrites it. *)
  Definition took (s : sys) (l : list E) (progress : bool) : sys :=
    let last := (last_size s + Z.of_nat (length l))%Z in
    let full := (last =? target s)%Z in
    mk_sys (f_start s) (f_end s) (f_stop s) (f_chan s) (chans s) (gors s) (progress || full) last (target s) (dead s)
      (if full then target s else recorded s) (inserted s ++ l).

  Definition fetch_step (s : sys) (a : act) : option sys :=
    match a with
    | Crash => Some (mk_sys 0 0 false 0 [] [] false 0 0 false (recorded s) (inserted s))
    | _ =>
        if dead s then None
        else
          match a with
          | Crash => None
          | Go k ok => go_step s k ok
          | Cycle size =>
              (* updater.go:259 startNextFetcher, httplogfetcher.go:104 StartFetching *)
              if running s then None
              else Some (mk_sys (recorded s) (size - 1) false (length (chans s)) (chans s ++ [mk_chan [] false]) (gors s ++ [Fresh])
                           true (recorded s) size false (recorded s) (inserted s))
          | Recv progress =>
              if running s then
                match nth_error (chans s) (f_chan s) with
                | None => None
                | Some c =>
                    match buf c with
                    | [] => if closed c then Some (with_stop (idle s) true) else None
                    | r :: rest =>
                        let s' := with_chan s (f_chan s) (mk_chan rest (closed c)) in
                        match r with
                        | None => Some (idle s')
                        | Some l => Some (took s' l progress)
                        end
                    end
                end
              else None
          | RecvFail =>
              if running s then
                match nth_error (chans s) (f_chan s) with
                | Some (mk_chan (Some _ :: rest) cl) => Some (idle (with_chan s (f_chan s) (mk_chan rest cl)))
                | _ => None
                end
              else None
          | Cancel => if running s then Some (idle s) else None
          end
    end.
End Fetch.

(** * Local files *)
(** locallogfetcher.go:83 CsvFileInfo *)
Record file := mk_file { fi_start : Z; fi_end : Z; fi_path : nat }.
(** map[int64][]*CsvFileInfo *)
Definition state_map : Type := list (Z * list file).
Fixpoint get (m : state_map) (k : Z) : option (list file) :=
  match m with [] => None | (k', v) :: m' => if Z.eqb k k' then Some v else get m' k end.
Fixpoint put (m : state_map) (k : Z) (v : list file) : state_map :=
  match m with [] => [(k, v)] | (k', v') :: m' => if Z.eqb k k' then (k, v) :: m' else (k', v') :: put m' k v end.
(** :121-126; [None]: two files with the same start. *)
Fixpoint singles (files : list file) (m : state_map) : option state_map :=
  match files with
  | [] => Some m
  | f :: fs => match get m (fi_start f) with Some _ => None | None => singles fs (put m (fi_start f) [f]) end
  end.
(** :457 getGzFileChain; [None]: does not end within [fuel] calls. entry[len(entry)-1] of an empty slice would panic, it never is. *)
Fixpoint chain (fuel : nat) (m : state_map) (start : Z) : option (list file) :=
  match fuel with
  | O => None
  | S fuel' =>
      match get m start with
      | None => Some []
      | Some l =>
          match chain fuel' m (fi_end (last l (mk_file 0 0 0)) + 1) with
          | None => None
          | Some r => Some (l ++ r)
          end
      end
  end.
(** :129: for start := range m, in any order [keys] of the keys. *)
Fixpoint extend (fuel : nat) (keys : list Z) (m : state_map) : option state_map :=
  match keys with
  | [] => Some m
  | k :: ks => match chain fuel m k with None => None | Some c => extend fuel ks (put m k c) end
  end.
(** :101 Initialize, for the files found on the disk and a function that chooses the order of the map. *)
Definition initialize (fuel : nat) (order : list Z -> list Z) (files : list file) : option (option state_map) :=
  match singles files [] with
  | None => Some None
  | Some m => match extend fuel (order (map fst m)) m with None => None | Some m' => Some (Some m') end
  end.
(** :148 GetCurrentState *)
Fixpoint target_size (first : bool) (entries : list file) (size max acc : Z) : Z :=
  match entries with
  | [] => acc
  | e :: es => if negb first && (max <? fi_end e - size + 1)%Z then acc else target_size false es size max (fi_end e + 1)
  end.
Definition current_state (m : state_map) (max size : Z) : Z :=
  match get m size with Some es => target_size true es size max 0 | None => size end.
(** :174 StartFetching: the files that are read. *)
Fixpoint upto (es : list file) (b : Z) : list file :=
  match es with [] => [] | e :: r => if (b <? fi_end e)%Z then [] else e :: upto r b end.
Definition requested (m : state_map) (a b : Z) : list file := match get m a with Some es => upto es b | None => [] end.
