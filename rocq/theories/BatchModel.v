(** Model of the sharding, batching, buffer reuse, deduplication and round-robin reading of the ingestion pipeline:
    /repo/pkg/mapserver/updater/{manager,certsWorker,domainWorker,baseworker}.go, /repo/pkg/util/math.go,
    /repo/pkg/db/mysql/mysql.go:36-59, /repo/pkg/cache/lru_cache.go, /repo/pkg/util/noallocs/ringcache.go and
    readIncomingSequentially in /repo/pkg/pipeline/stage.go. No proofs here. *)
From Verif Require Import Base UtilModel.

(** ** Sharding *)

(** math.go:24 Log2: the loop [for n := N-1; n > 0; n >>= 1 { nBits++ }] runs once per binary digit of N-1. *)
Fixpoint pos_bits (p : positive) : nat :=
  match p with xH => 1 | xO q => S (pos_bits q) | xI q => S (pos_bits q) end.
Definition bit_length (n : N) : nat := match n with N0 => 0 | Npos p => pos_bits p end.
Definition log2 (n : N) : nat := if (n =? 0)%N then 0 else bit_length (n - 1).
(** mysql.go:53 NumBitsForPartitionCount, on a non-negative count (a negative one gives 0 as well). *)
Definition num_bits (n : N) : nat := bit_length (n - 1).

(** mysql.go:42 PartitionByIdMSB: [id[0] >> (8 - byte(nBits))], the shift count is computed modulo 256. *)
Definition partition_msb (id0 : byte) (nbits : nat) : N :=
  N.shiftr (Byte.to_N id0) ((264 - N.of_nat nbits mod 256) mod 256).

(** manager.go:46-50, the shard of an id for [n] workers. *)
Definition shard (n : N) (id : bytes) : N := partition_msb (hd x00 id) (log2 n).

(** manager.go:87-94: the two output channels of the source for a certificate; there are [2 * n] of them. *)
Definition source_channels (n : N) (cert_id : bytes) : list N :=
  let i := shard n cert_id in [i; (i + n)%N].

(** ** Batching. The two batchers; the buffer is the current element of the ring cache, see below for its reuse. *)
Section Batching.
  Context {A : Type}.
  Variable m : nat.                                    (* MultiInsertSize *)

  (** certsWorker.go:56-67, domainWorker.go:54-65: one received item; emitted batches and the new buffer. *)
  Definition batch_item (cur : list A) (x : A) : list (list A) * list A :=
    let cur' := cur ++ [x] in
    if length cur' =? m then ([cur'], []) else ([], cur').

  Fixpoint batch_items (cur : list A) (xs : list A) : list (list A) * list A :=
    match xs with
    | [] => ([], cur)
    | x :: xs' =>
        let (out, cur') := batch_item cur x in
        let (outs, last) := batch_items cur' xs' in
        (out ++ outs, last)
    end.

  (** certsWorker.go:68-72: at the end the last batch is sent, empty or not. *)
  Definition cert_batches (xs : list A) : list (list A) :=
    let (outs, last) := batch_items [] xs in outs ++ [last].

  (** domainWorker.go:66-74: at the end a non-empty last batch is sent; the slice expression outputChannels[:l] panics when
      [l] is more than the capacity MultiInsertSize. *)
  Definition domain_batches (xs : list A) : res (list (list A)) :=
    let (outs, last) := batch_items [] xs in
    match last with
    | [] => Ok outs
    | _ => if m <? length last then Panic else Ok (outs ++ [last])
    end.
End Batching.

(** ** Ring of buffers. noallocs/ringcache.go:25 Rotate: returns the current slot and advances. *)
Definition rotate (size cur : nat) : nat * nat := (cur, (cur + 1) mod size).
Fixpoint rotations (size cur k : nat) : list nat :=
  match k with
  | O => []
  | S k' => let (slot, next) := rotate size cur in slot :: rotations size next k'
  end.

(** A producer that fills numbered buffers, number [j] in slot [j mod N], and [d] stages behind it, each holding at most one
    buffer, connected by unbuffered channels. [ahead] says whether the producer already clears the next slot before the
    full one is handed over (baseworker.go:44 rotate is called before the batch is returned to be sent). *)
Inductive producer : Type :=
| Filling (j : nat)                                    (* writing into slot j mod N *)
| Handing (j : nat).                                   (* blocked on sending buffer j *)
Record ring_sys : Type := { prod : producer; held : list (option nat) }.

Inductive ring_act : Type :=
| ActFull                                              (* the buffer being filled is complete *)
| ActHand                                              (* the first stage receives it *)
| ActMove (s : nat)                                    (* stage s sends its buffer to stage s+1 *)
| ActDrop.                                             (* the last stage is done with its buffer *)

Definition ring_step (st : ring_sys) (a : ring_act) : option ring_sys :=
  match a with
  | ActFull => match prod st with Filling j => Some {| prod := Handing j; held := held st |} | Handing _ => None end
  | ActHand =>
      match prod st, held st with
      | Handing j, None :: rest => Some {| prod := Filling (S j); held := Some j :: rest |}
      | _, _ => None
      end
  | ActMove s =>
      match nth s (held st) None, nth_error (held st) (S s) with
      | Some i, Some None => Some {| prod := prod st; held := set_nth (S s) (Some i) (set_nth s None (held st)) |}
      | _, _ => None
      end
  | ActDrop =>
      match nth (length (held st) - 1) (held st) None with
      | Some _ => Some {| prod := prod st; held := set_nth (length (held st) - 1) None (held st) |}
      | None => None
      end
  end.

(** Actions that are not possible leave the state as it is. *)
Definition ring_do (st : ring_sys) (a : ring_act) : ring_sys := match ring_step st a with Some st' => st' | None => st end.
Definition ring_run (st : ring_sys) (l : list ring_act) : ring_sys := fold_left ring_do l st.
Definition ring_start (d : nat) : ring_sys := {| prod := Filling 0; held := repeat None d |}.

(** The buffer numbers whose slots the producer writes to in this state. *)
Definition touched (ahead : bool) (p : producer) : list nat :=
  match p with Filling j => [j] | Handing j => if ahead then [S j] else [] end.

(** ** Deduplication. lru_cache.go on the hashicorp cache: most recent first; Contains does not refresh, Add refreshes or
    inserts and evicts the oldest. *)
Definition lru_contains (c : list bytes) (id : bytes) : bool := existsb (beqb id) c.
Definition lru_add (size : nat) (c : list bytes) (id : bytes) : list bytes :=
  firstn size (id :: filter (fun x => negb (beqb id x)) c).

(** An association: (domain id, certificate id). A worker of certsWorker.go:101-127: [todo] are the associations of its
    certificates still to be looked at; [checked] is one that was not in the cache and is about to be added (lines 107, 109). *)
Definition assoc := (bytes * bytes)%type.
Record extractor : Type := { todo : list assoc; checked : option assoc; emitted : list assoc }.
Record dedup : Type := { dcache : list bytes; workers : list extractor }.

(** Worker [w] takes one step; the cache is shared. *)
Definition extract_step (size : nat) (st : dedup) (w : nat) : dedup :=
  match nth_error (workers st) w with
  | None => st
  | Some e =>
      match checked e with
      | Some a =>
          {| dcache := lru_add size (dcache st) (fst a);
             workers := set_nth w {| todo := todo e; checked := None; emitted := emitted e ++ [a] |} (workers st) |}
      | None =>
          match todo e with
          | [] => st
          | a :: rest =>
              {| dcache := dcache st;
                 workers := set_nth w
                   {| todo := rest; checked := if lru_contains (dcache st) (fst a) then None else Some a;
                      emitted := emitted e |} (workers st) |}
          end
      end
  end.
Definition extract_run (size : nat) (st : dedup) (sched : list nat) : dedup := fold_left (extract_step size) sched st.
Definition extract_start (cache : list bytes) (inputs : list (list assoc)) : dedup :=
  {| dcache := cache; workers := map (fun l => {| todo := l; checked := None; emitted := [] |}) inputs |}.
Definition extracted_all (st : dedup) : bool :=
  forallb (fun e => match todo e, checked e with [], None => true | _, _ => false end) (workers st).
Definition stored (st : dedup) : list assoc := flat_map emitted (workers st).

(** ** stage.go:794 readIncomingSequentially. A channel is the list of the items it will still deliver; [None] is an index
    panic. Every read blocks until the channel delivers or is closed, so the order of the reads does not depend on timing.
    At a closed channel the code decrements i before the loop increment, hence [i mod length]. *)
Section RoundRobin.
  Context {A : Type}.
  Fixpoint read_seq (fuel : nat) (chans : list (list A)) (i : nat) : option (list A) :=
    match fuel with
    | O => None
    | S fuel' =>
        match nth_error chans i with
        | None => None
        | Some [] =>
            match remove_elem [] chans i with
            | [] => Some []
            | chans' => read_seq fuel' chans' (i mod length chans')
            end
        | Some (x :: rest) =>
            match read_seq fuel' (set_nth i rest chans) ((i + 1) mod length chans) with
            | Some out => Some (x :: out)
            | None => None
            end
        end
    end.
  (** Enough iterations: one per item and one per channel. *)
  Definition read_sequentially (chans : list (list A)) : option (list A) :=
    read_seq (length (concat chans) + length chans) chans 0.
End RoundRobin.
