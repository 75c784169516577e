(** Model of the retrieval of the dirty domains in bundles (/repo/pkg/db/mysql/mysql.go:219-523) and of the loop that feeds the
    bundles to the sparse Merkle tree (/repo/pkg/mapserver/updater/updater.go:448-484, :692-733).
    The dirty table does not change while the bundles are read. Errors of the server and overflow of uint64 are not modelled. *)
From Verif Require Import Base UtilModel TrieModel DbModel.

(** db.DirtyDomainEntriesCursor; the slices are functions of the partition. *)
Record cursor := mk_cursor { c_off : nat -> nat; c_done : nat -> bool; c_next : nat }.
Definition set_at {A : Type} (p : nat) (x : A) (f : nat -> A) : nat -> A := fun q => if q =? p then x else f q.

Section Bundle.
  Variable parts : nat. (* NumPartitions, > 0 *)
  (** The ids in the dirty table, per partition, in the order of the ids. *)
  Variable rows : nat -> list bytes.

  (** mysql.go:453 normalizeDirtyDomainEntriesCursor; None is nil. *)
  Definition normalize (c : option cursor) : cursor :=
    match c with
    | None => mk_cursor (fun _ => 0) (fun _ => false) 0
    | Some c => mk_cursor (c_off c) (c_done c) (c_next c mod parts)
    end.

  (** mysql.go:475 activeDirtyPartitions *)
  Definition active (c : cursor) : list nat :=
    filter (fun p => negb (c_done c p)) (map (fun i => (c_next c + i) mod parts) (seq 0 parts)).

  (** mysql.go:487 distributeDirtyBundleRequests: the partitions with their limits, in the order of [act]. *)
  Definition limits (remaining n : nat) : list nat :=
    map (fun i => remaining / n + if i <? remaining mod n then 1 else 0) (seq 0 n).
  Definition requests (act : list nat) (remaining : nat) : list (nat * nat) := combine act (limits remaining (length act)).

  (** mysql.go:418 retrieveDirtyDomainIDsForPartition: ORDER BY domain_id LIMIT offset,limit *)
  Definition fetch (c : cursor) (p limit : nat) : list bytes := firstn limit (skipn (c_off c p) (rows p)).

  (** mysql.go:279-290. The queries have run before, with the offsets of [c0]. *)
  Definition advance (c0 : cursor) (st : list bytes * cursor) (r : nat * nat) : list bytes * cursor :=
    let (p, limit) := r in
    let (bundle, c) := st in
    let ids := fetch c0 p limit in
    (bundle ++ ids,
     mk_cursor (set_at p (c_off c p + length ids) (c_off c))
               (if length ids <? limit then set_at p true (c_done c) else c_done c)
               (c_next c)).
  (** mysql.go:232-297: one turn of the loop, with at least one active partition. *)
  Definition round (max : nat) (act : list nat) (bundle : list bytes) (c : cursor) : list bytes * cursor :=
    let (bundle', c') := fold_left (advance c) (requests act (max - length bundle)) (bundle, c) in
    (bundle', mk_cursor (c_off c') (c_done c') ((hd 0 act + 1) mod parts)).

  (** mysql.go:219 RetrieveDomainEntriesDirtyBundle: bundle, cursor, done. None: out of fuel. *)
  Fixpoint bundle_loop (fuel max : nat) (bundle : list bytes) (c : cursor) : option (list bytes * cursor * bool) :=
    if length bundle <? max then
      match active c with
      | [] => Some (bundle, c, true)
      | act =>
          match fuel with
          | O => None
          | S fuel' => let (bundle', c') := round max act bundle c in bundle_loop fuel' max bundle' c'
          end
      end
    else Some (bundle, c, match active c with [] => true | _ => false end).
  Definition bundle_fuel (max : nat) : nat := max + parts.
  Definition dirty_bundle (c : option cursor) (max : nat) : res (list bytes * cursor * bool) :=
    if max =? 0 then Err
    else match bundle_loop (bundle_fuel max) max [] (normalize c) with
         | Some r => Ok r
         | None => Panic (* out of fuel *)
         end.

  (** updater.go:448 updateSMTfromDirty: the bundles it gives to updateSMTFromDomainEntries. None: out of fuel. *)
  Fixpoint bundles_from (fuel max : nat) (c : option cursor) : option (res (list (list bytes))) :=
    match dirty_bundle c max with
    | Ok ([], _, _) => Some (Ok [])
    | Ok (b, _, true) => Some (Ok [b])
    | Ok (b, c', false) =>
        match fuel with
        | O => None
        | S fuel' => match bundles_from fuel' max (Some c') with
                     | Some (Ok bs) => Some (Ok (b :: bs))
                     | r => r
                     end
        end
    | Err => Some Err
    | Panic => Some Panic
    end.
End Bundle.

(** ** Rows and trie input *)
(** SELECT domain_id FROM dirty PARTITION(p) ORDER BY domain_id: rows marked as coalesced or not. *)
Definition dirty_rows (d : db) (part : nat) : list bytes :=
  sort_ids (map fst (filter (fun r => shard (fst r) =? part) (d_dirty d))).
Definition smt_bundles (d : db) (max : nat) : option (res (list (list bytes))) :=
  bundles_from partitions (dirty_rows d) (length (d_dirty d)) max None.

(** mysql.go:523 extractDomainEntries: a NULL column scans as nil. *)
Definition null_bytes (x : option bytes) : bytes := match x with Some b => b | None => [] end.
Definition all_ids (r : pay_row) : list bytes := bytes_to_ids (null_bytes (pr_certs r)) ++ bytes_to_ids (null_bytes (pr_pols r)).
Definition payload_of (r : pay_row) : bytes := ids_to_bytes (sort_ids (all_ids r)).
(** mysql.go:393 retrieveDirtyDomainEntriesPreserveMissing: a domain without row has payload nil. *)
Definition entry_of (d : db) (id : bytes) : bytes * bytes :=
  (id, match find (fun r => beqb (fst r) id) (d_pay d) with Some r => payload_of (snd r) | None => [] end).

Section Input.
  Variable H : bytes -> bytes.
  (** updater.go:705-712 *)
  Definition smt_value (payload : bytes) : bytes := match payload with [] => DefaultLeaf | _ => H payload end.
  (** updater.go:716-719 sort.Slice by key: stands for any permutation sorted by key. *)
  Fixpoint insert_kv (x : bytes * bytes) (l : list (bytes * bytes)) : list (bytes * bytes) :=
    match l with
    | [] => [x]
    | y :: l' => match bcmp (fst x) (fst y) with Gt => y :: insert_kv x l' | _ => x :: l end
    end.
  Fixpoint sort_kvs (l : list (bytes * bytes)) : list (bytes * bytes) :=
    match l with [] => [] | x :: l' => insert_kv x (sort_kvs l') end.
  (** updater.go:692 domainEntriesToSMTInput *)
  Definition smt_input (entries : list (bytes * bytes)) : list (bytes * bytes) :=
    sort_kvs (map (fun e => (fst e, smt_value (snd e))) entries).
End Input.
