(** Model of the sparse Merkle trie: /repo/pkg/mapserver/trie/*.go, function by function.

    Simplifications that hold for the whole file:
    - keys and values are passed as one list of pairs (Update, trie.go:97-99, refuses lists of different length);
    - the two halves are updated one after the other (trie.go:298-305 spawns goroutines only for 4096 or more
      keys and if a slot is free; see TrieParModel.v for the interleavings);
    - a loaded batch is a value: trie.go:540 and 553 return the slice that is also held by the cache and mutate it in
      place; here the mutated batch is threaded explicitly and the caches change only in
      storeNode/deleteOldNode. The difference can be seen only by reading one node twice during one update, or
      after an update that failed half-way;
    - contexts, locks and statistics counters are dropped. *)
From Verif Require Import Base.

(** util.go:14-21 *)
Definition HashLength : nat := 32.
Definition DefaultLeaf : bytes := [x00].
Definition TrieHeight : nat := 256. (* trie.go:71 with a 32-byte hash *)

(** util.go:27 bitIsSet(bits, i); [None] is the index-out-of-range panic. *)
Definition bit_is_set (bits : bytes) (i : nat) : option bool :=
  match nth_error bits (i / 8) with
  | Some b => Some (byte_bit b (i mod 8))
  | None => None
  end.

(** bitIsSet where the index is known to be in range (false otherwise, where Go panics). *)
Definition bit (bits : bytes) (i : nat) : bool :=
  match bit_is_set bits i with Some b => b | None => false end.

(** util.go:30 bitSet *)
Definition bit_set (bits : bytes) (i : nat) : bytes :=
  match nth_error bits (i / 8) with
  | Some b =>
      match Byte.of_N (N.lor (Byte.to_N b) (N.shiftl 1 (N.of_nat (7 - i mod 8)))) with
      | Some b' => set_nth (i / 8) b' bits
      | None => bits
      end
  | None => bits
  end.

(** A node batch: 31 slots; an empty string is the Go nil. *)
Definition batch := list bytes.
Definition empty_batch : batch := repeat [] 31.
Definition slot (i : nat) (b : batch) : bytes := nth i b [].

(** [copy(node[:], root)] into a 32-byte array: truncate or pad with zeros. *)
Definition to_hash (root : bytes) : bytes := firstn HashLength (root ++ repeat x00 HashLength).
Definition zero_hash : bytes := repeat x00 HashLength.

(** trie_cache.go:116 serializeBatch: slots [i], [i+1], ... are appended to the string built so far. *)
Fixpoint serialize_slots (i : nat) (slots : list bytes) (acc : bytes) : bytes :=
  match slots with
  | [] => acc
  | s :: rest =>
      match s with
      | [] => serialize_slots (S i) rest acc
      | _ :: _ => serialize_slots (S i) rest (bit_set acc (i - 1) ++ s)
      end
  end.
Definition serialize_batch (b : batch) : bytes :=
  let acc := repeat x00 4 in
  let acc := if beqb (firstn 1 (slot 0 b)) [x01] then bit_set acc 31 else acc in
  serialize_slots 1 (tl b) acc.

(** trie.go:665 parseBatch. Slicing beyond the end (a Go panic) yields a short slot here. *)
Definition sub (from to : nat) (b : bytes) : bytes := firstn (to - from) (skipn from b).
Fixpoint parse_slots (val : bytes) (i n j : nat) : list bytes :=
  match n with
  | O => []
  | S n' =>
      if bit (firstn 4 val) (i - 1)
      then sub (4 + 33 * j) (4 + 33 * (j + 1)) val :: parse_slots val (S i) n' (S j)
      else [] :: parse_slots val (S i) n' j
  end.
Definition parse_batch (val : bytes) : batch :=
  if bit val 31
  then [x01] :: sub 4 37 val :: sub 37 70 val :: repeat [] 28
  else [x00] :: parse_slots val 1 30 0.

(** trie_cache.go:21-45 CacheDB: the three maps, plus the database table of serialized batches.
    Go maps are total functions here. *)
Record cdb := mk_cdb {
  live : bytes -> option batch;      (* liveCache *)
  updated : bytes -> option batch;   (* updatedNodes *)
  removed : bytes -> bool;           (* removedNode *)
  store : bytes -> option bytes      (* table tree: key -> serialized batch *)
}.
Definition map_set {A : Type} (m : bytes -> A) (k : bytes) (v : A) : bytes -> A :=
  fun x => if beqb x k then v else m x.

(** Computations of the trie on its node store. The store survives errors. *)
Definition M (A : Type) : Type := cdb -> res A * cdb.
Definition ret {A : Type} (a : A) : M A := fun s => (Ok a, s).
Definition bind {A B : Type} (m : M A) (f : A -> M B) : M B :=
  fun s => match m s with
           | (Ok a, s') => f a s'
           | (Err, s') => (Err, s')
           | (Panic, s') => (Panic, s')
           end.
Declare Scope trie_scope.
Notation "x <- m ;; k" := (bind m (fun x => k))
  (at level 61, m at next level, right associativity) : trie_scope.
Notation "' p <- m ;; k" := (bind m (fun x => match x with p => k end))
  (at level 61, p pattern, m at next level, right associativity) : trie_scope.
Open Scope trie_scope.

Section Trie.
  (** common.SHA256Hash on the concatenation of its arguments (pkg/common/hasher.go:14). *)
  Variable H : bytes -> bytes.
  (** Trie.CacheHeightLimit *)
  Variable limit : nat.
  (** Trie.atomicUpdate: false in Update, true in AtomicUpdate. *)
  Variable atomic : bool.

  (** trie.go:368 deleteOldNode *)
  Definition delete_old_node (root : bytes) (height : nat) (movingUp : bool) : M unit :=
    fun s =>
      let node := to_hash root in
      let upd := if negb atomic || movingUp then map_set (updated s) node None else updated s in
      let lv := if Nat.leb limit height then map_set (live s) node None else live s in
      (Ok tt, mk_cdb lv upd (removed s) (store s)).

  (** trie_cache.go:197 addRemoveNode *)
  Definition add_remove_node (node : bytes) : M unit :=
    fun s => (Ok tt, mk_cdb (live s) (updated s) (map_set (removed s) node true) (store s)).

  (** the guard at trie.go:219, 233, 239, 245 followed by addRemoveNode *)
  Definition maybe_remove (root : bytes) (height : nat) : M unit :=
    if negb (beqb (to_hash root) zero_hash) && Nat.eqb (height mod 4) 0
    then add_remove_node (to_hash root)
    else ret tt.

  (** trie.go:609 storeNode *)
  Definition store_node (b : batch) (h oldRoot : bytes) (height : nat) : M unit :=
    if beqb h oldRoot then ret tt
    else
      _ <- (fun s =>
             (Ok tt, mk_cdb (if Nat.leb limit height then map_set (live s) (to_hash h) (Some b) else live s)
                            (map_set (updated s) (to_hash h) (Some b)) (removed s) (store s))) ;;
      delete_old_node oldRoot height false.

  (** trie.go:526 loadBatch. A database error is [Err] as well as a missing row. *)
  Definition load_batch (root : bytes) (height : nat) : M batch :=
    fun s =>
      let node := to_hash root in
      match live s node with
      | Some b => (Ok b, s)
      | None =>
          match updated s node with
          | Some b => (Ok b, s)
          | None =>
              match store s (firstn HashLength root) with
              | Some (x :: v) =>
                  let b := parse_batch (x :: v) in
                  (Ok b, if Nat.leb limit height && Nat.eqb (height mod 4) 0
                         then mk_cdb (map_set (live s) (firstn HashLength root) (Some b))
                                     (updated s) (removed s) (store s)
                         else s)
              | _ => (Err, s)
              end
          end
      end.

  (** trie.go:497 loadChildren: (batch, iBatch, left, right, isShortcut) *)
  Definition load_children (root : bytes) (height iBatch : nat) (b : batch)
    : M (batch * nat * bytes * bytes * bool) :=
    if Nat.eqb (height mod 4) 0 then
      b' <- (match root with
             | [] => ret (set_nth 0 [x00] empty_batch)
             | _ :: _ => load_batch root height
             end) ;;
      ret (b', 0, slot 1 b', slot 2 b', beqb (firstn 1 (slot 0 b')) [x01])
    else
      ret (b, iBatch, slot (2 * iBatch + 1) b, slot (2 * iBatch + 2) b,
           match slot iBatch b with
           | [] => false
           | _ :: _ => beqb (firstn 1 (skipn HashLength (slot iBatch b))) [x01]
           end).

  (** trie.go:587 leafHash: returns the 33-byte node and the batch with key and value filled in. *)
  Definition leaf_hash (key value oldRoot : bytes) (b : batch) (iBatch height : nat)
    : M (bytes * batch) :=
    let h := H (key ++ value ++ [byte_of_nat height]) ++ [x01] in
    let b := set_nth (2 * iBatch + 2) (value ++ [x02]) b in
    let b := set_nth (2 * iBatch + 1) (key ++ [x02]) b in
    if Nat.eqb (height mod 4) 0 then
      let b := set_nth 0 [x01] b in
      _ <- store_node b h oldRoot height ;;
      ret (h, b)
    else ret (h, b).

  (** trie.go:624 interiorHash *)
  Definition interior_hash (left right oldRoot : bytes) (b : batch) (iBatch height : nat)
    : M (bytes * batch) :=
    let h := match left, right with
             | [], _ => H (DefaultLeaf ++ firstn HashLength right)
             | _, [] => H (firstn HashLength left ++ DefaultLeaf)
             | _, _ => H (firstn HashLength left ++ firstn HashLength right)
             end ++ [x00] in
    let b := set_nth (2 * iBatch + 2) right b in
    let b := set_nth (2 * iBatch + 1) left b in
    if Nat.eqb (height mod 4) 0 then
      let b := set_nth 0 [x00] b in
      _ <- store_node b h oldRoot height ;;
      ret (h, b)
    else ret (h, b).

  (** trie.go:383 splitKeys: cut before the first key with the bit set. *)
  Fixpoint split_keys {V : Type} (kvs : list (bytes * V)) (n : nat)
    : list (bytes * V) * list (bytes * V) :=
    match kvs with
    | [] => ([], [])
    | kv :: rest =>
        if bit (fst kv) n then ([], kvs)
        else let (l, r) := split_keys rest n in (kv :: l, r)
    end.

  (** trie.go:451 maybeAddShortcutToKV. [maybe_add_loop] is the loop at 467-489: [pre] are the pairs before
      index i, [post] those from index i on, [acc] is newKeys/newValues so far. *)
  Fixpoint maybe_add_loop (all pre post acc : list (bytes * bytes)) (higher : bool) (sk sv : bytes)
    : list (bytes * bytes) :=
    match post with
    | [] => acc
    | (k, v) :: rest =>
        if beqb sk k && negb (beqb DefaultLeaf v) then all
        else
          let acc := if beqb sk k then acc ++ pre ++ rest else acc in
          if negb higher && match bcmp sk k with Gt => true | _ => false end
          then maybe_add_loop all (pre ++ [(k, v)]) rest acc true sk sv
          else if higher && match bcmp sk k with Lt => true | _ => false end
               then acc ++ pre ++ [(sk, sv)] ++ post
               else maybe_add_loop all (pre ++ [(k, v)]) rest acc higher sk sv
    end.
  Definition maybe_add_shortcut (kvs : list (bytes * bytes)) (sk sv : bytes)
    : list (bytes * bytes) :=
    if match bcmp sk (fst (hd ([], []) kvs)) with Lt => true | _ => false end
    then (sk, sv) :: kvs
    else if match bcmp sk (fst (last kvs ([], []))) with Gt => true | _ => false end
         then kvs ++ [(sk, sv)]
         else maybe_add_loop kvs [] kvs [] false sk sv.

  (** trie.go:422 moveUpShortcut at height [S h']: (new node, deleted, batch). *)
  Definition move_up_shortcut (shortcut root : bytes) (b : batch) (iBatch iShortcut h' : nat)
    : M (bytes * bool * batch) :=
    let height := S h' in
    '(_, _, sk, sv, _) <- load_children shortcut h' iShortcut b ;;
    let new := H (firstn HashLength sk ++ firstn HashLength sv ++ [byte_of_nat height]) ++ [x01] in
    if Nat.eqb iBatch 0 then
      let b := set_nth 0 [x01] b in
      let b := set_nth (2 * iBatch + 1) sk b in
      let b := set_nth (2 * iBatch + 2) sv b in
      let b := set_nth (2 * iShortcut + 1) [] b in
      let b := set_nth (2 * iShortcut + 2) [] b in
      _ <- store_node b new root height ;;
      ret (new, true, b)
    else if Nat.eqb (h' mod 4) 0 then
      let b := set_nth (2 * iBatch + 1) sk b in
      let b := set_nth (2 * iBatch + 2) sv b in
      _ <- delete_old_node shortcut height true ;;
      ret (new, true, b)
    else
      let b := set_nth (2 * iBatch + 1) sk b in
      let b := set_nth (2 * iBatch + 2) sv b in
      let b := set_nth (2 * iShortcut + 1) [] b in
      let b := set_nth (2 * iShortcut + 2) [] b in
      ret (new, true, b).

  (** trie.go:394 maybeMoveUpShortcut at height [S h']; [None] is the Go result false. *)
  Definition maybe_move_up (left right root : bytes) (b : batch) (iBatch h' : nat)
    : M (option (bytes * bool * batch)) :=
    match left, right with
    | [], [] =>
        if Nat.eqb iBatch 0 then
          _ <- delete_old_node root (S h') true ;;
          ret (Some ([], true, b))
        else
          ret (Some ([], true, set_nth (2 * iBatch + 2) [] (set_nth (2 * iBatch + 1) [] b)))
    | [], _ :: _ =>
        if beqb (firstn 1 (skipn HashLength right)) [x01] then
          r <- move_up_shortcut right root b iBatch (2 * iBatch + 2) h' ;;
          ret (Some r)
        else ret None
    | _ :: _, [] =>
        if beqb (firstn 1 (skipn HashLength left)) [x01] then
          r <- move_up_shortcut left root b iBatch (2 * iBatch + 1) h' ;;
          ret (Some r)
        else ret None
    | _, _ => ret None
    end.

  (** The common tail of updateRight, updateLeft and updateParallel (trie.go:268-275, 287-294, 318-326). *)
  Definition finish (left right : bytes) (deleted : bool) (root : bytes) (b : batch) (iBatch h' : nat)
    : M (bytes * bool * batch) :=
    let hash :=
      '(node, b) <- interior_hash left right root b iBatch (S h') ;;
      ret (node, false, b) in
    if deleted then
      o <- maybe_move_up left right root b iBatch h' ;;
      match o with
      | Some r => ret r
      | None => hash
      end
    else hash.

  (** trie.go:164 update (with 255-326 updateRight, updateLeft, updateParallel inlined):
      (node, deleted, batch of the caller after the in-place changes).
      At a batch root (height divisible by four) the caller's batch is not touched. *)
  Fixpoint update (height : nat) (root : bytes) (kvs : list (bytes * bytes)) (b : batch) (iBatch : nat)
    {struct height} : M (bytes * bool * batch) :=
    match kvs with
    | [] => ret ([], false, b)
    | (k0, v0) :: _ =>
        match height with
        | O =>
            if beqb DefaultLeaf v0 then
              _ <- delete_old_node root 0 false ;;
              ret ([], true, b)
            else
              '(node, _) <- leaf_hash k0 v0 root empty_batch 0 0 ;;
              ret (node, false, b)
        | S h' =>
            '(nb, ni, lNode, rNode, isShortcut) <- load_children root height iBatch b ;;
            let out (b' : batch) := if Nat.eqb (height mod 4) 0 then b else b' in
            let continue (kvs : list (bytes * bytes)) (nb : batch) (lNode rNode : bytes)
              : M (bytes * bool * batch) :=
              match lNode, rNode, kvs with
              | [], [], [(k, v)] =>
                  if beqb DefaultLeaf v then ret ([], true, out nb)
                  else
                    _ <- maybe_remove root height ;;
                    '(node, nb) <- leaf_hash k v root nb ni height ;;
                    ret (node, false, out nb)
              | _, _, _ =>
                  let (lkvs, rkvs) := split_keys kvs (TrieHeight - height) in
                  _ <- maybe_remove root height ;;
                  match lkvs, rkvs with
                  | [], _ :: _ =>
                      '(r, del, nb) <- update h' rNode kvs nb (2 * ni + 2) ;;
                      '(node, d, nb) <- finish lNode r del root nb ni h' ;;
                      ret (node, d, out nb)
                  | _ :: _, [] =>
                      '(l, del, nb) <- update h' lNode kvs nb (2 * ni + 1) ;;
                      '(node, d, nb) <- finish l rNode del root nb ni h' ;;
                      ret (node, d, out nb)
                  | _, _ =>
                      '(l, ldel, nb) <- update h' lNode lkvs nb (2 * ni + 1) ;;
                      '(r, rdel, nb) <- update h' rNode rkvs nb (2 * ni + 2) ;;
                      '(node, d, nb) <- finish l r (ldel || rdel) root nb ni h' ;;
                      ret (node, d, out nb)
                  end
              end in
            if isShortcut then
              let kvs := maybe_add_shortcut kvs (firstn HashLength lNode) (firstn HashLength rNode) in
              _ <- (if Nat.eqb ni 0 then delete_old_node root height false else ret tt) ;;
              let nb := set_nth (2 * ni + 2) [] (set_nth (2 * ni + 1) [] nb) in
              match kvs with
              | [] => ret ([], true, out nb)
              | _ :: _ => continue kvs nb [] []
              end
            else continue kvs nb lNode rNode
        end
    end.

  (** trie.go:96 Update and 123 AtomicUpdate on a trie with root [root] (nil = []): the new root.
      With an empty key list Update returns nil without touching anything, the root stays. *)
  Definition trie_update (root : bytes) (kvs : list (bytes * bytes)) : M bytes :=
    match kvs with
    | [] => ret root
    | _ :: _ =>
        '(node, _, _) <- update TrieHeight root kvs [] 0 ;;
        ret (firstn HashLength node)
    end.

  (** trie_tools.go:111 Commit, trie_cache.go:59 commitChangesToDB: write the updated nodes, then delete the
      removed ones, and empty both sets. (Database errors: see the crash model.) *)
  Definition commit : M unit :=
    fun s =>
      let st1 := fun k => match updated s k with
                          | Some b => Some (serialize_batch b)
                          | None => store s k
                          end in
      let st2 := fun k => if removed s k then None else st1 k in
      (Ok tt, mk_cdb (live s) (fun _ => None) (fun _ => false) st2).

  (** trie.go:658 ResetLiveCache *)
  Definition reset_live_cache : M unit :=
    fun s => (Ok tt, mk_cdb (fun _ => None) (updated s) (removed s) (store s)).

  (** trie_tools.go:88 get *)
  Fixpoint get (height : nat) (root key : bytes) (b : batch) (iBatch : nat) : M bytes :=
    match root with
    | [] => ret []
    | _ :: _ =>
        '(nb, ni, l, r, isShortcut) <- load_children root height iBatch b ;;
        if isShortcut : bool then
          ret (if beqb (firstn HashLength l) key then firstn HashLength r else [])
        else
          match height with
          | O => fun s => (Panic, s) (* bitIsSet(key, 256) on a 32-byte key *)
          | S h' =>
              if bit key (TrieHeight - height) then get h' r key nb (2 * ni + 2)
              else get h' l key nb (2 * ni + 1)
          end
    end.
  Definition trie_get (root key : bytes) : M bytes := get TrieHeight root key [] 0.

  (** trie_merkle_proof.go:80 merkleProof: (audit path, included, proof key, proof value). *)
  Definition or_default (node : bytes) : bytes :=
    match node with [] => DefaultLeaf | _ :: _ => firstn HashLength node end.
  Fixpoint merkle_proof (height : nat) (root key : bytes) (b : batch) (iBatch : nat)
    : M (list bytes * bool * bytes * bytes) :=
    match root with
    | [] => ret ([], false, [], [])
    | _ :: _ =>
        '(nb, ni, l, r, isShortcut) <- load_children root height iBatch b ;;
        let leaf :=
          if beqb (firstn HashLength l) key then ret ([], true, [], firstn HashLength r)
          else ret ([], false, firstn HashLength l, firstn HashLength r) in
        match height with
        | O => leaf
        | S h' =>
            if isShortcut : bool then leaf
            else if bit key (TrieHeight - height) then
              '(ap, inc, pk, pv) <- merkle_proof h' r key nb (2 * ni + 2) ;;
              ret (ap ++ [or_default l], inc, pk, pv)
            else
              '(ap, inc, pk, pv) <- merkle_proof h' l key nb (2 * ni + 1) ;;
              ret (ap ++ [or_default r], inc, pk, pv)
        end
    end.
  Definition trie_merkle_proof (root key : bytes) : M (list bytes * bool * bytes * bytes) :=
    merkle_proof TrieHeight root key [] 0.

  (** trie_merkle_proof.go:137 verifyInclusion. [n] is len(ap) - keyIndex; [None] is a panic of bitIsSet. *)
  Fixpoint verify_path (ap : list bytes) (keyIndex n : nat) (key leaf : bytes) : option bytes :=
    match n with
    | O => Some leaf
    | S n' =>
        match bit_is_set key keyIndex with
        | None => None
        | Some b =>
            match verify_path ap (S keyIndex) n' key leaf with
            | None => None
            | Some h =>
                Some (if b then H (nth n' ap [] ++ h) else H (h ++ nth n' ap []))
            end
        end
    end.

  (** byte(256 - len(ap)): Go int arithmetic may be negative; the conversion keeps the low 8 bits. *)
  Definition depth_byte (n : nat) : byte :=
    match Byte.of_N (Z.to_N ((256 - Z.of_nat n) mod 256)) with Some b => b | None => x00 end.

  (** trie_merkle_proof.go:131 VerifyInclusion *)
  Definition verify_inclusion (root : bytes) (ap : list bytes) (key value : bytes) : option bool :=
    match verify_path ap 0 (length ap) key (H (key ++ value ++ [depth_byte (length ap)])) with
    | Some h => Some (beqb root h)
    | None => None
    end.

  (** the loop at trie_merkle_proof.go:167-172: do the first [n] bits from [b] agree? *)
  Fixpoint same_prefix (key proofKey : bytes) (b n : nat) : option bool :=
    match n with
    | O => Some true
    | S n' =>
        match bit_is_set key b, bit_is_set proofKey b with
        | Some x, Some y => if Bool.eqb x y then same_prefix key proofKey (S b) n' else Some false
        | _, _ => None
        end
    end.

  (** trie_merkle_proof.go:149 VerifyNonInclusion; root [None] is Go nil. *)
  Definition verify_non_inclusion (root : option bytes) (ap : list bytes) (key value proofKey : bytes)
    : option bool :=
    match root with
    | None => Some true
    | Some root =>
        match proofKey with
        | [] =>
            match verify_path ap 0 (length ap) key DefaultLeaf with
            | Some h => Some (beqb root h)
            | None => None
            end
        | _ :: _ =>
            match verify_inclusion root ap proofKey value with
            | Some true => same_prefix key proofKey 0 (length ap)
            | r => r
            end
        end
    end.

  (** trie_merkle_proof.go:60-72: compression of a path: (bitmap, non-default elements). *)
  Fixpoint compress_from (i : nat) (path : list bytes) (bitmap : bytes) : bytes * list bytes :=
    match path with
    | [] => (bitmap, [])
    | node :: rest =>
        if beqb node DefaultLeaf then compress_from (S i) rest bitmap
        else let (bm, mp) := compress_from (S i) rest (bit_set bitmap i) in (bm, node :: mp)
    end.
  Definition compress (path : list bytes) : bytes * list bytes :=
    compress_from 0 path (repeat x00 (length path / 8 + 1)).

  (** trie_merkle_proof.go:50 merkleProofCompressed: (bitmap, path, length, included, key, value). *)
  Definition trie_merkle_proof_compressed (root key : bytes)
    : M (bytes * list bytes * nat * bool * bytes * bytes) :=
    '(ap, inc, pk, pv) <- trie_merkle_proof root key ;;
    let (bm, mp) := compress ap in
    ret (bm, mp, length ap, inc, pk, pv).

  (** trie_merkle_proof.go:183 verifyInclusionC. [n] is length - keyIndex. A panic is [None]: bit index out of
      range, or the path exhausted (index -1). *)
  Fixpoint verify_path_c (bitmap key leaf : bytes) (ap : list bytes) (keyIndex n apIndex : nat)
    : option bytes :=
    match n with
    | O => Some leaf
    | S n' =>
        match bit_is_set key keyIndex, bit_is_set bitmap n' with
        | Some b, Some true =>
            if Nat.leb (S apIndex) (length ap) then
              match verify_path_c bitmap key leaf ap (S keyIndex) n' (S apIndex) with
              | Some h =>
                  let e := nth (length ap - apIndex - 1) ap [] in
                  Some (if b then H (e ++ h) else H (h ++ e))
              | None => None
              end
            else None
        | Some b, Some false =>
            match verify_path_c bitmap key leaf ap (S keyIndex) n' apIndex with
            | Some h => Some (if b then H (DefaultLeaf ++ h) else H (h ++ DefaultLeaf))
            | None => None
            end
        | _, _ => None
        end
    end.

  (** trie_merkle_proof.go:177 VerifyInclusionC against root [root] *)
  Definition verify_inclusion_c (root bitmap key value : bytes) (ap : list bytes) (len : nat)
    : option bool :=
    match verify_path_c bitmap key (H (key ++ value ++ [depth_byte len])) ap 0 len 0 with
    | Some h => Some (beqb root h)
    | None => None
    end.

  (** trie_merkle_proof.go:202 VerifyNonInclusionC *)
  Definition verify_non_inclusion_c (root : bytes) (ap : list bytes) (len : nat)
    (bitmap key value proofKey : bytes) : option bool :=
    match proofKey with
    | [] =>
        match verify_path_c bitmap key DefaultLeaf ap 0 len 0 with
        | Some h => Some (beqb root h)
        | None => None
        end
    | _ :: _ =>
        match verify_inclusion_c root bitmap proofKey value ap len with
        | Some true => same_prefix key proofKey 0 len
        | r => r
        end
    end.
End Trie.
