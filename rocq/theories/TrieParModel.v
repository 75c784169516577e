(** Model of the trie update with its two halves in parallel: /repo/pkg/mapserver/trie/trie.go:164-326 as a
    program whose accesses to shared memory are single steps, so that the goroutines started by
    trySpawnUpdateWorker (trie.go:329-353) can interleave at any of them.

    Shared memory is the CacheDB of TrieModel.v (every map access of trie_cache.go:135-203 is made under its own
    mutex, the database read is one query) and the batches in use. A batch is reached through a Go slice that the
    two halves below it share; here it has a location, the path (bits from the top) of the node at its root.

    Simplifications:
    - both halves may always run in parallel. The code does so for 4096 or more keys and only while a slot of
      updateSem is free (trie.go:336, 340); otherwise a half runs to its end before the next statement. Those are
      some of the schedules of the model;
    - as in TrieModel.v, a batch taken from a cache is a copy of the cached one, and storing a batch stores its
      present content;
    - hashing, comparing and the work on keys and values are not steps: they touch local variables only. *)
From Verif Require Import Base TrieModel.

Definition path := list bool.
Fixpoint path_eqb (a b : path) : bool :=
  match a, b with
  | [], [] => true
  | x :: a', y :: b' => Bool.eqb x y && path_eqb a' b'
  | _, _ => false
  end.

Record st := mk_st { db : cdb; heap : path -> batch }.
Definition heap_set (hp : path -> batch) (l : path) (b : batch) : path -> batch :=
  fun x => if path_eqb x l then b else hp x.

(** Accesses to shared memory. *)
Inductive access : Type :=
| AGet (l : path) (i : nat)             (* read batch[i] *)
| ASet (l : path) (i : nat) (v : bytes) (* batch[i] = v *)
| ANew (l : path) (b : batch)           (* make a batch *)
| ALive (x : bytes) (l : path)          (* getLiveCache *)
| AUpd (x : bytes) (l : path)           (* getUpdatedNodes *)
| ADb (x : bytes) (l : path)            (* getValueLockFree and parseBatch *)
| ASaveLive (x : bytes) (l : path)      (* updateLiveCache *)
| ASaveUpd (x : bytes) (l : path)       (* updateUpdateNodes *)
| ADelLive (x : bytes)                  (* deleteLiveCache *)
| ADelUpd (x : bytes)                   (* deleteUpdatedNodes *)
| ARemove (x : bytes).                  (* addRemoveNode *)

(** The answer of an access (for the lookups: [x01] if found, else empty) and the memory after it. *)
Definition act (a : access) (s : st) : bytes * st :=
  let d := db s in
  let found (o : option batch) (l : path) : bytes * st :=
    match o with
    | Some b => ([x01], mk_st d (heap_set (heap s) l b))
    | None => ([], s)
    end in
  let with_db (d' : cdb) : bytes * st := ([], mk_st d' (heap s)) in
  match a with
  | AGet l i => (slot i (heap s l), s)
  | ASet l i v => ([], mk_st d (heap_set (heap s) l (set_nth i v (heap s l))))
  | ANew l b => ([], mk_st d (heap_set (heap s) l b))
  | ALive x l => found (live d x) l
  | AUpd x l => found (updated d x) l
  | ADb x l => found (match store d x with
                      | Some (y :: v) => Some (parse_batch (y :: v))
                      | _ => None
                      end) l
  | ASaveLive x l => with_db (mk_cdb (map_set (live d) x (Some (heap s l))) (updated d) (removed d) (store d))
  | ASaveUpd x l => with_db (mk_cdb (live d) (map_set (updated d) x (Some (heap s l))) (removed d) (store d))
  | ADelLive x => with_db (mk_cdb (map_set (live d) x None) (updated d) (removed d) (store d))
  | ADelUpd x => with_db (mk_cdb (live d) (map_set (updated d) x None) (removed d) (store d))
  | ARemove x => with_db (mk_cdb (live d) (updated d) (map_set (removed d) x true) (store d))
  end.

(** The content of a result channel (trie.go:150 mResult): node and deleted flag, or [None] for an error. *)
Definition mresult := option (bytes * bool).

Inductive prog : Type :=
| Ret (r : mresult)
| Do (a : access) (k : bytes -> prog)
| Par (p q : prog) (k : mresult -> mresult -> prog). (* run both, wait for both, go on *)

(** One step of the scheduler: it picks any of the running halves. *)
Inductive step : prog -> st -> prog -> st -> Prop :=
| step_do a k s : step (Do a k) s (k (fst (act a s))) (snd (act a s))
| step_left p q k s p' s' : step p s p' s' -> step (Par p q k) s (Par p' q k) s'
| step_right p q k s q' s' : step q s q' s' -> step (Par p q k) s (Par p q' k) s'
| step_join a b k s : step (Par (Ret a) (Ret b) k) s (k a b) s.

Inductive steps : prog -> st -> prog -> st -> Prop :=
| steps_nil p s : steps p s p s
| steps_cons p s p1 s1 p2 s2 : step p s p1 s1 -> steps p1 s1 p2 s2 -> steps p s p2 s2.

Section TriePar.
  Variable H : bytes -> bytes.
  Variable limit : nat.
  Variable atomic : bool.

  Definition yes (r : bytes) : bool := match r with [] => false | _ :: _ => true end.
  Definition doing (a : access) (p : prog) : prog := Do a (fun _ => p).

  (** trie.go:368 deleteOldNode *)
  Definition delete_old_p (root : bytes) (height : nat) (movingUp : bool) (k : prog) : prog :=
    let k := if Nat.leb limit height then doing (ADelLive (to_hash root)) k else k in
    if negb atomic || movingUp then doing (ADelUpd (to_hash root)) k else k.

  (** trie.go:219, 233, 239, 245 *)
  Definition maybe_remove_p (root : bytes) (height : nat) (k : prog) : prog :=
    if negb (beqb (to_hash root) zero_hash) && Nat.eqb (height mod 4) 0
    then doing (ARemove (to_hash root)) k
    else k.

  (** trie.go:609 storeNode of the batch at [l] *)
  Definition store_node_p (l : path) (h oldRoot : bytes) (height : nat) (k : prog) : prog :=
    if beqb h oldRoot then k
    else
      let k := delete_old_p oldRoot height false k in
      doing (ASaveUpd (to_hash h) l)
        (if Nat.leb limit height then doing (ASaveLive (to_hash h) l) k else k).

  (** trie.go:526 loadBatch into location [l]; the continuation is told whether it was found. *)
  Definition load_batch_p (root : bytes) (height : nat) (l : path) (k : bool -> prog) : prog :=
    Do (ALive (to_hash root) l) (fun r =>
    if yes r then k true
    else
      Do (AUpd (to_hash root) l) (fun r =>
      if yes r then k true
      else
        Do (ADb (firstn HashLength root) l) (fun r =>
        if yes r then
          if Nat.leb limit height && Nat.eqb (height mod 4) 0
          then doing (ASaveLive (firstn HashLength root) l) (k true)
          else k true
        else k false))).

  (** trie.go:497 loadChildren of the node with path [p] in the batch at [loc]:
      (location of its batch, iBatch, left, right, isShortcut). *)
  Definition load_children_p (root : bytes) (height : nat) (p loc : path) (iBatch : nat)
    (k : option (path * nat * bytes * bytes * bool) -> prog) : prog :=
    if Nat.eqb (height mod 4) 0 then
      let read (ok : bool) : prog :=
        if ok then
          Do (AGet p 0) (fun s0 =>
          Do (AGet p 1) (fun l =>
          Do (AGet p 2) (fun r => k (Some (p, 0, l, r, beqb (firstn 1 s0) [x01])))))
        else k None in
      match root with
      | [] => doing (ANew p (set_nth 0 [x00] empty_batch)) (read true)
      | _ :: _ => load_batch_p root height p read
      end
    else
      Do (AGet loc iBatch) (fun si =>
      Do (AGet loc (2 * iBatch + 1)) (fun l =>
      Do (AGet loc (2 * iBatch + 2)) (fun r =>
      k (Some (loc, iBatch, l, r, match si with
                                  | [] => false
                                  | _ :: _ => beqb (firstn 1 (skipn HashLength si)) [x01]
                                  end))))).

  (** trie.go:587 leafHash *)
  Definition leaf_hash_p (key value oldRoot : bytes) (loc : path) (iBatch height : nat)
    (k : bytes -> prog) : prog :=
    let h := H (key ++ value ++ [byte_of_nat height]) ++ [x01] in
    doing (ASet loc (2 * iBatch + 2) (value ++ [x02]))
    (doing (ASet loc (2 * iBatch + 1) (key ++ [x02]))
    (if Nat.eqb (height mod 4) 0
     then doing (ASet loc 0 [x01]) (store_node_p loc h oldRoot height (k h))
     else k h)).

  (** trie.go:624 interiorHash *)
  Definition interior_hash_p (left right oldRoot : bytes) (loc : path) (iBatch height : nat)
    (k : bytes -> prog) : prog :=
    let h := match left, right with
             | [], _ => H (DefaultLeaf ++ firstn HashLength right)
             | _, [] => H (firstn HashLength left ++ DefaultLeaf)
             | _, _ => H (firstn HashLength left ++ firstn HashLength right)
             end ++ [x00] in
    doing (ASet loc (2 * iBatch + 2) right)
    (doing (ASet loc (2 * iBatch + 1) left)
    (if Nat.eqb (height mod 4) 0
     then doing (ASet loc 0 [x00]) (store_node_p loc h oldRoot height (k h))
     else k h)).

  (** trie.go:422 moveUpShortcut at height [S h'] of the child [right] of the node with path [p]. *)
  Definition move_up_shortcut_p (shortcut root : bytes) (p loc : path) (iBatch iShortcut : nat) (right : bool)
    (h' : nat) : prog :=
    let height := S h' in
    load_children_p shortcut h' (p ++ [right]) loc iShortcut (fun o =>
    match o with
    | None => Ret None
    | Some (_, _, sk, sv, _) =>
        let new := H (firstn HashLength sk ++ firstn HashLength sv ++ [byte_of_nat height]) ++ [x01] in
        let done := Ret (Some (new, true)) in
        if Nat.eqb iBatch 0 then
          doing (ASet loc 0 [x01])
          (doing (ASet loc (2 * iBatch + 1) sk)
          (doing (ASet loc (2 * iBatch + 2) sv)
          (doing (ASet loc (2 * iShortcut + 1) [])
          (doing (ASet loc (2 * iShortcut + 2) [])
          (store_node_p loc new root height done)))))
        else if Nat.eqb (h' mod 4) 0 then
          doing (ASet loc (2 * iBatch + 1) sk)
          (doing (ASet loc (2 * iBatch + 2) sv)
          (delete_old_p shortcut height true done))
        else
          doing (ASet loc (2 * iBatch + 1) sk)
          (doing (ASet loc (2 * iBatch + 2) sv)
          (doing (ASet loc (2 * iShortcut + 1) [])
          (doing (ASet loc (2 * iShortcut + 2) []) done)))
    end).

  (** trie.go:268-275, 287-294, 318-326 with 394 maybeMoveUpShortcut *)
  Definition finish_p (left right : bytes) (deleted : bool) (root : bytes) (p loc : path) (iBatch h' : nat) : prog :=
    let hash := interior_hash_p left right root loc iBatch (S h') (fun node => Ret (Some (node, false))) in
    if deleted then
      match left, right with
      | [], [] =>
          if Nat.eqb iBatch 0 then delete_old_p root (S h') true (Ret (Some ([], true)))
          else
            doing (ASet loc (2 * iBatch + 1) [])
            (doing (ASet loc (2 * iBatch + 2) []) (Ret (Some ([], true))))
      | [], _ :: _ =>
          if beqb (firstn 1 (skipn HashLength right)) [x01]
          then move_up_shortcut_p right root p loc iBatch (2 * iBatch + 2) true h'
          else hash
      | _ :: _, [] =>
          if beqb (firstn 1 (skipn HashLength left)) [x01]
          then move_up_shortcut_p left root p loc iBatch (2 * iBatch + 1) false h'
          else hash
      | _, _ => hash
      end
    else hash.

  (** Wait for the result of a call, then go on. *)
  Fixpoint bindp (p : prog) (f : mresult -> prog) : prog :=
    match p with
    | Ret r => f r
    | Do a k => Do a (fun x => bindp (k x) f)
    | Par p q k => Par p q (fun a b => bindp (k a b) f)
    end.

  (** trie.go:164 update of the node with path [p], whose slot is [iBatch] of the batch at [loc]; 298
      updateParallel waits for both halves and only then looks at errors. *)
  Fixpoint update_p (height : nat) (root : bytes) (kvs : list (bytes * bytes)) (p loc : path) (iBatch : nat)
    {struct height} : prog :=
    match kvs with
    | [] => Ret (Some ([], false))
    | (k0, v0) :: _ =>
        match height with
        | O =>
            if beqb DefaultLeaf v0 then delete_old_p root 0 false (Ret (Some ([], true)))
            else
              doing (ANew p empty_batch)
                (leaf_hash_p k0 v0 root p 0 0 (fun node => Ret (Some (node, false))))
        | S h' =>
            load_children_p root height p loc iBatch (fun o =>
            match o with
            | None => Ret None
            | Some (loc', ni, lNode, rNode, isShortcut) =>
                let continue (kvs : list (bytes * bytes)) (lNode rNode : bytes) : prog :=
                  match lNode, rNode, kvs with
                  | [], [], [(k, v)] =>
                      if beqb DefaultLeaf v then Ret (Some ([], true))
                      else
                        maybe_remove_p root height
                          (leaf_hash_p k v root loc' ni height (fun node => Ret (Some (node, false))))
                  | _, _, _ =>
                      let (lkvs, rkvs) := split_keys kvs (TrieHeight - height) in
                      maybe_remove_p root height
                        match lkvs, rkvs with
                        | [], _ :: _ =>
                            bindp (update_p h' rNode kvs (p ++ [true]) loc' (2 * ni + 2)) (fun r =>
                            match r with
                            | None => Ret None
                            | Some (r, del) => finish_p lNode r del root p loc' ni h'
                            end)
                        | _ :: _, [] =>
                            bindp (update_p h' lNode kvs (p ++ [false]) loc' (2 * ni + 1)) (fun l =>
                            match l with
                            | None => Ret None
                            | Some (l, del) => finish_p l rNode del root p loc' ni h'
                            end)
                        | _, _ =>
                            Par (update_p h' lNode lkvs (p ++ [false]) loc' (2 * ni + 1))
                                (update_p h' rNode rkvs (p ++ [true]) loc' (2 * ni + 2))
                                (fun l r =>
                                 match l, r with
                                 | Some (l, ldel), Some (r, rdel) =>
                                     finish_p l r (ldel || rdel) root p loc' ni h'
                                 | _, _ => Ret None
                                 end)
                        end
                  end in
                if isShortcut then
                  let kvs := maybe_add_shortcut kvs (firstn HashLength lNode) (firstn HashLength rNode) in
                  let clear :=
                    doing (ASet loc' (2 * ni + 1) [])
                    (doing (ASet loc' (2 * ni + 2) [])
                    match kvs with
                    | [] => Ret (Some ([], true))
                    | _ :: _ => continue kvs [] []
                    end) in
                  if Nat.eqb ni 0 then delete_old_p root height false clear else clear
                else continue kvs lNode rNode
            end)
        end
    end.

  (** trie.go:96 Update and 123 AtomicUpdate with a non-empty batch. The root of the trie is a batch root, its
      location is the empty path. *)
  Definition trie_update_p (root : bytes) (kvs : list (bytes * bytes)) : prog :=
    update_p TrieHeight root kvs [] [] 0.
End TriePar.
