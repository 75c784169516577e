(** Specification vocabulary for the sparse Merkle trie: finite maps as key/value lists, the canonical tree of a
    map, its root. Independent of the batched storage of TrieModel.v. *)
From Verif Require Import Base TrieModel.

(** A finite map from keys to values, as a list of pairs. *)
Definition kvmap := list (bytes * bytes).

Fixpoint lookup (m : kvmap) (k : bytes) : option bytes :=
  match m with
  | [] => None
  | (k', v) :: m' => if beqb k' k then Some v else lookup m' k
  end.

(** A legal map: each key once, keys and values 32 bytes long. *)
Definition is_map (m : kvmap) : Prop :=
  NoDup (map fst m) /\
  Forall (fun kv => length (fst kv) = HashLength /\ length (snd kv) = HashLength) m.

(** The value a batch assigns: [Some None] deletes, [Some (Some v)] sets, [None] does not mention the key. *)
Definition batch_effect (batch : kvmap) (k : bytes) : option (option bytes) :=
  match lookup batch k with
  | None => None
  | Some v => Some (if beqb v DefaultLeaf then None else Some v)
  end.

(** [m'] is [m] overridden by the batch. *)
Definition overridden (m batch m' : kvmap) : Prop :=
  forall k, lookup m' k = match batch_effect batch k with
                          | Some r => r
                          | None => lookup m k
                          end.

(** A legal batch: strictly increasing 32-byte keys, values 32 bytes long or the default leaf. *)
Fixpoint increasing (ks : list bytes) : Prop :=
  match ks with
  | [] => True
  | k :: ks' => match ks' with
                | [] => True
                | k' :: _ => bcmp k k' = Lt
                end /\ increasing ks'
  end.
Definition is_batch (batch : kvmap) : Prop :=
  increasing (map fst batch) /\
  Forall (fun kv => length (fst kv) = HashLength /\
                    (length (snd kv) = HashLength \/ snd kv = DefaultLeaf)) batch.

(** The canonical tree of a map: a subtree with one key is one leaf, however high it sits. *)
Inductive tree : Type :=
| E
| L (k v : bytes)
| N (l r : tree).

Definition side (n : nat) (right : bool) (m : kvmap) : kvmap :=
  filter (fun kv => Bool.eqb (bit (fst kv) n) right) m.

Fixpoint build (h : nat) (m : kvmap) : tree :=
  match m with
  | [] => E
  | [(k, v)] => L k v
  | _ =>
      match h with
      | O => E (* unreachable for distinct keys with a common prefix *)
      | S h' => N (build h' (side (TrieHeight - h) false m)) (build h' (side (TrieHeight - h) true m))
      end
  end.

Section Root.
  Variable H : bytes -> bytes.

  (** Strings hashed for a leaf at height [h] and for an inner node. *)
  Definition leaf_string (k v : bytes) (h : nat) : bytes := k ++ v ++ [byte_of_nat h].
  Definition inner_string (l r : bytes) : bytes :=
    match l with [] => DefaultLeaf | _ => l end ++ match r with [] => DefaultLeaf | _ => r end.

  (** Hash of a tree whose root is at height [h]; the empty tree has the empty hash. *)
  Fixpoint hash_of (h : nat) (t : tree) : bytes :=
    match t with
    | E => []
    | L k v => H (leaf_string k v h)
    | N l r => H (inner_string (hash_of (pred h) l) (hash_of (pred h) r))
    end.

  Definition root_of (m : kvmap) : bytes := hash_of TrieHeight (build TrieHeight m).

  (** All strings hashed in a tree. *)
  Fixpoint strings_of (h : nat) (t : tree) : list bytes :=
    match t with
    | E => []
    | L k v => [leaf_string k v h]
    | N l r => inner_string (hash_of (pred h) l) (hash_of (pred h) r)
               :: strings_of (pred h) l ++ strings_of (pred h) r
    end.

  (** The strings a verifier hashes on the way from [leaf] to the root, see verify_path. *)
  Fixpoint path_strings (ap : list bytes) (i n : nat) (key leaf : bytes) : list bytes :=
    match n with
    | O => []
    | S n' =>
        match verify_path H ap (S i) n' key leaf with
        | Some x => (if bit key i then nth n' ap [] ++ x else x ++ nth n' ap []) :: path_strings ap (S i) n' key leaf
        | None => []
        end
    end.

  (** No only child has a hash that can be confused with a shifted default leaf: the right child of an empty
      left one does not end in a zero byte, the left child of an empty right one does not start with one. *)
  Fixpoint unambiguous (h : nat) (t : tree) : Prop :=
    match t with
    | N l r =>
        (l = E -> last (hash_of (pred h) r) x01 <> x00) /\
        (r = E -> hd x01 (hash_of (pred h) l) <> x00) /\
        unambiguous (pred h) l /\ unambiguous (pred h) r
    | _ => True
    end.
End Root.

(** Elements an honest prover puts on a path. *)
Definition legal_path (ap : list bytes) : Prop :=
  Forall (fun e => length e = HashLength \/ e = DefaultLeaf) ap.

(** No collision and no ambiguous concatenation occurs among the hashes of the strings in [G]:
    different strings have different hashes, and "default leaf ++ hash" is never "hash ++ default leaf". *)
Definition collision_free (H : bytes -> bytes) (G : bytes -> Prop) : Prop :=
  (forall x y, G x -> G y -> H x = H y -> x = y) /\
  (forall x y, G x -> G y -> DefaultLeaf ++ H x <> H y ++ DefaultLeaf).

(** Several updates in a row, from root [root]. *)
Fixpoint updates (H : bytes -> bytes) (limit : nat) (atomic : bool) (us : list kvmap) (root : bytes) : M bytes :=
  match us with
  | [] => ret root
  | u :: us' => r <- trie_update H limit atomic root u ;; updates H limit atomic us' r
  end.

(** A new trie on an empty database. *)
Definition fresh : cdb := mk_cdb (fun _ => None) (fun _ => None) (fun _ => false) (fun _ => None).

(** ** Vocabulary for the hypotheses of the trie theorems *)
Definition keys (m : kvmap) : list bytes := map fst m.
Definition agree (n : nat) (a b : bytes) : Prop := forall i, i < n -> bit a i = bit b i.
(** No two keys differ in the last bit only. *)
Definition sep (ks : list bytes) : Prop := forall a b, In a ks -> In b ks -> agree (TrieHeight - 1) a b -> a = b.
(** The batch deletes the only key below some prefix and also has a smaller and a larger key below that prefix. *)
Definition straddled (m batch : kvmap) : Prop :=
  exists n d k1 k2,
    In (d, DefaultLeaf) batch /\ In d (keys m) /\ In k1 (keys batch) /\ In k2 (keys batch) /\
    bcmp k1 d = Lt /\ bcmp d k2 = Lt /\ agree n k1 d /\ agree n d k2 /\
    (forall x, In x (keys m) -> agree n x d -> x = d).

(** Every entry of the batch changes the map. *)
Definition effective (m batch : kvmap) : Prop :=
  forall k v, In (k, v) batch ->
    (v <> DefaultLeaf -> lookup m k <> Some v) /\ (v = DefaultLeaf -> In k (keys m)).

Section History.
  Variable H : bytes -> bytes.
  Variable G : bytes -> Prop.

  (** [G] has all strings hashed in the tree of [m], and its leaf strings at any height. *)
  Definition covers (m : kvmap) : Prop :=
    (forall s, In s (strings_of H TrieHeight (build TrieHeight m)) -> G s) /\
    (forall k v h, In (k, v) m -> 1 <= h <= TrieHeight -> G (leaf_string k v h)).

  (** A trie in use: Update or AtomicUpdate with a batch, Commit, ResetLiveCache, or opening a new Trie
      (NewTrie, trie.go:59) with the same root on the same database. *)
  Inductive op : Type :=
  | OpUpdate (atomic : bool) (b : kvmap)
  | OpCommit
  | OpReset
  | OpReopen
  | OpGet (key : bytes)
  | OpProve (key : bytes).

  Definition reopen : M unit :=
    fun s => (Ok tt, mk_cdb (fun _ => None) (fun _ => None) (fun _ => false) (store s)).

  Definition run_op (limit : nat) (o : op) (root : bytes) : M bytes :=
    match o with
    | OpUpdate atomic b => trie_update H limit atomic root b
    | OpCommit => _ <- commit ;; ret root
    | OpReset => _ <- reset_live_cache ;; ret root
    | OpReopen => _ <- reopen ;; ret root
    | OpGet key => _ <- trie_get limit root key ;; ret root
    | OpProve key => _ <- trie_merkle_proof limit root key ;; ret root
    end.
  Fixpoint run_ops (limit : nat) (ops : list op) (root : bytes) : M bytes :=
    match ops with
    | [] => ret root
    | o :: ops' => r <- run_op limit o root ;; run_ops limit ops' r
    end.

  (** Uses of the trie from content [m] to content [m'], where no defect of the update is triggered: every
      entry of a batch changes the map, no deletion is straddled, no two keys differ in the last bit only;
      at most one update between commits, and nothing uncommitted when reopening. [n] counts the updates
      since the last commit. *)
  Inductive history : nat -> kvmap -> list op -> kvmap -> Prop :=
  | h_nil n m : history n m [] m
  | h_update n m atomic b m' ops m'' :
      is_batch b -> effective m b -> ~ straddled m b -> sep (keys m ++ keys b) ->
      is_map m' -> overridden m b m' -> covers m' ->
      history (S n) m' ops m'' -> history n m (OpUpdate atomic b :: ops) m''
  | h_commit n m ops m' : n <= 1 -> history 0 m ops m' -> history n m (OpCommit :: ops) m'
  | h_reset n m ops m' : history n m ops m' -> history n m (OpReset :: ops) m'
  | h_reopen m ops m' : history 0 m ops m' -> history 0 m (OpReopen :: ops) m'
  | h_get n m key ops m' : history n m ops m' -> history n m (OpGet key :: ops) m'
  | h_prove n m key ops m' : length key = HashLength -> history n m ops m' -> history n m (OpProve key :: ops) m'.
End History.

(** The root as Go sees it: an empty string is nil. *)
Definition go_root (root : bytes) : option bytes := match root with [] => None | _ :: _ => Some root end.
