(** Model of the update of the sparse Merkle tree from the database tables: /repo/pkg/mapserver/updater/updater.go:448-578 UpdateSMT,
    /repo/pkg/db/mysql/smt.go, and the responder that reloads the root (/repo/pkg/mapserver/responder/responder.go:40).
    A statement is atomic; a dying process leaves the tables as they are between two statements. *)
From Verif Require Import Base UtilModel TrieModel TrieSpec DbModel BundleModel ClientModel.

(** The tables tree and root; root has at most one row (create_schema.sh:156). *)
Record disk := mk_disk { k_tree : bytes -> option bytes; k_root : option bytes }.
(** updater.go:570 loadRoot; no row is a nil root. *)
Definition load_root (k : disk) : bytes := match k_root k with Some r => r | None => [] end.
(** trie.go:59 NewTrie: empty caches. *)
Definition new_trie (k : disk) : cdb := mk_cdb (fun _ => None) (fun _ => None) (fun _ => false) (k_tree k).

Section Smt.
  Variable H : bytes -> bytes.
  Variable limit : nat. (* CacheHeightLimit, 32 at updater.go:537 *)

  (** updater.go:488 updateSMTFromDomainEntries *)
  Definition update_entries (root : bytes) (entries : list (bytes * bytes)) : M bytes :=
    r <- trie_update H limit false root (smt_input H entries) ;;
    _ <- commit ;;
    _ <- reset_live_cache ;;
    ret r.
  (** updater.go:459-483, for the bundles that the cursor yields. *)
  Fixpoint update_bundles (root : bytes) (bs : list (list (bytes * bytes))) : M bytes :=
    match bs with
    | [] => ret root
    | b :: bs' => r <- update_entries root b ;; update_bundles r bs'
    end.

  (** updater.go:524 UpdateSMT with bundles of at most [max] domains (1_000_000 in the code): the result and the tables after it. *)
  Definition update_smt (max : nat) (d : db) (k : disk) : res unit * disk :=
    match d_dirty d with
    | [] => (Ok tt, k)
    | _ =>
        match smt_bundles d max with
        | Some (Ok bs) =>
            match update_bundles (load_root k) (map (map (entry_of d)) bs) (new_trie k) with
            | (Ok [], s) => (Panic, mk_disk (store s) (k_root k)) (* panic("SMT tree root is nil") *)
            | (Ok r, s) => (Ok tt, mk_disk (store s) (Some r))
            | (Err, s) => (Err, mk_disk (store s) (k_root k))
            | (Panic, s) => (Panic, mk_disk (store s) (k_root k))
            end
        | _ => (Err, k)
        end
    end.

  (** ** The tables after each statement of the run *)
  (** trie_cache.go:84: REPLACE INTO tree of the updated nodes. *)
  Definition written (s : cdb) : bytes -> option bytes :=
    fun k => match updated s k with Some b => Some (serialize_batch b) | None => store s k end.
  Fixpoint bundle_disks (root : bytes) (bs : list (list (bytes * bytes))) (saved : option bytes) (s : cdb) : list disk :=
    match bs with
    | [] => match root with [] => [] | _ => [mk_disk (store s) (Some root)] end
    | b :: bs' =>
        match trie_update H limit false root (smt_input H b) s with
        | (Ok r, s1) =>
            let s2 := snd ((_ <- commit ;; reset_live_cache) s1) in
            mk_disk (written s1) saved :: mk_disk (store s2) saved :: bundle_disks r bs' saved s2
        | _ => []
        end
    end.
  Definition smt_disks (max : nat) (d : db) (k : disk) : list disk :=
    k :: match d_dirty d with
         | [] => []
         | _ => match smt_bundles d max with
                | Some (Ok bs) => bundle_disks (load_root k) (map (map (entry_of d)) bs) (k_root k) (new_trie k)
                | _ => []
                end
         end.

  (** responder.go:40 ReloadRootAndSignTreeHead and :63 GetProof for one name: a new trie on the saved root; the payload is
      hashed from the row of domain_payloads (RetrieveDomainCertificatesIDs, RetrieveDomainPoliciesIDs). *)
  Definition respond (d : db) (k : disk) (rlimit : nat) (name : bytes) : res response :=
    fst (get_proof_part H (fun id => H (snd (entry_of d id))) rlimit (load_root k) name (new_trie k)).

  (** ** Vocabulary for the theorems *)
  (** What the tables say about the dirty domains, as a batch in table order. *)
  Definition dirty_batch (d : db) : kvmap := map (fun r => (fst r, smt_value H (snd (entry_of d (fst r))))) (d_dirty d).

  (** The batch deletes all keys below some prefix and has, below that prefix, a smaller and a larger key than one of
      them. When the batch is cut into bundles, some bundle may delete the last key below the prefix and be [straddled]. *)
  Definition clears_between (m batch : kvmap) : Prop :=
    exists n d k1 k2,
      In (d, DefaultLeaf) batch /\ In d (keys m) /\ In k1 (keys batch) /\ In k2 (keys batch) /\
      bcmp k1 d = Lt /\ bcmp d k2 = Lt /\ agree n k1 d /\ agree n d k2 /\
      (forall x, In x (keys m) -> agree n x d -> In (x, DefaultLeaf) batch).

  (** An update for which no defect of trie.Update is triggered, from content [m] to content [m']: every dirty domain
      changes its value, see also TrieSpec.history; [m'] is not empty (UpdateSMT panics on an empty tree). *)
  Definition legal_update (G : bytes -> Prop) (m : kvmap) (d : db) (m' : kvmap) : Prop :=
    let b := dirty_batch d in
    NoDup (keys b) /\ Forall (fun k => length k = HashLength) (keys b) /\
    effective m b /\ ~ clears_between m b /\ sep (keys m ++ keys b) /\
    (forall c, incl c b -> NoDup (keys c) -> forall mc, is_map mc -> overridden m c mc -> covers H G mc) /\
    is_map m' /\ overridden m b m' /\ m' <> [].

  (** Tables reachable from empty ones by such updates, some of them killed after their first statement. *)
  Inductive reach (G : bytes -> Prop) : kvmap -> disk -> Prop :=
  | reach_empty : reach G [] (mk_disk (fun _ => None) None)
  | reach_update m k d max m' :
      reach G m k -> legal_update G m d m' -> 0 < max -> reach G m' (snd (update_smt max d k))
  | reach_killed m k d max m' k' :
      reach G m k -> legal_update G m d m' -> 0 < max -> nth_error (smt_disks max d k) 1 = Some k' -> reach G m k'.

  (** A new trie on the saved root returns the content [m]: every Get, and the root is that of [m]. *)
  Definition reads (m : kvmap) (k : disk) : Prop :=
    load_root k = root_of H m /\
    forall key, fst (trie_get limit (load_root k) key (new_trie k)) = Ok (match lookup m key with Some v => v | None => [] end).

  (** The content is what domain_payloads says about [id]. *)
  Definition synced (d : db) (m : kvmap) (id : bytes) : Prop :=
    lookup m id = match snd (entry_of d id) with [] => None | p => Some (H p) end.
End Smt.
