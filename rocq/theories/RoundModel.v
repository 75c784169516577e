(** Model of the update rounds of the map server: /repo/pkg/mapserver/mapserver.go:302 pruneAndUpdate, :329 update, :365 updateCerts.
    A round prunes, takes in batches of certificates, coalesces, updates the tree and empties the table dirty. The steps may
    come in any order and number here; only the tree update is tied to a completed coalescing in front and the emptying after.
    The steps themselves are the functions of DbModel.v and SmtModel.v. *)
From Verif Require Import Base UtilModel DbModel BundleModel.
From Verif Require Import TrieModel TrieSpec ClientModel SmtModel.

Section Round.
  Variable H : bytes -> bytes.
  Variable limit : nat. (* CacheHeightLimit *)
  Variable max_depth : nat. (* cte_max_recursion_depth *)
  Variable size : nat. (* chunk of calc_dirty_domains *)

  (** The arguments of UpdateWithOverwrite and UpdateWithKeepExisting *)
  Record batch := mk_batch { b_names : list (list bytes); b_ids : list bytes; b_parents : list bytes; b_certs : list bytes;
    b_exps : list Z; b_pols : list (bytes * bytes) }.
  (** updater.go:334 (keep = false), updater.go:369 (keep = true): the tables after all statements *)
  Definition ingest (keep : bool) (b : batch) (d : db) : res db :=
    match (if keep then keep_existing H d (b_names b) (b_ids b) (b_parents b) (b_certs b) (b_exps b) (b_pols b)
           else overwrite H (b_names b) (b_ids b) (b_parents b) (b_certs b) (b_exps b) (b_pols b)) with
    | Ok s => Ok (run s d)
    | Err => Err
    | Panic => Panic
    end.
  (** updater.go:283 updateCertBatch: the arguments for leaf certificates with their chains; [not_after] in seconds *)
  Variable not_after : cert -> Z.
  Definition parent_bytes (r : out_row) : bytes := match r with (_, _, Some p, _) => p | (_, _, None, _) => [] end.
  Definition row_names (r : out_row) : list bytes := match r with (_, _, _, Some ns) => ns | (_, _, _, None) => [] end.
  Definition row_cert (r : out_row) : cert := fst (fst (fst r)).
  Definition row_id (r : out_row) : bytes := snd (fst (fst r)).
  Definition chain_batch (l : list (cert * list cert)) : batch :=
    let rows := unfold_certs H l in
    mk_batch (map row_names rows) (map row_id rows) (map parent_bytes rows) (map (fun r => raw (row_cert r)) rows)
      (map (fun r => not_after (row_cert r)) rows) [].
  (** dirty.go:187 CleanupDirty *)
  Definition cleanup (d : db) : db := set_dirty [] d.

  (** ** Vocabulary for the theorems *)
  (** What a batch must satisfy: columns of equal length, ids of 32 bytes, each parent missing or in the batch or stored, and a
      certificate that is not stored although a name lists it (it was pruned) comes with that name. *)
  Definition batch_ok (d : db) (b : batch) : Prop :=
    length (b_names b) = length (b_ids b) /\ length (b_parents b) = length (b_ids b) /\
    length (b_certs b) = length (b_ids b) /\ length (b_exps b) = length (b_ids b) /\
    Forall (fun i => length i = HashLength) (b_ids b) /\
    (forall p, In p (b_parents b) -> p = [] \/ In p (b_ids b) \/ In p (map cr_id (d_certs d))) /\
    (forall x i, In i (b_ids b) -> ~ In i (map cr_id (d_certs d)) -> In (x, i) (d_dc d) ->
       exists j ns n, nth_error (b_names b) j = Some ns /\ nth_error (b_ids b) j = Some i /\ In n ns /\ x = H n).

  (** Batches as updateCertBatch makes them from certificates of a set [U], of which those with [leaf] only occur as leaves and the
      others only in chains. *)
  Definition chains_ok (U leaf : cert -> Prop) (l : list (cert * list cert)) : Prop :=
    forall c chain, In (c, chain) l -> U c /\ leaf c /\ forall p, In p chain -> U p /\ ~ leaf p.
  Definition chain_batches (U leaf : cert -> Prop) (keep : bool) (d : db) (b : batch) : Prop :=
    keep = true /\ exists l, chains_ok U leaf l /\ b = chain_batch l.

  (** The content of the tree, the tables and the tables of the tree that rounds with [allowed] batches lead to from empty ones. A pruning may die after
      any of its statements; a coalescing is any execution of its workers, dying or not; a tree update may die after its first statement. *)
  Inductive server (allowed : bool -> db -> batch -> Prop) (G : bytes -> Prop) : kvmap -> db -> disk -> Prop :=
  | server_start : server allowed G [] empty_db (mk_disk (fun _ => None) None)
  | server_ingest m d k keep b d' :
      server allowed G m d k -> allowed keep d b -> ingest keep b d = Ok d' -> server allowed G m d' k
  | server_prune m d k cut s n :
      server allowed G m d k -> prune_stmts max_depth cut d = Ok s -> server allowed G m (run (firstn n s) d) k
  | server_coalesce m d k es :
      server allowed G m d k -> server allowed G m (fst (exec H max_depth size (start d) es)) k
  | server_killed m d k max m' k' :
      server allowed G m d k -> legal_update H G m d m' -> 0 < max -> nth_error (smt_disks H limit max d k) 1 = Some k' -> server allowed G m d k'
  | server_update m d k es max m' k' :
      server allowed G m d k -> returned (exec H max_depth size (start d) es) = true ->
      let d1 := fst (exec H max_depth size (start d) es) in
      legal_update H G m d1 m' -> 0 < max -> update_smt H limit max d1 k = (Ok tt, k') -> server allowed G m' (cleanup d1) k'.
End Round.
